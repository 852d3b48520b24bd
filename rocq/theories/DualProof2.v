(** * Blocks of tensors and rotations at the points *)
From Coq Require Import String List Arith Bool Lia Ring Field.
From Verif Require Import Base BaseProof FormModel FormSpec FormProof FormProof2 AdModel AdModel2 AdSpec AdProof AdProof2 AdProof3 BcProof BcProof2 MixProof MixProof2 SolidSpec SolidProof SolidProof2 SolidProof3 DualModel DualSpec DualProof.
Import ListNotations.
Open Scope list_scope.

Lemma grid_div : forall k m c, c < m -> (k * m + c) / m = k.
Proof. intros. rewrite Nat.div_add_l by lia. rewrite Nat.div_small by assumption. lia. Qed.
Lemma grid_mod : forall k m c, c < m -> (k * m + c) mod m = c.
Proof. intros. rewrite Nat.add_comm, Nat.mod_add by lia. apply Nat.mod_small. assumption. Qed.

Section Tensors.
  Context {F : scalar} (HK : is_field F) (two : @kadd F k1 k1 <> k0).
  Let HF : is_ring F := field_is_ring F HK.
  Let HFd : field_theory (@k0 F) k1 kadd kmul ksub kopp (fun a b => kmul a (kinv b)) kinv eq := HK.
  Add Field KfieldR : HFd.
  Local Open Scope num_scope.

  Lemma val_field : forall b n m (g x : nat -> F) c, field_part n b m g x c = val b n m g x c.
  Proof. intros. unfold field_part, val. apply (Sum_ksum HF). Qed.

  (** the tensor with coefficients [x] *)
  Definition tens (b n m : nat) (t : tab F) (i : nat) (x : nat -> F) (c dir : nat) : F :=
    val b n m (fun k => t_val t 0 i k dir) x c.

  Lemma fblk_gen_inner : forall b n m t dim i y x, cols t dim = m ->
    fblk b n m (gen_inner t dim i) y x = khalf * contract m m (tens b n m t i x) (tens b n m t i y).
  Proof.
    intros b n m t dim i y x Hm. unfold fblk. rewrite (contract_ksum HK), <- (ksum_mul_l HF). apply ksum_ext. intros c Hc.
    rewrite (ksum_single HF m c); [|exact Hc|].
    - rewrite (cblk_ext b n m c b n m c _ (fun k l => khalf * ksum m (fun d => t_val t 0 i k d * t_val t 0 i l d))).
      + rewrite (cblk_scale HF). f_equal. rewrite (cblk_sum HF). apply ksum_ext. intros d Hd.
        rewrite (cblk_sep HF b n m c b n m c (fun k => t_val t 0 i k d) (fun l => t_val t 0 i l d)). unfold tens. ring.
      + intros k l Hk Hl. unfold gen_inner, inner_at. rewrite Hm, !grid_div, !grid_mod by assumption. rewrite Nat.eqb_refl. ring.
    - intros e He Hn. rewrite (cblk_ext b n m c b n m e _ (fun k l => k0 * k0)).
      + rewrite (cblk_sep HF b n m c b n m e (fun _ => k0) (fun _ => k0)). unfold val. rewrite (ksum_zero HF); [ring|]. intros; ring.
      + intros k l Hk Hl. unfold gen_inner. rewrite Hm, !grid_mod by assumption.
        replace (c =? e) with false by (symmetry; apply Nat.eqb_neq; congruence). ring.
  Qed.
  Lemma fblk_gen_outer : forall b n m t dim i y x, cols t dim = m ->
    fblk b n m (gen_outer t dim i) y x = khalf * contract m m (fun c dir => tens b n m t i x dir c) (tens b n m t i y).
  Proof.
    intros b n m t dim i y x Hm. unfold fblk. rewrite (contract_ksum HK), <- (ksum_mul_l HF). apply ksum_ext. intros c Hc.
    rewrite <- (ksum_mul_l HF). apply ksum_ext. intros e He.
    rewrite (cblk_ext b n m c b n m e _ (fun k l => khalf * (t_val t 0 i k e * t_val t 0 i l c))).
    - rewrite (cblk_scale HF), (cblk_sep HF b n m c b n m e (fun k => t_val t 0 i k e) (fun l => t_val t 0 i l c)). unfold tens. ring.
    - intros k l Hk Hl. unfold gen_outer. rewrite Hm, !grid_div, !grid_mod by assumption. reflexivity.
  Qed.
  Lemma fblk_outer : forall b n m t dim i y x, cols t dim = m ->
    fblk b n m (outer_at t dim i) y x = trace_of m (tens b n m t i x) * trace_of m (tens b n m t i y).
  Proof.
    intros b n m t dim i y x Hm. unfold fblk, trace_of. rewrite !(Sum_ksum HF).
    rewrite (ksum_ext m _ (fun c => ksum m (fun e => tens b n m t i y c c * tens b n m t i x e e))).
    - rewrite (ksum_ext m _ (fun c => ksum m (fun e => tens b n m t i x e e) * tens b n m t i y c c)).
      + rewrite (ksum_mul_l HF). reflexivity.
      + intros c Hc. rewrite (ksum_mul_l HF). ring.
    - intros c Hc. apply ksum_ext. intros e He.
      rewrite (cblk_ext b n m c b n m e _ (fun k l => t_val t 0 i k c * t_val t 0 i l e)).
      + rewrite (cblk_sep HF b n m c b n m e (fun k => t_val t 0 i k c) (fun l => t_val t 0 i l e)). reflexivity.
      + intros k l Hk Hl. unfold outer_at. rewrite Hm, !grid_div, !grid_mod by assumption. reflexivity.
  Qed.

  Lemma sym_sym : forall n (S T : nat -> nat -> F), contract n n (sym_part S) (sym_part T) =
    khalf * (contract n n S T + contract n n (fun c dir => S dir c) T).
  Proof.
    intros. rewrite (contract_sym HK two) by (intros; unfold sym_part; ring). rewrite <- (contract_add_l HK), <- (contract_mul_l HK).
    apply (contract_ext HK); intros; reflexivity.
  Qed.
  Lemma skew_skew : forall n (S T : nat -> nat -> F), contract n n (skew_part S) (skew_part T) =
    khalf * (contract n n S T - contract n n (fun c dir => S dir c) T).
  Proof.
    intros. rewrite (contract_skew HK two) by (intros; unfold skew_part; ring).
    transitivity (khalf * (contract n n S T + contract n n (fun c dir => (- k1) * S dir c) T)).
    - rewrite <- (contract_add_l HK), <- (contract_mul_l HK). apply (contract_ext HK); intros; [|reflexivity]. unfold skew_part, khalf, k2. ring.
    - rewrite (contract_mul_l HK). ring.
  Qed.
  Lemma of_nat_knat : forall n, @of_nat F n = knat n.
  Proof. intros. unfold of_nat, knat. apply (Sum_ksum HF). Qed.
  Lemma vol_is : forall n lambda mu i, @vol_factor F n lambda mu i =
    kinv ((k1 + k1) * mu i) * (lambda i * kinv ((k1 + k1) * mu i + of_nat n * lambda i)).
  Proof. intros. unfold vol_factor, kdiv, k2. rewrite of_nat_knat. ring. Qed.

  Lemma fblk_tensor : forall b n m t N c lambda mu kappa y x, cols t m = m ->
    fblk b n m (tensor_block t m N c lambda mu kappa) y x =
    ksum N (fun i => c i * compliance m (lambda i) (mu i) (kappa i) (tens b n m t i x) (tens b n m t i y)).
  Proof.
    intros b n m t N c lambda mu kappa y x Hm. unfold tensor_block.
    rewrite (fblk_add HF b n m (fun p q => weighted N _ _ p q + weighted N _ _ p q) (weighted N _ _)).
    rewrite (fblk_add HF b n m (weighted N _ _) (weighted N _ _)). rewrite !(fblk_weighted HF), <- !(ksum_add HF).
    apply ksum_ext. intros i Hi. unfold compliance. rewrite sym_sym, skew_skew.
    rewrite (fblk_add HF b n m (gen_inner t m i) (gen_outer t m i)).
    rewrite (fblk_ext b n m (fun p q => gen_inner t m i p q - gen_outer t m i p q)
       (fun p q => gen_inner t m i p q + (- k1) * gen_outer t m i p q)) by (intros; ring).
    rewrite (fblk_add HF b n m (gen_inner t m i) (fun p q => (- k1) * gen_outer t m i p q)).
    assert (SC : forall a M, fblk b n m (fun p q => a * M p q) y x = a * fblk b n m M y x).
    { intros a M. unfold fblk. rewrite <- (ksum_mul_l HF). apply ksum_ext. intros. rewrite <- (ksum_mul_l HF). apply ksum_ext. intros. apply (cblk_scale HF). }
    rewrite (fblk_ext b n m (fun p q => - outer_at t m i p q) (fun p q => (- k1) * outer_at t m i p q)) by (intros; ring).
    rewrite !SC, fblk_gen_inner, fblk_gen_outer, fblk_outer by exact Hm. rewrite vol_is. unfold kdiv, khalf, k2. ring.
  Qed.

  (** without the split: kappa = mu *)
  Lemma compliance_whole : forall n lambda mu (S T : nat -> nat -> F),
    compliance n lambda mu mu S T = kinv ((k1 + k1) * mu) * contract n n S T
      - kinv ((k1 + k1) * mu) * (lambda * kinv ((k1 + k1) * mu + of_nat n * lambda)) * (trace_of n S * trace_of n T).
  Proof.
    intros. unfold compliance. rewrite sym_sym, skew_skew. f_equal.
    transitivity (kinv ((k1 + k1) * mu) * ((khalf * (k1 + k1)) * contract n n S T)); [ring|].
    replace (khalf * (k1 + k1)) with (@k1 F) by (unfold khalf, k2; field; exact two). ring.
  Qed.

  (** mass matrices *)
  Lemma diag_inner : forall b n m t dim N c y x,
    ksum m (fun e => cblk b n m e b n m e (weighted N (inner_at t dim) c) y x) =
    ksum N (fun i => c i * contract m (cols t dim) (tens b n m t i x) (tens b n m t i y)).
  Proof.
    intros. rewrite (ksum_ext m _ (fun e => ksum N (fun i => c i * ksum (cols t dim) (fun d => tens b n m t i x e d * tens b n m t i y e d)))).
    - rewrite (ksum_swap HF). apply ksum_ext. intros i Hi. rewrite (ksum_mul_l HF), (contract_ksum HK). reflexivity.
    - intros e He. rewrite (cblk_weighted HF). apply ksum_ext. intros i Hi. f_equal. unfold inner_at. rewrite (cblk_sum HF). apply ksum_ext. intros d Hd.
      rewrite (cblk_sep HF b n m e b n m e (fun k => t_val t 0 i k d) (fun l => t_val t 0 i l d)). unfold tens. ring.
  Qed.
  Lemma diag_sep : forall b n m N (g : nat -> nat -> F) c y x,
    ksum m (fun e => cblk b n m e b n m e (weighted N (fun i k l => g i k * g i l) c) y x) =
    ksum N (fun i => c i * dot m (val b n m (g i) x) (val b n m (g i) y)).
  Proof.
    intros. rewrite (ksum_ext m _ (fun e => ksum N (fun i => c i * (val b n m (g i) x e * val b n m (g i) y e)))).
    - rewrite (ksum_swap HF). apply ksum_ext. intros i Hi. rewrite (ksum_mul_l HF). unfold dot. rewrite (Sum_ksum HF). reflexivity.
    - intros e He. rewrite (cblk_weighted HF). apply ksum_ext. intros i Hi. rewrite (cblk_sep HF). ring.
  Qed.
  (** a field and the divergence of another *)
  Lemma coupling_sep : forall ub n1 m sb n2 N (w : nat -> F) (f g : nat -> nat -> F) y x,
    ksum m (fun c => cblk ub n1 m c sb n2 m c (fun k l => ksum N (fun i => (w i * f i k) * g i l)) y x
                     + cblk sb n2 m c ub n1 m c (fun k l => ksum N (fun i => (w i * f i l) * g i k)) y x) =
    ksum N (fun i => w i * (dot m (val ub n1 m (f i) x) (val sb n2 m (g i) y) + dot m (val sb n2 m (g i) x) (val ub n1 m (f i) y))).
  Proof.
    intros. rewrite (ksum_ext m _ (fun c => ksum N (fun i => w i * (val ub n1 m (f i) x c * val sb n2 m (g i) y c + val sb n2 m (g i) x c * val ub n1 m (f i) y c)))).
    - rewrite (ksum_swap HF). apply ksum_ext. intros i Hi. rewrite (ksum_mul_l HF), (ksum_add HF). unfold dot. rewrite !(Sum_ksum HF). reflexivity.
    - intros c Hc. rewrite !(cblk_sum HF), <- (ksum_add HF). apply ksum_ext. intros i Hi.
      rewrite (cblk_sep HF ub n1 m c sb n2 m c (fun k => w i * f i k) (g i)).
      rewrite (cblk_ext sb n2 m c ub n1 m c _ (fun k l => g i k * (w i * f i l))) by (intros; ring).
      rewrite (cblk_sep HF sb n2 m c ub n1 m c (g i) (fun l => w i * f i l)).
      assert (V : forall z, val ub n1 m (fun k => w i * f i k) z c = w i * val ub n1 m (f i) z c).
      { intros z. unfold val. rewrite <- (ksum_mul_l HF). apply ksum_ext. intros. ring. }
      rewrite !V. ring.
  Qed.

  (** ** Rotations *)
  Section Rot.
    Variables (n tb nt ns nd N : nat) (tt st : tab F) (c : nat -> F) (y x : nat -> F).
    Let nr := n_rot nd.
    Hypothesis Hs : ns * nd <= n.
    Hypothesis Ht : tb + nt * nr <= n.
    Let R (z : nat -> F) (i m : nat) : F := val tb nt nr (fun k => t_val tt 0 i k 0) z m.
    Let S (z : nat -> F) (i : nat) : nat -> nat -> F := tens 0 ns nd st i z.

    Lemma rot_pair : forall J m cs dir (neg : bool), m < nr -> cs < nd ->
      let o k l := if neg then - rot_op tt st N c dir k l else rot_op tt st N c dir k l in
      bil n (add_block cs (cs + ns * nd) nd (m + tb) (m + tb + nt * nr) nr (fun k l => (- k1) * o l k)
              (add_block (m + tb) (m + tb + nt * nr) nr cs (cs + ns * nd) nd (fun k l => (- k1) * o k l) J)) y x
      = bil n J y x + ksum N (fun i => c i * ((if neg then k1 else - k1) * (R y i m * S x i cs dir + S y i cs dir * R x i m))).
    Proof.
      intros J m cs dir neg Hm Hc o.
      assert (EO : forall k l, (- k1) * o k l = weighted N (fun i k l => (if neg then k1 else - k1) * (t_val tt 0 i k 0 * t_val st 0 i l dir)) c k l).
      { intros k l. unfold o, rot_op, weighted. destruct neg.
        - transitivity (ksum N (fun i => t_val tt 0 i k 0 * t_val st 0 i l dir * c i)); [ring|]. apply ksum_ext. intros. ring.
        - rewrite <- (ksum_mul_l HF). apply ksum_ext. intros. ring. }
      pose proof (bil_cblock HF n 0 ns nd cs tb nt nr m (fun k l => (- k1) * o l k)
        (add_block (m + tb) (m + tb + nt * nr) nr cs (cs + ns * nd) nd (fun k l => (- k1) * o k l) J) y x Hc Hm Hs Ht) as E1.
      rewrite !Nat.add_0_r in E1. rewrite E1. clear E1.
      pose proof (bil_cblock HF n tb nt nr m 0 ns nd cs (fun k l => (- k1) * o k l) J y x Hm Hc Ht Hs) as E1.
      rewrite !Nat.add_0_r in E1. rewrite E1. clear E1.
      rewrite (cblk_ext tb nt nr m 0 ns nd cs _ (weighted N (fun i k l => (if neg then k1 else - k1) * (t_val tt 0 i k 0 * t_val st 0 i l dir)) c)) by (intros; apply EO).
      rewrite (cblk_ext 0 ns nd cs tb nt nr m _ (weighted N (fun i k l => (if neg then k1 else - k1) * (t_val st 0 i k dir * t_val tt 0 i l 0)) c)).
      2:{ intros k l Hk Hl. rewrite EO. unfold weighted. apply ksum_ext. intros. ring. }
      rewrite !(cblk_weighted HF). transitivity (bil n J y x + (ksum N (fun i => c i * cblk tb nt nr m 0 ns nd cs (fun k l => (if neg then k1 else - k1) * (t_val tt 0 i k 0 * t_val st 0 i l dir)) y x)
        + ksum N (fun i => c i * cblk 0 ns nd cs tb nt nr m (fun k l => (if neg then k1 else - k1) * (t_val st 0 i k dir * t_val tt 0 i l 0)) y x))); [ring|].
      f_equal. rewrite <- (ksum_add HF). apply ksum_ext. intros i Hi. rewrite !(cblk_scale HF).
      rewrite (cblk_sep HF tb nt nr m 0 ns nd cs (fun k => t_val tt 0 i k 0) (fun l => t_val st 0 i l dir)).
      rewrite (cblk_sep HF 0 ns nd cs tb nt nr m (fun k => t_val st 0 i k dir) (fun l => t_val tt 0 i l 0)). unfold R, S, tens. ring.
    Qed.

    Lemma rot_loop_ok : forall J, nd = 2%nat \/ nd = 3%nat ->
      exists J', rot_loop nd (rot_op tt st N c) tb (nt * nr) nr (ns * nd) nd J = Ok J' /\
        bil n J' y x = bil n J y x + ksum N (fun i => c i * (- contract nd nd (spin nd (R x i)) (S y i) - contract nd nd (S x i) (spin nd (R y i)))).
    Proof.
      intros J Hd. unfold rot_loop. destruct Hd as [E|E].
      - assert (En : nr = 1%nat) by (unfold nr; rewrite E; reflexivity).
        replace (seq 0 nr) with (seq 0 1) by (rewrite En; reflexivity).
        assert (M0 : rot_map nd 0 = Ok [(1%nat, 0%nat, false); (0%nat, 1%nat, true)]) by (unfold rot_map; rewrite E; reflexivity).
        cbn [seq foldM]. rewrite M0. cbn [bind fold_left]. eexists. split; [reflexivity|].
        rewrite (rot_pair _ 0 0 1 true) by lia. rewrite (rot_pair _ 0 1 0 false) by lia.
        transitivity (bil n J y x + (ksum N (fun i => c i * (- k1 * (R y i 0 * S x i 1 0 + S y i 1 0 * R x i 0))) + ksum N (fun i => c i * (k1 * (R y i 0 * S x i 0 1 + S y i 0 1 * R x i 0))))); [ring|].
        f_equal. rewrite <- (ksum_add HF). apply ksum_ext. intros i Hi. rewrite !(contract_ksum HK). clearbody R S. rewrite E. unfold spin. cbn. ring.
      - assert (En : nr = 3%nat) by (unfold nr; rewrite E; reflexivity).
        replace (seq 0 nr) with (seq 0 3) by (rewrite En; reflexivity).
        assert (M0 : rot_map nd 0 = Ok [(2%nat, 1%nat, false); (1%nat, 2%nat, true)]) by (unfold rot_map; rewrite E; reflexivity).
        assert (M1 : rot_map nd 1 = Ok [(0%nat, 2%nat, false); (2%nat, 0%nat, true)]) by (unfold rot_map; rewrite E; reflexivity).
        assert (M2 : rot_map nd 2 = Ok [(1%nat, 0%nat, false); (0%nat, 1%nat, true)]) by (unfold rot_map; rewrite E; reflexivity).
        cbn [seq foldM]. rewrite M0. cbn [bind fold_left]. rewrite M1. cbn [bind fold_left]. rewrite M2. cbn [bind fold_left]. eexists. split; [reflexivity|].
        rewrite (rot_pair _ 2 0 1 true) by lia. rewrite (rot_pair _ 2 1 0 false) by lia.
        rewrite (rot_pair _ 1 2 0 true) by lia. rewrite (rot_pair _ 1 0 2 false) by lia.
        rewrite (rot_pair _ 0 1 2 true) by lia. rewrite (rot_pair _ 0 2 1 false) by lia.
        set (B := bil n J y x).
        repeat match goal with |- ?b + ksum N ?f + ksum N ?g = _ => replace (b + ksum N f + ksum N g) with (b + ksum N (fun i => f i + g i)) by (rewrite (ksum_add HF); ring) end.
        f_equal. apply ksum_ext. intros i Hi. rewrite !(contract_ksum HK). clearbody R S. rewrite E. unfold spin. cbn. ring.
    Qed.
  End Rot.
End Tensors.
