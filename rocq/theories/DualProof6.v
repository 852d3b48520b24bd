(** * The dual forms and Riesz maps by automatic differentiation *)
From Coq Require Import String List Arith Bool Lia Ring Field.
From Verif Require Import Base BaseProof FormModel FormSpec FormProof FormProof2 AdModel AdModel2 AdSpec AdProof AdProof2 AdProof3 BcProof BcProof2 MixProof MixProof2 SolidSpec SolidProof SolidProof2 SolidProof3 DualModel DualSpec DualProof DualProof2 DualProof3 DualProof4 DualProof5.
Import ListNotations.
Open Scope list_scope.

Section Ad.
  Context {F : scalar} (HK : is_field F) (two : @kadd F k1 k1 <> k0).
  Let HF : is_ring F := field_is_ring F HK.
  Let HFd : field_theory (@k0 F) k1 kadd kmul ksub kopp (fun a b => kmul a (kinv b)) kinv eq := HK.
  Add Field KfieldV : HFd.
  Local Open Scope num_scope.

  Definition delta (a b : nat) : F := if a =? b then k1 else k0.
  Lemma val_unit : forall b n m (g : nat -> F) k c c', k < n -> c < m -> c' < m ->
    val b n m g (unit_at (b + (k * m + c))%nat) c' = delta c c' * g k.
  Proof.
    intros b n m g k c c' Hk Hm Hm'. unfold val, delta. destruct (Nat.eqb_spec c c') as [<-|N].
    - rewrite (ksum_single HF _ k); [rewrite unit_same; ring|exact Hk|]. intros j Hj Hn. rewrite unit_other; [ring|]. nia.
    - rewrite (ksum_zero HF); [ring|]. intros j Hj. rewrite unit_other; [ring|]. intros E. assert (j = k) by nia. subst. lia.
  Qed.
  Lemma val_out : forall b n m (g : nat -> F) a c, a < b \/ b + n * m <= a -> c < m -> val b n m g (unit_at a) c = k0.
  Proof. intros b n m g a c H Hc. unfold val. apply (ksum_zero HF). intros k Hk. rewrite unit_other; [ring|]. nia. Qed.
  Lemma val_lin : forall n alpha b n1 m (g : nat -> F) c, b + n1 * m <= n -> c < m ->
    lin n alpha (dsum n1 (fun k => dscale (g k) (dvar alpha (b + (k * m + c))%nat))) (fun x => val b n1 m g x c).
  Proof.
    intros n alpha b n1 m g c Hn Hc. apply (lin_eq _ _ _ (fun x => ksum n1 (fun k => g k * x (b + (k * m + c))%nat))).
    - apply (lin_sum HF). intros k Hk. apply (lin_scale HF), (lin_var HF). nia.
    - intros x. unfold val. apply ksum_ext. intros. ring.
  Qed.

  Lemma contract_row : forall n m (T : nat -> nat -> F) c g, c < n -> contract n m T (fun c' dir => delta c c' * g dir) = ksum m (fun dir => g dir * T c dir).
  Proof.
    intros n m T c g Hc. rewrite (contract_ksum HK), (ksum_single HF n c); [|exact Hc|].
    - apply ksum_ext. intros. unfold delta. rewrite Nat.eqb_refl. ring.
    - intros j Hj Hn. apply (ksum_zero HF). intros. unfold delta. replace (c =? j) with false by (symmetry; apply Nat.eqb_neq; congruence). ring.
  Qed.
  Lemma dot_row : forall n (u : nat -> F) c g, c < n -> dot n u (fun c' => delta c c' * g) = g * u c.
  Proof.
    intros n u c g Hc. rewrite (dot_ksum HK), (ksum_single HF n c); [|exact Hc|].
    - unfold delta. rewrite Nat.eqb_refl. ring.
    - intros j Hj Hn. unfold delta. replace (c =? j) with false by (symmetry; apply Nat.eqb_neq; congruence). ring.
  Qed.
  Lemma dot_zero : forall n (u v : nat -> F), (forall c, c < n -> v c = k0) -> dot n u v = k0.
  Proof. intros. rewrite (dot_ksum HK). apply (ksum_zero HF). intros. rewrite H by assumption. ring. Qed.

  (** the strain of a stress *)
  Definition Amap (nd : nat) (lambda mu kappa : F) (S : nat -> nat -> F) (a b : nat) : F :=
    kdiv k1 (k2 * mu) * (khalf * (S a b + S b a) - delta a b * (kdiv lambda (k2 * mu + knat nd * lambda) * ksum nd (fun e => S e e)))
    + kdiv k1 (k2 * kappa) * (khalf * (S a b - S b a)).
  Lemma Amap_lin : forall n alpha nd lambda mu kappa (h : nat -> nat -> dual F) (L : nat -> nat -> (nat -> F) -> F) a b, a < nd -> b < nd ->
    (forall a b, a < nd -> b < nd -> lin n alpha (h a b) (L a b)) ->
    lin n alpha (ad_compliance nd lambda mu kappa h a b) (fun x => Amap nd lambda mu kappa (fun a b => L a b x) a b).
  Proof.
    intros n alpha nd lambda mu kappa h L a b Ha Hb H. unfold ad_compliance, Amap, delta.
    apply (lin_add HF); [apply (lin_scale HF); apply (lin_sub HF)|apply (lin_scale HF)].
    - apply (lin_scale HF). apply (lin_add HF); apply H; assumption.
    - apply (lin_scale HF). apply (lin_scale HF). apply (lin_sum HF). intros. apply H; assumption.
    - apply (lin_scale HF). apply (lin_sub HF); apply H; assumption.
  Qed.
  Lemma Amap_contract : forall nd lambda mu kappa (S T : nat -> nat -> F), contract nd nd (Amap nd lambda mu kappa S) T = compliance nd lambda mu kappa S T.
  Proof.
    intros. unfold compliance. rewrite (contract_sym HK two) by (intros; unfold sym_part; ring). rewrite (contract_skew HK two) by (intros; unfold skew_part; ring).
    transitivity (contract nd nd (fun a b => kinv ((k1 + k1) * mu) * sym_part S a b + kinv ((k1 + k1) * kappa) * skew_part S a b) T
      + contract nd nd (fun a b => if a =? b then - (kinv ((k1 + k1) * mu) * (lambda * kinv ((k1 + k1) * mu + of_nat nd * lambda)) * trace_of nd S) else k0) T).
    - rewrite <- (contract_add_l HK). apply (contract_ext HK); [|reflexivity]. intros a b Ha Hb. unfold Amap, delta, sym_part, skew_part, trace_of.
      rewrite (of_nat_knat HK), (Sum_ksum HF). unfold kdiv, khalf, kdiv, k2. destruct (a =? b); ring.
    - rewrite (contract_add_l HK), !(contract_mul_l HK), (contract_diag HK). ring.
  Qed.
  Lemma compliance_zero : forall nd lambda mu kappa (S T : nat -> nat -> F), (forall a b, a < nd -> b < nd -> T a b = k0) -> compliance nd lambda mu kappa S T = k0.
  Proof. intros. rewrite <- Amap_contract. apply (contract_zero_r HK). assumption. Qed.
  Lemma couple_zero : forall nd lambda mu kappa (S T : nat -> nat -> F), nd = 2%nat \/ nd = 3%nat -> (forall a b, a < rot_dim nd -> b < nd -> T a b = k0) -> couple nd lambda mu kappa S T = k0.
  Proof.
    intros nd lambda mu kappa S T [-> | ->] H; unfold couple; cbn [Nat.eqb].
    - rewrite (contract_zero_r HK) by exact H. ring.
    - apply compliance_zero. exact H.
  Qed.
  Lemma cross_lin : forall n alpha nd (h : nat -> nat -> dual F) (L : nat -> nat -> (nat -> F) -> F) m, nd = 2%nat \/ nd = 3%nat -> m < n_rot nd ->
    (forall a b, a < nd -> b < nd -> lin n alpha (h a b) (L a b)) -> lin n alpha (s_cross nd h m) (fun x => cross nd (fun a b => L a b x) m).
  Proof.
    intros n alpha nd h L m [-> | ->] Hm H; unfold s_cross, cross; cbn [Nat.eqb n_rot] in *.
    - apply (lin_sub HF); apply H; lia.
    - destruct (lt3 m Hm) as [->|[->| ->]]; apply (lin_sub HF); apply H; lia.
  Qed.

  Section Couple.
    Variable d : lce_input F.
    Hypothesis Hfit : lce_dual_fits d.
    Variables (scale : nat -> F) (dm : nat -> nat -> F).
    Let D := li_data d scale dm.
    Let nd := li_dim d.
    Let nr := li_rot d.
    Let n := du_size D.
    Let w := li_w d.
    Let ns := t_nphi (e_tab (li_se d)).
    Let nm := t_nphi (e_tab (li_me d)).
    Let nu := t_nphi (e_tab (li_ue d)).
    Let nt := t_nphi (e_tab (li_te d)).

    Lemma du_sizes : at_m D = (ns * nd)%nat /\ at_u D = (at_m D + nm * nr)%nat /\ at_t D = (at_u D + nu * nd)%nat /\ n = (at_t D + nt * nr)%nat.
    Proof. repeat split. Qed.
    Lemma nd_pos' : nd <> 0%nat.
    Proof. destruct Hfit as ([E|E] & _); fold nd in E; lia. Qed.
    Lemma nr_pos' : nr <> 0%nat.
    Proof. unfold nr, li_rot. destruct (_ =? 2); lia. Qed.
    Lemma split_index : forall b k m a, m <> 0%nat -> b <= a -> a < b + k * m ->
      (a - b) / m < k /\ (a - b) mod m < m /\ a = (b + ((a - b) / m * m + (a - b) mod m))%nat.
    Proof.
      intros b k m a Hm H1 H2. pose proof (Nat.div_mod (a - b) m Hm) as E. pose proof (Nat.mod_upper_bound (a - b) m Hm).
      split; [|split; [assumption|nia]]. apply Nat.div_lt_upper_bound; [exact Hm|]. nia.
    Qed.

    (** the fields of a basis function *)
    Lemma s_part : forall k c i, k < ns -> c < nd -> let y := unit_at (0 + (k * nd + c))%nat in
      (forall a dir, a < nd -> vs D y i a dir = delta c a * t_val (e_tab (li_se d)) 0 i k dir) /\
      (forall a, a < nd -> vds D y i a = delta c a * du_ds D i k) /\
      (forall a dir, a < nr -> vm D y i a dir = k0) /\ (forall a, a < nr -> vdm D y i a = k0) /\
      (forall a, a < nd -> vu D y i a = k0) /\ (forall a, a < nr -> vt D y i a = k0).
    Proof.
      intros k c i Hk Hc y. pose proof du_sizes as (Z1 & Z2 & Z3 & Z4). assert (k * nd + c < ns * nd) by nia.
      split; [|split; [|split; [|split; [|split]]]]; intros; unfold y.
      - exact (val_unit 0 ns nd (fun k => t_val (e_tab (li_se d)) 0 i k dir) k c a Hk Hc H0).
      - exact (val_unit 0 ns nd (du_ds D i) k c a Hk Hc H0).
      - apply val_out; [left; lia|assumption].
      - apply val_out; [left; lia|assumption].
      - apply val_out; [left; lia|assumption].
      - apply val_out; [left; lia|assumption].
    Qed.
    Lemma m_part : forall k c i, k < nm -> c < nr -> let y := unit_at (at_m D + (k * nr + c))%nat in
      (forall a dir, a < nd -> vs D y i a dir = k0) /\ (forall a, a < nd -> vds D y i a = k0) /\
      (forall a dir, a < nr -> vm D y i a dir = delta c a * t_val (e_tab (li_me d)) 0 i k dir) /\
      (forall a, a < nr -> vdm D y i a = delta c a * dm i k) /\
      (forall a, a < nd -> vu D y i a = k0) /\ (forall a, a < nr -> vt D y i a = k0).
    Proof.
      intros k c i Hk Hc y. pose proof du_sizes as (Z1 & Z2 & Z3 & Z4). assert (k * nr + c < nm * nr) by nia.
      split; [|split; [|split; [|split; [|split]]]]; intros; unfold y.
      - apply val_out; [right; change (du_ns D) with ns; change (du_nd D) with nd; lia|assumption].
      - apply val_out; [right; change (du_ns D) with ns; change (du_nd D) with nd; lia|assumption].
      - exact (val_unit (at_m D) nm nr (fun k => t_val (e_tab (li_me d)) 0 i k dir) k c a Hk Hc H0).
      - exact (val_unit (at_m D) nm nr (dm i) k c a Hk Hc H0).
      - apply val_out; [left; lia|assumption].
      - apply val_out; [left; lia|assumption].
    Qed.
    Lemma u_part : forall k c i, k < nu -> c < nd -> let y := unit_at (at_u D + (k * nd + c))%nat in
      (forall a dir, a < nd -> vs D y i a dir = k0) /\ (forall a, a < nd -> vds D y i a = k0) /\
      (forall a dir, a < nr -> vm D y i a dir = k0) /\ (forall a, a < nr -> vdm D y i a = k0) /\
      (forall a, a < nd -> vu D y i a = delta c a * t_val (e_tab (li_ue d)) 0 i k 0) /\ (forall a, a < nr -> vt D y i a = k0).
    Proof.
      intros k c i Hk Hc y. pose proof du_sizes as (Z1 & Z2 & Z3 & Z4). assert (k * nd + c < nu * nd) by nia.
      split; [|split; [|split; [|split; [|split]]]]; intros; unfold y.
      - apply val_out; [right; change (du_ns D) with ns; change (du_nd D) with nd; lia|assumption].
      - apply val_out; [right; change (du_ns D) with ns; change (du_nd D) with nd; lia|assumption].
      - apply val_out; [right; change (du_nm D) with nm; change (du_nr D) with nr; lia|assumption].
      - apply val_out; [right; change (du_nm D) with nm; change (du_nr D) with nr; lia|assumption].
      - exact (val_unit (at_u D) nu nd (fun k => t_val (e_tab (li_ue d)) 0 i k 0) k c a Hk Hc H0).
      - apply val_out; [left; lia|assumption].
    Qed.
    Lemma t_part : forall k c i, k < nt -> c < nr -> let y := unit_at (at_t D + (k * nr + c))%nat in
      (forall a dir, a < nd -> vs D y i a dir = k0) /\ (forall a, a < nd -> vds D y i a = k0) /\
      (forall a dir, a < nr -> vm D y i a dir = k0) /\ (forall a, a < nr -> vdm D y i a = k0) /\
      (forall a, a < nd -> vu D y i a = k0) /\ (forall a, a < nr -> vt D y i a = delta c a * t_val (e_tab (li_te d)) 0 i k 0).
    Proof.
      intros k c i Hk Hc y. pose proof du_sizes as (Z1 & Z2 & Z3 & Z4). assert (k * nr + c < nt * nr) by nia.
      split; [|split; [|split; [|split; [|split]]]]; intros; unfold y.
      - apply val_out; [right; change (du_ns D) with ns; change (du_nd D) with nd; lia|assumption].
      - apply val_out; [right; change (du_ns D) with ns; change (du_nd D) with nd; lia|assumption].
      - apply val_out; [right; change (du_nm D) with nm; change (du_nr D) with nr; lia|assumption].
      - apply val_out; [right; change (du_nm D) with nm; change (du_nr D) with nr; lia|assumption].
      - apply val_out; [right; change (du_nu D) with nu; change (du_nd D) with nd; lia|assumption].
      - exact (val_unit (at_t D) nt nr (fun k => t_val (e_tab (li_te d)) 0 i k 0) k c a Hk Hc H0).
    Qed.

    (** the rows of the energy *)
    Lemma energy_s : forall x y i c g, c < nd -> (forall a dir, a < nd -> vs D y i a dir = delta c a * g dir) ->
      (forall a dir, a < nr -> vm D y i a dir = k0) ->
      ven D x y i = ksum nd (fun b => g b * Amap nd (li_lambda_s d i) (li_mu_s d i) (li_kappa_s d i) (vs D x i) c b).
    Proof.
      intros x y i c g Hc H1 H2. destruct Hfit as (E1 & _). fold nd in E1. unfold ven. change (du_nd D) with nd.
      rewrite (couple_zero nd _ _ _ (vm D x i) (vm D y i) E1) by (intros; apply H2; assumption). rewrite <- Amap_contract.
      rewrite (contract_ext HK nd nd _ (Amap nd (li_lambda_s d i) (li_mu_s d i) (li_kappa_s d i) (vs D x i)) (vs D y i) (fun a dir => delta c a * g dir)) by (intros; first [reflexivity|apply H1; assumption]).
      rewrite contract_row by exact Hc. ring.
    Qed.
    Definition Bmap (i : nat) (S : nat -> nat -> F) (a b : nat) : F :=
      if nd =? 2 then scale i * (kdiv k1 (li_mu_o d i + li_kappa_o d i) * S a b)
      else scale i * Amap nd (li_lambda_o d i) (li_mu_o d i) (li_kappa_o d i) S a b.
    Lemma energy_m : forall x y i c g, c < nr -> (forall a dir, a < nd -> vs D y i a dir = k0) ->
      (forall a dir, a < nr -> vm D y i a dir = delta c a * g dir) ->
      ven D x y i = ksum nd (fun b => g b * Bmap i (vm D x i) c b).
    Proof.
      intros x y i c g Hc H1 H2. destruct Hfit as (E1 & _). fold nd in E1. unfold ven. change (du_nd D) with nd.
      rewrite (compliance_zero nd _ _ _ (vs D x i) (vs D y i)) by (intros; apply H1; assumption).
      unfold couple, Bmap. unfold nr, li_rot in Hc, H2. fold nd in Hc, H2. destruct E1 as [E|E].
      - replace (nd =? 2) with true in * by (rewrite E; reflexivity).
        rewrite (contract_ext HK 1 2 (vm D x i) (vm D x i) (vm D y i) (fun a dir => delta c a * g dir)) by (intros; first [reflexivity|apply H2; assumption]).
        rewrite contract_row by exact Hc. rewrite E. simpl. unfold kdiv. ring.
      - replace (nd =? 2) with false in * by (rewrite E; reflexivity). rewrite <- Amap_contract.
        rewrite (contract_ext HK nd nd _ (Amap nd (du_lambda_o D i) (du_mu_o D i) (du_kappa_o D i) (vm D x i)) (vm D y i) (fun a dir => delta c a * g dir)) by (intros; first [reflexivity|apply H2; lia]).
        rewrite contract_row by lia. rewrite (ksum_ext nd (fun b => g b * (scale i * Amap nd (li_lambda_o d i) (li_mu_o d i) (li_kappa_o d i) (vm D x i) c b))
          (fun b => scale i * (g b * Amap nd (li_lambda_o d i) (li_mu_o d i) (li_kappa_o d i) (vm D x i) c b))) by (intros; ring).
        rewrite (ksum_mul_l HF). change (du_scale D i) with (scale i). simpl. ring.
    Qed.
    Lemma energy_none : forall x y i, (forall a dir, a < nd -> vs D y i a dir = k0) -> (forall a dir, a < nr -> vm D y i a dir = k0) -> ven D x y i = k0.
    Proof.
      intros x y i H1 H2. destruct Hfit as (E1 & _). fold nd in E1. unfold ven. change (du_nd D) with nd.
      rewrite (couple_zero nd _ _ _ (vm D x i) (vm D y i) E1) by (intros; apply H2; assumption).
      rewrite (compliance_zero nd _ _ _ (vs D x i) (vs D y i)) by (intros; apply H1; assumption). ring.
    Qed.
    Lemma spin_none : forall (T : nat -> nat -> F) y i, (forall a, a < nr -> vt D y i a = k0) -> contract nd nd T (spin nd (vt D y i)) = k0.
    Proof.
      intros T y i H. destruct Hfit as (E1 & _). fold nd in E1. apply (contract_zero_r HK). intros c dir Hc Hd.
      rewrite (spin_ext nd _ (fun _ => k0)); [apply (spin_zero HK)|exact E1|exact Hc|exact Hd|]. intros. apply H. assumption.
    Qed.
    Lemma spin_row : forall (T : nat -> nat -> F) y i c g, c < nr -> (forall a, a < nr -> vt D y i a = delta c a * g) -> contract nd nd T (spin nd (vt D y i)) = g * cross nd T c.
    Proof.
      intros T y i c g Hc H. destruct Hfit as (E1 & _). fold nd in E1. rewrite <- (contract_spin HK nd T c g E1 Hc).
      apply (contract_ext HK); [reflexivity|]. intros a dir Ha Hd. apply spin_ext; [exact E1|exact Ha|exact Hd|]. intros m Hm. apply H. exact Hm.
    Qed.

    (** the rows of the forms *)
    Definition dual_row (i a : nat) (x : nat -> F) : F :=
      if a <? at_m D then
        let k := (a / nd)%nat in let c := (a mod nd)%nat in
        ksum nd (fun b => t_val (e_tab (li_se d)) 0 i k b * Amap nd (li_lambda_s d i) (li_mu_s d i) (li_kappa_s d i) (vs D x i) c b)
        + du_ds D i k * vu D x i c - ksum nd (fun b => t_val (e_tab (li_se d)) 0 i k b * spin nd (vt D x i) c b)
      else if a <? at_u D then
        let k := ((a - at_m D) / nr)%nat in let c := ((a - at_m D) mod nr)%nat in
        ksum nd (fun b => t_val (e_tab (li_me d)) 0 i k b * Bmap i (vm D x i) c b) + dm i k * vt D x i c
      else if a <? at_t D then
        let k := ((a - at_u D) / nd)%nat in let c := ((a - at_u D) mod nd)%nat in
        t_val (e_tab (li_ue d)) 0 i k 0 * vds D x i c
      else
        let k := ((a - at_t D) / nr)%nat in let c := ((a - at_t D) mod nr)%nat in
        t_val (e_tab (li_te d)) 0 i k 0 * vdm D x i c - t_val (e_tab (li_te d)) 0 i k 0 * cross nd (vs D x i) c.
    Definition riesz_row (i a : nat) (x : nat -> F) : F :=
      if a <? at_m D then
        let k := (a / nd)%nat in let c := (a mod nd)%nat in
        ksum nd (fun b => t_val (e_tab (li_se d)) 0 i k b * Amap nd (li_lambda_s d i) (li_mu_s d i) (li_kappa_s d i) (vs D x i) c b)
        + du_ds D i k * vds D x i c
      else if a <? at_u D then
        let k := ((a - at_m D) / nr)%nat in let c := ((a - at_m D) mod nr)%nat in
        ksum nd (fun b => t_val (e_tab (li_me d)) 0 i k b * Bmap i (vm D x i) c b) + dm i k * vdm D x i c
      else if a <? at_t D then
        let k := ((a - at_u D) / nd)%nat in let c := ((a - at_u D) mod nd)%nat in
        t_val (e_tab (li_ue d)) 0 i k 0 * vu D x i c
      else
        let k := ((a - at_t D) / nr)%nat in let c := ((a - at_t D) mod nr)%nat in
        t_val (e_tab (li_te d)) 0 i k 0 * vt D x i c.

    Lemma row_dot : forall m (u v : nat -> F) c g, c < m -> (forall a, a < m -> v a = delta c a * g) -> dot m u v = g * u c.
    Proof. intros m u v c g Hc H. rewrite (dot_ext HK m u u v (fun a => delta c a * g)) by (intros; first [reflexivity|apply H; assumption]). apply dot_row. exact Hc. Qed.

    Lemma rows_ok : forall i a x, a < n -> dual_point D x (unit_at a) i = dual_row i a x /\ riesz_point D x (unit_at a) i = riesz_row i a x.
    Proof.
      intros i a x Ha. pose proof du_sizes as (Z1 & Z2 & Z3 & Z4). unfold dual_row, riesz_row, dual_point, riesz_point.
      change (du_nd D) with nd. change (du_nr D) with nr.
      destruct (Nat.ltb_spec a (at_m D)) as [H1|H1].
      - destruct (split_index 0 ns nd a nd_pos' ltac:(lia) ltac:(lia)) as (I1 & I2 & I3). rewrite Nat.sub_0_r in I1, I2, I3.
        destruct (s_part (a / nd) (a mod nd) i I1 I2) as (P1 & P2 & P3 & P4 & P5 & P6). rewrite <- I3 in P1, P2, P3, P4, P5, P6. cbn zeta.
        rewrite (energy_s x _ i (a mod nd) (t_val (e_tab (li_se d)) 0 i (a / nd)) I2 P1 P3).
        rewrite !(row_dot nd _ (vds D (unit_at a) i) (a mod nd) (du_ds D i (a / nd)) I2 P2).
        rewrite !(dot_zero nr _ (vdm D (unit_at a) i) P4), !(dot_zero nr _ (vt D (unit_at a) i) P6), !(dot_zero nd _ (vu D (unit_at a) i) P5).
        rewrite (spin_none _ _ _ P6).
        rewrite (contract_ext HK nd nd (spin nd (vt D x i)) (spin nd (vt D x i)) (vs D (unit_at a) i) (fun c dir => delta (a mod nd) c * t_val (e_tab (li_se d)) 0 i (a / nd) dir)) by (intros; first [reflexivity|apply P1; assumption]).
        rewrite contract_row by exact I2. split; ring.
      - destruct (Nat.ltb_spec a (at_u D)) as [H2|H2].
        + destruct (split_index (at_m D) nm nr a nr_pos' H1 ltac:(lia)) as (I1 & I2 & I3).
          destruct (m_part ((a - at_m D) / nr) ((a - at_m D) mod nr) i I1 I2) as (P1 & P2 & P3 & P4 & P5 & P6). rewrite <- I3 in P1, P2, P3, P4, P5, P6. cbn zeta.
          rewrite (energy_m x _ i _ (t_val (e_tab (li_me d)) 0 i ((a - at_m D) / nr)) I2 P1 P3).
          rewrite !(row_dot nr _ (vdm D (unit_at a) i) _ _ I2 P4).
          rewrite !(dot_zero nd _ (vds D (unit_at a) i) P2), !(dot_zero nr _ (vt D (unit_at a) i) P6), !(dot_zero nd _ (vu D (unit_at a) i) P5).
          rewrite (spin_none _ _ _ P6), (contract_zero_r HK nd nd _ (vs D (unit_at a) i)) by (intros; apply P1; assumption). split; ring.
        + destruct (Nat.ltb_spec a (at_t D)) as [H3|H3].
          * destruct (split_index (at_u D) nu nd a nd_pos' H2 ltac:(lia)) as (I1 & I2 & I3).
            destruct (u_part ((a - at_u D) / nd) ((a - at_u D) mod nd) i I1 I2) as (P1 & P2 & P3 & P4 & P5 & P6). rewrite <- I3 in P1, P2, P3, P4, P5, P6. cbn zeta.
            rewrite (energy_none x _ i P1 P3). rewrite !(row_dot nd _ (vu D (unit_at a) i) _ _ I2 P5).
            rewrite !(dot_zero nr _ (vdm D (unit_at a) i) P4), !(dot_zero nr _ (vt D (unit_at a) i) P6), !(dot_zero nd _ (vds D (unit_at a) i) P2).
            rewrite (spin_none _ _ _ P6), (contract_zero_r HK nd nd _ (vs D (unit_at a) i)) by (intros; apply P1; assumption). split; ring.
          * destruct (split_index (at_t D) nt nr a nr_pos' H3 ltac:(lia)) as (I1 & I2 & I3).
            destruct (t_part ((a - at_t D) / nr) ((a - at_t D) mod nr) i I1 I2) as (P1 & P2 & P3 & P4 & P5 & P6). rewrite <- I3 in P1, P2, P3, P4, P5, P6. cbn zeta.
            rewrite (energy_none x _ i P1 P3). rewrite !(row_dot nr _ (vt D (unit_at a) i) _ _ I2 P6).
            rewrite !(dot_zero nr _ (vdm D (unit_at a) i) P4), !(dot_zero nd _ (vu D (unit_at a) i) P5), !(dot_zero nd _ (vds D (unit_at a) i) P2).
            rewrite (spin_row _ _ _ _ _ I2 P6), (contract_zero_r HK nd nd _ (vs D (unit_at a) i)) by (intros; apply P1; assumption). split; ring.
    Qed.

    (** *** The integrands are linear, with these rows *)
    Section Lin.
      Variables (alpha : nat -> F) (dv : nat -> nat -> F) (i : nat).
      Hypothesis Hi : i < length w.
      Hypothesis Hdv : forall k, dv i k = dm i k.

      Lemma ns_le : 0 + ns * nd <= n.
      Proof. pose proof du_sizes. lia. Qed.
      Lemma nm_le : at_m D + nm * nr <= n.
      Proof. pose proof du_sizes. lia. Qed.
      Lemma nu_le : at_u D + nu * nd <= n.
      Proof. pose proof du_sizes. lia. Qed.
      Lemma nt_le : at_t D + nt * nr <= n.
      Proof. pose proof du_sizes. lia. Qed.
      Lemma comp_s : (t_nphi (e_tab (li_se d)) * fe_comp (li_s d))%nat = at_m D.
      Proof. destruct Hfit as (E1 & E2 & _). rewrite E2. reflexivity. Qed.
      Lemma comp_m : (at_m D + t_nphi (e_tab (li_me d)) * fe_comp (li_m d))%nat = at_u D.
      Proof. destruct Hfit as (E1 & E2 & E3 & _). rewrite E3. reflexivity. Qed.
      Lemma comp_u : (at_u D + t_nphi (e_tab (li_ue d)) * fe_comp (li_u d))%nat = at_t D.
      Proof. destruct Hfit as (E1 & E2 & E3 & E4 & _). rewrite E4. reflexivity. Qed.

      Lemma ad_s_lin : forall a b, a < nd -> lin n alpha (ad_s d (dvar alpha) i a b) (fun x => vs D x i a b).
      Proof.
        intros a b Ha. destruct Hfit as (E1 & E2 & _). unfold ad_s. rewrite E2. fold nd.
        exact (val_lin n alpha 0 ns nd (fun k => t_val (e_tab (li_se d)) 0 i k b) a ns_le Ha).
      Qed.
      Lemma ad_m_lin : forall a b, a < nr -> lin n alpha (ad_m d (dvar alpha) i a b) (fun x => vm D x i a b).
      Proof.
        intros a b Ha. unfold ad_m. rewrite comp_s. destruct Hfit as (E1 & E2 & E3 & _). rewrite E3. fold nr.
        exact (val_lin n alpha (at_m D) nm nr (fun k => t_val (e_tab (li_me d)) 0 i k b) a nm_le Ha).
      Qed.
      Lemma ad_u_lin : forall a, a < nd -> lin n alpha (ad_u d (dvar alpha) i a) (fun x => vu D x i a).
      Proof.
        intros a Ha. unfold ad_u. rewrite comp_s, comp_m. destruct Hfit as (E1 & E2 & E3 & E4 & _). rewrite E4. fold nd.
        exact (val_lin n alpha (at_u D) nu nd (fun k => t_val (e_tab (li_ue d)) 0 i k 0) a nu_le Ha).
      Qed.
      Lemma ad_t_lin : forall a, a < nr -> lin n alpha (ad_t d (dvar alpha) i a) (fun x => vt D x i a).
      Proof.
        intros a Ha. unfold ad_t. rewrite comp_s, comp_m, comp_u. destruct Hfit as (E1 & E2 & E3 & E4 & E5 & _). rewrite E5. fold nr.
        exact (val_lin n alpha (at_t D) nt nr (fun k => t_val (e_tab (li_te d)) 0 i k 0) a nt_le Ha).
      Qed.
      Lemma div_tau_is : forall k, div_tau d i k = du_ds D i k.
      Proof.
        intros k. destruct Hfit as (E1 & E2 & E3 & E4 & E5 & E6 & E7 & _). unfold div_tau, ref_div, cols. rewrite E6, E7.
        change (e_dim (li_se d)) with (li_dim d). rewrite !Nat.min_id. simpl. unfold piola_div, kdiv. rewrite (Sum_ksum HF). reflexivity.
      Qed.
      Lemma div_s_lin : forall a, a < nd ->
        lin n alpha (dsum (t_nphi (e_tab (li_se d))) (fun k => dscale (div_tau d i k) (dvar alpha (k * fe_comp (li_s d) + a)%nat))) (fun x => vds D x i a).
      Proof.
        intros a Ha. destruct Hfit as (E1 & E2 & _). rewrite E2. fold nd. apply (lin_eq _ _ _ (fun x => val 0 ns nd (div_tau d i) x a)).
        - exact (val_lin n alpha 0 ns nd (div_tau d i) a ns_le Ha).
        - intros x. unfold vds, val. apply ksum_ext. intros. rewrite div_tau_is. reflexivity.
      Qed.
      Lemma div_m_lin : forall a, a < nr ->
        lin n alpha (dsum (t_nphi (e_tab (li_me d))) (fun k => dscale (dv i k) (dvar alpha (t_nphi (e_tab (li_se d)) * fe_comp (li_s d) + (k * fe_comp (li_m d) + a))%nat))) (fun x => vdm D x i a).
      Proof.
        intros a Ha. rewrite comp_s. destruct Hfit as (E1 & E2 & E3 & _). rewrite E3. fold nr. apply (lin_eq _ _ _ (fun x => val (at_m D) nm nr (dv i) x a)).
        - exact (val_lin n alpha (at_m D) nm nr (dv i) a nm_le Ha).
        - intros x. unfold vdm, val. apply ksum_ext. intros. rewrite Hdv. reflexivity.
      Qed.
      Lemma a_sh_lin : forall a b, a < nd -> b < nd ->
        lin n alpha (ad_compliance (e_dim (li_se d)) (li_lambda_s d i) (li_mu_s d i) (li_kappa_s d i) (ad_s d (dvar alpha) i) a b)
          (fun x => Amap nd (li_lambda_s d i) (li_mu_s d i) (li_kappa_s d i) (vs D x i) a b).
      Proof. intros a b Ha Hb. apply (Amap_lin n alpha nd _ _ _ _ (fun a b x => vs D x i a b)); try assumption. intros. apply ad_s_lin. assumption. Qed.
      Lemma am_lin : forall a b, a < nr -> b < nd -> lin n alpha (ad_am d scale (dvar alpha) i a b) (fun x => Bmap i (vm D x i) a b).
      Proof.
        intros a b Ha Hb. unfold ad_am, Bmap. change (e_dim (li_se d)) with nd. destruct Hfit as (E1 & _). fold nd in E1. destruct E1 as [E|E].
        - replace (nd =? 2) with true by (rewrite E; reflexivity). apply (lin_scale HF). apply (lin_scale HF). apply ad_m_lin. exact Ha.
        - assert (R : nr = nd) by (unfold nr, li_rot; fold nd; rewrite E; reflexivity).
          replace (nd =? 2) with false by (rewrite E; reflexivity). apply (lin_scale HF).
          apply (Amap_lin n alpha nd _ _ _ _ (fun a b x => vm D x i a b)); [lia|exact Hb|]. intros. apply ad_m_lin. lia.
      Qed.
      Lemma row_lin : forall m (g : nat -> F) (f : nat -> dual F) (L : nat -> (nat -> F) -> F), (forall b, b < m -> lin n alpha (f b) (L b)) ->
        lin n alpha (dsum m (fun b => dscale (g b) (f b))) (fun x => ksum m (fun b => g b * L b x)).
      Proof. intros. apply (lin_sum HF). intros. apply (lin_scale HF). apply H. assumption. Qed.

      Lemma integrands_lin : forall a, a < n ->
        lin n alpha (lce_dual_integrand d scale dv (dvar alpha) i a) (dual_row i a) /\
        lin n alpha (lce_riesz_integrand d scale dv (dvar alpha) i a) (riesz_row i a).
      Proof.
        intros a Ha. pose proof du_sizes as (Z1 & Z2 & Z3 & Z4).
        pose proof Hfit as Hf. destruct Hf as (E1 & E2 & E3 & E4 & E5 & E6 & E7 & E8 & E9 & E10 & E11). fold nd in E1, E2, E4, E6, E7, E8, E9. fold nr in E3, E5.
        unfold lce_dual_integrand, lce_riesz_integrand, by_field, dual_row, riesz_row. rewrite !comp_s, !comp_m, !comp_u.
        rewrite E4, E5. assert (CM : cols (e_tab (li_me d)) (e_dim (li_se d)) = nd) by (unfold cols; rewrite E8; unfold nd, li_dim; lia). rewrite CM.
        change (e_dim (li_se d)) with nd.
        destruct (Nat.ltb_spec a (at_m D)) as [H1|H1].
        - destruct (split_index 0 ns nd a nd_pos' ltac:(lia) ltac:(lia)) as (I1 & I2 & I3). rewrite Nat.sub_0_r in I1, I2, I3.
          rewrite E2. fold nd. cbn zeta. split.
          + apply (lin_sub HF); [apply (lin_add HF)|].
            * apply row_lin. intros b Hb. apply a_sh_lin; assumption.
            * rewrite div_tau_is. apply (lin_scale HF). apply ad_u_lin. exact I2.
            * apply row_lin. intros b Hb. apply (theta_lin HK n alpha nd _ (fun m x => vt D x i m)); [exact E1|exact I2|exact Hb|]. intros. apply ad_t_lin. assumption.
          + apply (lin_add HF).
            * apply row_lin. intros b Hb. apply a_sh_lin; assumption.
            * rewrite div_tau_is. apply (lin_scale HF). pose proof (div_s_lin (a mod nd) I2) as DL. rewrite E2 in DL. exact DL.
        - destruct (Nat.ltb_spec a (at_u D)) as [H2|H2].
          + destruct (split_index (at_m D) nm nr a nr_pos' H1 ltac:(lia)) as (I1 & I2 & I3). rewrite E3. cbn zeta. rewrite Hdv. split; apply (lin_add HF).
            * apply row_lin. intros b Hb. apply am_lin; assumption.
            * apply (lin_scale HF). apply ad_t_lin. exact I2.
            * apply row_lin. intros b Hb. apply am_lin; assumption.
            * apply (lin_scale HF). pose proof (div_m_lin _ I2) as DL. rewrite E3, comp_s in DL. exact DL.
          + destruct (Nat.ltb_spec a (at_t D)) as [H3|H3].
            * destruct (split_index (at_u D) nu nd a nd_pos' H2 ltac:(lia)) as (I1 & I2 & I3). cbn zeta. split; apply (lin_scale HF).
              -- apply div_s_lin. exact I2.
              -- apply ad_u_lin. exact I2.
            * destruct (split_index (at_t D) nt nr a nr_pos' H3 ltac:(lia)) as (I1 & I2 & I3). cbn zeta. split.
              -- apply (lin_sub HF); apply (lin_scale HF).
                 ++ pose proof (div_m_lin _ I2) as DL. rewrite comp_s in DL. exact DL.
                 ++ apply (cross_lin n alpha nd _ (fun a b x => vs D x i a b)); [exact E1|exact I2|]. intros. apply ad_s_lin. assumption.
              -- apply (lin_scale HF). apply ad_t_lin. exact I2.
      Qed.
    End Lin.

    Lemma shapes_ok : lce_ad_shapes d = true.
    Proof.
      destruct Hfit as (E1 & E2 & E3 & E4 & E5 & E6 & E7 & E8 & E9 & E10 & E11). fold nd in E1, E2, E4, E6, E7, E8, E9. fold nr in E3, E5.
      unfold lce_ad_shapes, cols. rewrite E2, E3, E4, E5, E6, E8, E10, E11. change (e_dim (li_se d)) with nd. change (n_rot nd) with nr.
      rewrite !Nat.min_id, !Nat.eqb_refl. destruct E1 as [E|E]; rewrite E; reflexivity.
    Qed.

    Lemma ad_points_ok : forall (integrand : nat -> nat -> dual F) r alpha (row : nat -> nat -> (nat -> F) -> F) l form,
      (forall a, a < n -> r a = dconst (l (unit_at a))) ->
      (forall i a, i < length w -> a < n -> lin n alpha (integrand i a) (row i a)) ->
      (forall a x, a < n -> form x (unit_at a) = integral (li_se d) w (fun i => row i a x)) ->
      exists L, ad_points d integrand r = Ok L /\ system_of n form l alpha L.
    Proof.
      intros integrand r alpha row l form H1 H2 H3. unfold ad_points. rewrite shapes_ok, comp_s, comp_m, comp_u.
      assert (E : (at_t D + t_nphi (e_tab (li_te d)) * fe_comp (li_t d))%nat = n).
      { destruct Hfit as (E1 & E2 & E3 & E4 & E5 & _). rewrite E5. reflexivity. }
      rewrite E.
      edestruct (form_loop HF (li_se d) w n integrand r alpha row l form) as (r' & Q1 & Q2); [| |exact H2|exact H3|].
      - intros a Ha. rewrite H1 by exact Ha. reflexivity.
      - intros a b Ha. rewrite H1 by exact Ha. reflexivity.
      - fold w. rewrite Q1. cbn [bind]. eexists. split; [reflexivity|exact Q2].
    Qed.

    Lemma lce_dual_ad_ok : forall dv alpha, has_load d -> (forall i k, i < length w -> dv i k = dm i k) ->
      exists L, lce_dual_ad d scale dv alpha = Ok L /\ system_of n (dual_form D) (dual_load D) alpha L.
    Proof.
      intros dv alpha HL HD. unfold lce_dual_ad. rewrite comp_s, comp_m, comp_u.
      pose proof Hfit as (E1 & E2 & E3 & E4 & E5 & E6). rewrite E4, E5. fold nd nr.
      destruct (loads_ok HK d scale dm HL) as (r & R1 & R2). fold D nd nr in R1. fold w in R1.
      match goal with |- context [load_loop 0 (at_u D) nd ?t ?k ?c ?f ?z] =>
        set (X := load_loop 0 (at_u D) nd t k c f z); change (bind X (load_loop nd (at_t D) nr (e_tab (li_te d)) k c f) = Ok r) in R1 end.
      destruct X as [r0|]; [|discriminate R1]. cbn [bind] in R1 |- *. rewrite R1. cbn [bind].
      apply (ad_points_ok _ _ _ (fun i a => dual_row i a)).
      - intros a Ha. rewrite <- R2. f_equal. symmetry. apply (lf_unit HK). exact Ha.
      - intros i a Hi Ha. apply integrands_lin; first [exact Ha|exact Hi|intros; apply HD; exact Hi].
      - intros a x Ha. rewrite (dual_form_vals HK D E1). unfold integral. rewrite (Sum_ksum HF). apply ksum_ext. intros i Hi.
        destruct (rows_ok i a x Ha) as [-> _]. simpl. fold w. unfold weight. ring.
    Qed.
    Lemma lce_riesz_ad_ok : forall dv alpha, (forall i k, i < length w -> dv i k = dm i k) ->
      exists L, lce_riesz_ad d scale dv alpha = Ok L /\ system_of n (riesz_form D) (fun _ => k0) alpha L.
    Proof.
      intros dv alpha HD. unfold lce_riesz_ad. pose proof Hfit as (E1 & _). apply (ad_points_ok _ _ _ (fun i a => riesz_row i a)).
      - reflexivity.
      - intros i a Hi Ha. apply integrands_lin; first [exact Ha|exact Hi|intros; apply HD; exact Hi].
      - intros a x Ha. rewrite (riesz_form_vals HK D E1). unfold integral. rewrite (Sum_ksum HF). apply ksum_ext. intros i Hi.
        destruct (rows_ok i a x Ha) as [_ ->]. simpl. fold w. unfold weight. ring.
    Qed.
  End Couple.
End Ad.
