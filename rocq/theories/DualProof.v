(** * The bilinear form of a matrix built from blocks *)
From Coq Require Import String List Arith Bool Lia Ring Field.
From Verif Require Import Base BaseProof FormModel FormSpec FormProof FormProof2 AdModel AdModel2 AdSpec AdProof AdProof2 BcProof DualModel.
Import ListNotations.
Open Scope list_scope.

Lemma in_slice_hit : forall b m n k, 0 < m -> k < n -> in_slice b (b + n * m) m (b + k * m) = Some k.
Proof.
  intros b m n k Hm Hk. unfold in_slice. replace (b + k * m - b) with (k * m) by lia.
  rewrite Nat.mod_mul, Nat.div_mul by lia.
  replace (b <=? b + k * m) with true by (symmetry; apply Nat.leb_le; lia).
  replace (b + k * m <? b + n * m) with true by (symmetry; apply Nat.ltb_lt; nia). reflexivity.
Qed.

Section Blocks.
  Context {F : scalar} (HF : is_ring F).
  Let HR : ring_theory (@k0 F) k1 kadd kmul ksub kopp eq := HF.
  Add Ring KringR : HR.
  Local Open Scope num_scope.

  (** a sum over a slice *)
  Lemma slice_sum : forall n b m n1 (f : nat -> nat -> F), 0 < m -> (forall k, k < n1 -> b + k * m < n) ->
    ksum n (fun a => match in_slice b (b + n1 * m) m a with Some k => f k a | None => k0 end) = ksum n1 (fun k => f k (b + k * m)%nat).
  Proof.
    intros n b m n1 f Hm Hn.
    rewrite (ksum_ext n _ (fun a => ksum n1 (fun k => if a =? b + k * m then f k a else k0))).
    - rewrite (ksum_swap HF). apply ksum_ext. intros k Hk. rewrite (ksum_single HF n (b + k * m)%nat).
      + rewrite Nat.eqb_refl. reflexivity.
      + apply Hn. exact Hk.
      + intros j Hj Hn'. apply Nat.eqb_neq in Hn'. rewrite Hn'. reflexivity.
    - intros a Ha. destruct (in_slice b (b + n1 * m) m a) as [k|] eqn:E.
      + apply (in_slice_inv b (n1 * m) m n1) in E; [|exact Hm|reflexivity]. destruct E as [-> Hk].
        rewrite (ksum_single HF n1 k); [rewrite Nat.eqb_refl; reflexivity|exact Hk|].
        intros j Hj Hne. replace (b + k * m =? b + j * m) with false; [reflexivity|]. symmetry. apply Nat.eqb_neq. nia.
      + symmetry. apply (ksum_zero HF). intros k Hk. destruct (Nat.eqb_spec a (b + k * m)) as [->|]; [|reflexivity].
        rewrite in_slice_hit in E by assumption. discriminate.
  Qed.

  Definition bil (n : nat) (J : nat -> nat -> F) (y x : nat -> F) : F :=
    ksum n (fun a => y a * ksum n (fun b => J a b * x b)).
  (** a block with rows from [b] by [m], columns from [c] by [m'] *)
  Definition blk (b n1 m c n2 m' : nat) (M : nat -> nat -> F) (y x : nat -> F) : F :=
    ksum n1 (fun k => y (b + k * m)%nat * ksum n2 (fun l => M k l * x (c + l * m')%nat)).

  Lemma bil_block : forall n b n1 m c n2 m' M J y x, 0 < m -> 0 < m' ->
    (forall k, k < n1 -> b + k * m < n) -> (forall l, l < n2 -> c + l * m' < n) ->
    bil n (add_block b (b + n1 * m) m c (c + n2 * m') m' M J) y x = bil n J y x + blk b n1 m c n2 m' M y x.
  Proof.
    intros n b n1 m c n2 m' M J y x Hm Hm' H1 H2. unfold bil, blk.
    rewrite <- (slice_sum n b m n1 (fun k a => y a * ksum n2 (fun l => M k l * x (c + l * m')%nat)) Hm H1), <- (ksum_add HF).
    apply ksum_ext. intros a Ha. unfold add_block.
    destruct (in_slice b (b + n1 * m) m a) as [k|]; [|ring].
    rewrite <- (slice_sum n c m' n2 (fun l b => M k l * x b) Hm' H2).
    transitivity (y a * (ksum n (fun b0 => J a b0 * x b0) + ksum n (fun a0 => match in_slice c (c + n2 * m') m' a0 with Some l => M k l * x a0 | None => k0 end))); [|ring].
    f_equal. rewrite <- (ksum_add HF). apply ksum_ext. intros a' Ha'. destruct (in_slice c (c + n2 * m') m' a'); ring.
  Qed.
  Lemma bil_zero : forall n y x, bil n (fun _ _ => k0) y x = k0.
  Proof. intros. unfold bil. apply (ksum_zero HF). intros a Ha. rewrite (ksum_zero HF) by (intros; ring). ring. Qed.
  Lemma bil_units : forall n J a b, a < n -> b < n -> bil n J (unit_at a) (unit_at b) = J a b.
  Proof.
    intros n J a b Ha Hb. unfold bil. rewrite (ksum_single HF n a); [|exact Ha|].
    - rewrite (ksum_single HF n b); [|exact Hb|]; [rewrite !unit_same; ring|]. intros j Hj Hn. rewrite unit_other by congruence. ring.
    - intros j Hj Hn. rewrite unit_other by congruence. ring.
  Qed.

  (** a block for component [c] *)
  Definition cblk (b n1 m c : nat) (b' n2 m' c' : nat) (M : nat -> nat -> F) (y x : nat -> F) : F :=
    ksum n1 (fun k => y (b + (k * m + c))%nat * ksum n2 (fun l => M k l * x (b' + (l * m' + c'))%nat)).
  Lemma blk_cblk : forall b n1 m c b' n2 m' c' M y x, blk (c + b) n1 m (c' + b') n2 m' M y x = cblk b n1 m c b' n2 m' c' M y x.
  Proof.
    intros. unfold blk, cblk. apply ksum_ext. intros k Hk. f_equal; [f_equal; lia|]. apply ksum_ext. intros l Hl. do 2 f_equal. lia.
  Qed.
  Lemma bil_cblock : forall n b n1 m c b' n2 m' c' M J y x, c < m -> c' < m' -> b + n1 * m <= n -> b' + n2 * m' <= n ->
    bil n (add_block (c + b) (c + b + n1 * m) m (c' + b') (c' + b' + n2 * m') m' M J) y x = bil n J y x + cblk b n1 m c b' n2 m' c' M y x.
  Proof.
    intros n b n1 m c b' n2 m' c' M J y x Hc Hc' Hn Hn'. rewrite bil_block; [rewrite blk_cblk; reflexivity|lia|lia| |].
    - intros k Hk. nia.
    - intros k Hk. nia.
  Qed.

  Lemma bil_diag : forall n b n1 m M J y x, b + n1 * m <= n ->
    bil n (diag_loop b (n1 * m) m M J) y x = bil n J y x + ksum m (fun c => cblk b n1 m c b n1 m c M y x).
  Proof.
    intros n b n1 m M J y x Hn. unfold diag_loop.
    assert (P : forall p, p <= m ->
      bil n (fold_left (fun j c => add_block (c + b) (c + b + n1 * m) m (c + b) (c + b + n1 * m) m M j) (seq 0 p) J) y x
      = bil n J y x + ksum p (fun c => cblk b n1 m c b n1 m c M y x)).
    { induction p; intros Hp; [simpl; ring|]. rewrite seq_S, fold_left_app. simpl fold_left.
      rewrite bil_cblock by (try assumption; lia). rewrite IHp by lia. simpl ksum. ring. }
    apply P. lia.
  Qed.

  Lemma coupling_inner : forall n ub n1 m sb n2 M y x uc, uc < m -> ub + n1 * m <= n -> sb + n2 * m <= n -> forall p J, p <= m ->
    bil n (fold_left (fun j sc => if uc =? sc then
          add_block (sc + sb) (sc + sb + n2 * m) m (uc + ub) (uc + ub + n1 * m) m (fun k l => M l k)
            (add_block (uc + ub) (uc + ub + n1 * m) m (sc + sb) (sc + sb + n2 * m) m M j) else j) (seq 0 p) J) y x
    = bil n J y x + (if uc <? p then cblk ub n1 m uc sb n2 m uc M y x + cblk sb n2 m uc ub n1 m uc (fun k l => M l k) y x else k0).
  Proof.
    intros n ub n1 m sb n2 M y x uc Hc H1 H2. induction p; intros J Hp; [simpl; ring|].
    rewrite seq_S, fold_left_app. simpl. destruct (Nat.eqb_spec uc p) as [->|N].
    - rewrite !bil_cblock by (try assumption; lia). rewrite IHp by lia.
      replace (p <? p) with false by (symmetry; apply Nat.ltb_ge; lia). replace (p <? S p) with true by (symmetry; apply Nat.ltb_lt; lia). ring.
    - rewrite IHp by lia. replace (uc <? S p) with (uc <? p); [reflexivity|].
      destruct (Nat.ltb_spec uc p), (Nat.ltb_spec uc (S p)); try reflexivity; lia.
  Qed.
  Lemma bil_coupling : forall n ub n1 m sb n2 M J y x, ub + n1 * m <= n -> sb + n2 * m <= n ->
    bil n (coupling_loop ub (n1 * m) m sb (n2 * m) m M J) y x = bil n J y x
      + ksum m (fun c => cblk ub n1 m c sb n2 m c M y x + cblk sb n2 m c ub n1 m c (fun k l => M l k) y x).
  Proof.
    intros n ub n1 m sb n2 M J y x H1 H2. unfold coupling_loop.
    match goal with |- context [fold_left ?f (seq 0 m) J] => set (g := f) end.
    assert (P : forall p, p <= m -> bil n (fold_left g (seq 0 p) J) y x
      = bil n J y x + ksum p (fun c => cblk ub n1 m c sb n2 m c M y x + cblk sb n2 m c ub n1 m c (fun k l => M l k) y x)).
    { induction p; intros Hp; [simpl; ring|]. rewrite seq_S, fold_left_app. simpl fold_left. unfold g at 1.
      rewrite (coupling_inner n ub n1 m sb n2 M y x p) by (try assumption; lia).
      replace (p <? m) with true by (symmetry; apply Nat.ltb_lt; lia). rewrite IHp by lia. simpl ksum. ring. }
    apply P. lia.
  Qed.

  (** ** Sums over the points *)

  (** the quadrature outside *)
  Lemma cblk_weighted : forall b n1 m c b' n2 m' c' n (A : nat -> nat -> nat -> F) (w : nat -> F) y x,
    cblk b n1 m c b' n2 m' c' (weighted n A w) y x = ksum n (fun i => w i * cblk b n1 m c b' n2 m' c' (A i) y x).
  Proof.
    intros. unfold cblk, weighted.
    rewrite (ksum_ext n1 _ (fun k => ksum n (fun i => w i * (y (b + (k * m + c))%nat * ksum n2 (fun l => A i k l * x (b' + (l * m' + c'))%nat))))).
    - rewrite (ksum_swap HF). apply ksum_ext. intros i Hi. rewrite (ksum_mul_l HF). reflexivity.
    - intros k Hk. rewrite (ksum_ext n2 _ (fun l => ksum n (fun i => A i k l * w i * x (b' + (l * m' + c'))%nat))).
      + rewrite (ksum_swap HF), <- (ksum_mul_l HF). apply ksum_ext. intros i Hi.
        rewrite (ksum_ext n2 _ (fun l => w i * (A i k l * x (b' + (l * m' + c'))%nat))) by (intros; ring). rewrite (ksum_mul_l HF). ring.
      + intros l Hl. rewrite (ksum_mul_r HF). reflexivity.
  Qed.
  (** coefficients times values *)
  Definition val (b n1 m : nat) (g y : nat -> F) (c : nat) : F := ksum n1 (fun k => y (b + (k * m + c))%nat * g k).
  Lemma cblk_sep : forall b n1 m c b' n2 m' c' (f g : nat -> F) y x,
    cblk b n1 m c b' n2 m' c' (fun k l => f k * g l) y x = val b n1 m f y c * val b' n2 m' g x c'.
  Proof.
    intros. unfold cblk, val. rewrite <- (ksum_mul_r HF). apply ksum_ext. intros k Hk.
    rewrite (ksum_ext n2 _ (fun l => f k * (x (b' + (l * m' + c'))%nat * g l))) by (intros; ring). rewrite (ksum_mul_l HF). ring.
  Qed.
  Lemma cblk_ext : forall b n1 m c b' n2 m' c' M M' y x, (forall k l, k < n1 -> l < n2 -> M k l = M' k l) ->
    cblk b n1 m c b' n2 m' c' M y x = cblk b n1 m c b' n2 m' c' M' y x.
  Proof. intros. unfold cblk. apply ksum_ext. intros k Hk. f_equal. apply ksum_ext. intros l Hl. rewrite H by assumption. reflexivity. Qed.
  Lemma cblk_sum : forall b n1 m c b' n2 m' c' n (A : nat -> nat -> nat -> F) y x,
    cblk b n1 m c b' n2 m' c' (fun k l => ksum n (fun i => A i k l)) y x = ksum n (fun i => cblk b n1 m c b' n2 m' c' (A i) y x).
  Proof.
    intros. transitivity (cblk b n1 m c b' n2 m' c' (weighted n A (fun _ => k1)) y x).
    - apply cblk_ext. intros. unfold weighted. apply ksum_ext. intros. ring.
    - rewrite cblk_weighted. apply ksum_ext. intros. ring.
  Qed.
  Lemma cblk_scale : forall b n1 m c b' n2 m' c' a (A : nat -> nat -> F) y x,
    cblk b n1 m c b' n2 m' c' (fun k l => a * A k l) y x = a * cblk b n1 m c b' n2 m' c' A y x.
  Proof.
    intros. unfold cblk. rewrite <- (ksum_mul_l HF). apply ksum_ext. intros k Hk.
    rewrite (ksum_ext n2 _ (fun l => a * (A k l * x (b' + (l * m' + c'))%nat))) by (intros; ring). rewrite (ksum_mul_l HF). ring.
  Qed.
  (** a block of all components *)
  Definition fblk (b n m : nat) (M : nat -> nat -> F) (y x : nat -> F) : F :=
    ksum m (fun c => ksum m (fun e => cblk b n m c b n m e (fun k l => M (k * m + c)%nat (l * m + e)%nat) y x)).
  Lemma bil_full : forall N b n m M J y x, b + n * m <= N ->
    bil N (add_block b (b + n * m) 1 b (b + n * m) 1 M J) y x = bil N J y x + fblk b n m M y x.
  Proof.
    intros N b n m M J y x H. replace (b + n * m)%nat with (b + (n * m) * 1)%nat by lia.
    rewrite bil_block; [|lia|lia|intros; lia|intros; lia]. f_equal. unfold blk, fblk, cblk.
    rewrite (ksum_grid HF n m), (ksum_swap HF). apply ksum_ext. intros c Hc.
    rewrite (ksum_swap HF). apply ksum_ext. intros k Hk. rewrite (ksum_grid HF n m), (ksum_swap HF), <- (ksum_mul_l HF).
    rewrite Nat.mul_1_r. apply ksum_ext. intros e He. f_equal. apply ksum_ext. intros l Hl. rewrite Nat.mul_1_r. reflexivity.
  Qed.
  Lemma fblk_weighted : forall b n m N (A : nat -> nat -> nat -> F) (w : nat -> F) y x,
    fblk b n m (weighted N A w) y x = ksum N (fun i => w i * fblk b n m (A i) y x).
  Proof.
    intros. unfold fblk. rewrite (ksum_ext m _ (fun c => ksum N (fun i => w i * ksum m (fun e => cblk b n m c b n m e (fun k l => A i (k * m + c)%nat (l * m + e)%nat) y x)))).
    - rewrite (ksum_swap HF). apply ksum_ext. intros i Hi. rewrite (ksum_mul_l HF). reflexivity.
    - intros c Hc. rewrite (ksum_ext m _ (fun e => ksum N (fun i => w i * cblk b n m c b n m e (fun k l => A i (k * m + c)%nat (l * m + e)%nat) y x))).
      + rewrite (ksum_swap HF). apply ksum_ext. intros i Hi. rewrite (ksum_mul_l HF). reflexivity.
      + intros e He. rewrite <- (cblk_weighted b n m c b n m e N (fun i k l => A i (k * m + c)%nat (l * m + e)%nat) w). reflexivity.
  Qed.
  Lemma fblk_add : forall b n m M M' y x, fblk b n m (fun p q => M p q + M' p q) y x = fblk b n m M y x + fblk b n m M' y x.
  Proof.
    intros. unfold fblk. rewrite <- (ksum_add HF). apply ksum_ext. intros c Hc. rewrite <- (ksum_add HF). apply ksum_ext. intros e He.
    unfold cblk. rewrite <- (ksum_add HF). apply ksum_ext. intros k Hk.
    rewrite (ksum_ext n (fun l => (M (k * m + c)%nat (l * m + e)%nat + M' (k * m + c)%nat (l * m + e)%nat) * x (b + (l * m + e))%nat)
      (fun l => M (k * m + c)%nat (l * m + e)%nat * x (b + (l * m + e))%nat + M' (k * m + c)%nat (l * m + e)%nat * x (b + (l * m + e))%nat)) by (intros; ring).
    rewrite (ksum_add HF). ring.
  Qed.
  Lemma fblk_ext : forall b n m M M' y x,
    (forall k l c e, k < n -> l < n -> c < m -> e < m -> M (k * m + c)%nat (l * m + e)%nat = M' (k * m + c)%nat (l * m + e)%nat) ->
    fblk b n m M y x = fblk b n m M' y x.
  Proof. intros. unfold fblk. apply ksum_ext. intros c Hc. apply ksum_ext. intros e He. apply cblk_ext. intros. apply H; assumption. Qed.
End Blocks.
