(** * Lemmas: traces of spaces; boundary elements *)
From Coq Require Import List Arith ZArith Bool Reals Lra Lia Permutation.
From Verif Require Import Base BaseProof MeshModel MeshSpec GraphModel DofModel DofSpec DofProof1 DofProof2 OrientModel VecBase MapModel SpaceModel ShapeModel ElementModel ElementSpec ElementProof6 TraceModel TraceSpec.
Import ListNotations.

Section Spaces.
  Variable qr : nat -> matrix -> matrix * matrix.
  Variable inv : nat -> matrix -> matrix.
  Variable X : list vec.
  Variable cs : cells.
  Lemma element_index_pair ids v : element_index ids (KPair v) = Err KeyError.
  Proof.
    unfold element_index, dindex. replace (dget (map (fun kv => (KInt (fst kv), snd kv)) ids) (KPair v)) with (@None nat); auto.
    induction ids as [|[k x] ids IH]; auto.
  Qed.
  Lemma space_trace_lemma s points c1 q idx :
    (forall t, trace_discrete_space qr inv X cs s points c1 q idx <> Ok t) /\
    (forall neighs, find_higher_dimension_neighs c1 (ts_topology s) = Ok neighs ->
       (neighs = [] -> trace_discrete_space qr inv X cs s points c1 q idx = Err AssertionError) /\
       (neighs <> [] -> (- Z.of_nat (length neighs) <= idx < Z.of_nat (length neighs))%Z -> trace_discrete_space qr inv X cs s points c1 q idx = Err KeyError)).
  Proof.
    unfold trace_discrete_space. destruct (find_higher_dimension_neighs c1 (ts_topology s)) as [l|e]; cbn [bind].
    2:{ split; [discriminate|]. intros neighs H. discriminate. }
    split.
    - intros t. destruct l as [|v l]; [discriminate|]. cbn [length Nat.ltb Nat.leb negb].
      destruct (py_index (S (length l)) idx) as [n|e]; cbn [bind]; [|discriminate]. destruct (get_at (v :: l) n) as [w|e]; cbn [bind]; [|discriminate].
      rewrite element_index_pair. discriminate.
    - intros neighs H. injection H as <-. split; [intros ->; reflexivity|]. intros Hne Hi. destruct l as [|v l]; [congruence|]. cbn [length Nat.ltb Nat.leb negb].
      cbn [length] in Hi.
      assert (P : exists n, py_index (S (length l)) idx = Ok n /\ (n < S (length l))%nat).
      { unfold py_index. destruct (Z.leb_spec 0 idx) as [A|A].
        - destruct (Z.ltb_spec idx (Z.of_nat (S (length l)))); [|lia]. eexists. split; [reflexivity|lia].
        - destruct (Z.leb_spec 0 (idx + Z.of_nat (S (length l)))); [|lia]. eexists. split; [reflexivity|lia]. }
      destruct P as (n & -> & Hn). cbn [bind]. unfold get_at. destruct (nth_error (v :: l) n) eqn:En; [|apply nth_error_None in En; simpl in En; lia].
      cbn [bind]. rewrite element_index_pair. reflexivity.
  Qed.
  Lemma product_trace_lemma fields spaces points c1 q idx :
    (fields = [] -> trace_product_space qr inv X cs fields spaces points c1 q idx = Ok []) /\
    (fields <> [] -> forall r, trace_product_space qr inv X cs fields spaces points c1 q idx <> Ok r).
  Proof.
    split; [intros ->; reflexivity|]. intros Hne r. unfold trace_product_space.
    set (f := fun (d : dict nat trace_space) (x : nat) => _).
    assert (G : forall l d r0, foldM f l d = Ok r0 -> (d <> [] \/ l <> []) -> r0 <> []).
    { induction l as [|x l IH]; intros d r0 E H; simpl in E.
      - inversion E; subst. destruct H; auto.
      - unfold f at 1 in E. destruct (dindex spaces x) as [s|]; cbn [bind] in E; [|discriminate]. eapply IH; [exact E|]. left.
        destruct d as [|[k y] d]; simpl; [discriminate|]. destruct (eq_dec x k); discriminate. }
    destruct (foldM f fields []) as [sub|e] eqn:E; cbn [bind]; [|discriminate].
    specialize (G _ _ _ E (or_intror Hne)). destruct sub as [|[k s] sub]; [congruence|]. simpl.
    destruct (trace_discrete_space qr inv X cs s points c1 q idx) as [t|e] eqn:Et; [|discriminate].
    exfalso. exact (proj1 (space_trace_lemma s points c1 q idx) t Et).
  Qed.
End Spaces.

(** ** Boundary elements *)
Ltac fam_cases := match goal with f : family |- _ => destruct f end.
Lemma bc_request_eq dim f k d : (1 <= dim <= 3)%nat -> bc_request dim f k d = Ok
  match dim, f with
  | 1%nat, _ => (FP, 0%Z, d)
  | _, FBDM => (FP, k, true)
  | _, FRT => (FP, (k - 1)%Z, true)
  | 2%nat, _ => (FP, k, d)
  | _, _ => (f, k, d)
  end.
Proof. intros H. destruct dim as [|[|[|[|dim]]]]; try lia; destruct f; reflexivity. Qed.
Lemma bc_family_lemma dim f k d f' k' d' : (1 <= dim <= 3)%nat -> (1 <= k)%Z -> bc_request dim f k d = Ok (f', k', d') ->
  effective_family (dim - 1) f' = Ok f' /\ (f' = FP -> (0 <= k')%Z) /\ (f' <> FP -> (1 <= k')%Z) /\ (dim = 1%nat -> k' = 0%Z) /\
  (k' = 0%Z -> dim <> 1%nat -> d' = true) /\ (d = true -> d' = true) /\
  ((2 <= dim)%nat -> (f = FRT \/ f = FBDM -> f' = FP /\ d' = true) /\ (f = FP \/ f = FN1E -> d' = d)).
Proof.
  intros Hd Hk. rewrite bc_request_eq by auto. destruct dim as [|[|[|[|dim]]]]; try lia; destruct f; intros E; injection E as <- <- <-;
    cbn [Nat.sub]; repeat split; auto; intros; try lia; try discriminate; try congruence; intuition discriminate.
Qed.

Lemma flat_map_length {A B} (f : A -> list B) l c : (forall x, In x l -> length (f x) = c) -> length (flat_map f l) = (length l * c)%nat.
Proof.
  induction l as [|x l IH]; intros H; simpl; auto. rewrite app_length, (H x), IH; [lia| |left; auto]. intros y Hy. apply H. right. auto.
Qed.
Lemma flat_map_lengths {B} (f : nat -> list B) (g : nat -> nat) l : (forall x, In x l -> length (f x) = g x) -> length (flat_map f l) = list_sum (map g l).
Proof.
  induction l as [|x l IH]; intros H; simpl; auto. rewrite app_length, (H x), IH; auto; [|left; auto]. intros y Hy. apply H. right. auto.
Qed.
(** the number of degrees of freedom on a facet *)
Lemma facet_count_lemma cs dim tags dofs comps shift m b cb i c l : numbered_space cs dim tags dofs comps shift m ->
  cell_at cs b cb -> (c_dim cb + 1 = dim)%nat -> space_cell cs dim tags i c -> In b (nth (c_dim cb) (c_sub c) []) ->
  bc_destination_indices m i b = Ok l -> length l = (list_sum (map (fun d => length (ref_sub (c_dim cb) d) * nth d dofs 0) (seq 0 dim)) * comps)%nat.
Proof.
  intros N Hb Hd SC Hin E. pose proof N as (fuel & md & t & layout & (CM & _ & TR & _ & SI) & _).
  destruct (C16_lemma _ _ _ _ _ _ _ N) as (D & HD & H). destruct (H b cb Hb Hd i c SC Hin) as [E' _]. rewrite E in E'. injection E' as ->. clear H.
  destruct (C13_lemma _ _ _ _ _ _ _ N) as (_ & H2 & _).
  rewrite (flat_map_lengths _ (fun d => (length (ref_sub (c_dim cb) d) * nth d dofs 0 * comps)%nat)).
  - rewrite <- (map_map (fun d => (length (ref_sub (c_dim cb) d) * nth d dofs 0)%nat) (fun x => (x * comps)%nat)). generalize (map (fun d => (length (ref_sub (c_dim cb) d) * nth d dofs 0)%nat) (seq 0 dim)).
    intros ll. induction ll as [|x ll IH]; simpl; auto. rewrite IH. lia.
  - intros d Hs. apply in_seq in Hs. rewrite (flat_map_length (D d) _ (nth d dofs 0 * comps)%nat).
    + rewrite (SI b cb d Hb) by lia. lia.
    + intros j Hj. destruct (H2 d j (D d j)) as (s & Es).
      * apply HD. split; [lia|]. exists i, c. split; auto. destruct SC as (C1 & C2 & _).
        apply (TR i c b cb (c_dim cb) d C1 Hb); auto; lia.
      * rewrite Es, length_zrange. lia.
Qed.
Lemma bc_count_lemma cs dim tags dofs comps shift m b cb i c l f k f' k' d' : numbered_space cs dim tags dofs comps shift m ->
  (1 <= dim <= 3)%nat -> (1 <= k)%Z -> documented dofs f dim k ->
  cell_at cs b cb -> (c_dim cb + 1 = dim)%nat -> space_cell cs dim tags i c -> In b (nth (c_dim cb) (c_sub c) []) ->
  bc_destination_indices m i b = Ok l -> bc_request dim f k false = Ok (f', k', d') ->
  (~ (dim = 2%nat /\ f = FN1E) -> Z.of_nat (length l) = functions_on f' (dim - 1) k' * Z.of_nat comps)%Z /\
  (dim = 2%nat -> f = FN1E -> Z.of_nat (length l) = k * Z.of_nat comps /\ functions_on f' (dim - 1) k' = k + 1)%Z.
Proof.
  intros N Hd Hk Doc Hb Hdb SC Hin E R.
  pose proof (facet_count_lemma _ _ _ _ _ _ _ _ _ _ _ _ N Hb Hdb SC Hin E) as L. rewrite bc_request_eq in R by auto.
  assert (Dim : (c_dim cb = dim - 1)%nat) by lia. rewrite Dim in L. clear - Hd Hk Doc L R. unfold documented in Doc.
  assert (C : (dim = 1 \/ dim = 2 \/ dim = 3)%nat) by lia. destruct C as [->|[->| ->]].
  - pose proof (Doc 0%nat ltac:(lia)) as D0. cbn [ref_sub length seq map list_sum fold_right Nat.sub] in L. rewrite L. clear L. injection R as <- <- <-. split; [|discriminate]. intros _.
    cbn [asked per_entity functions_on Nat.sub] in *. nia.
  - pose proof (Doc 0%nat ltac:(lia)) as D0. pose proof (Doc 1%nat ltac:(lia)) as D1.
    cbn [ref_sub length seq map list_sum fold_right Nat.sub] in L. rewrite L. clear L.
    destruct f; injection R as <- <- <-; cbn [asked per_entity functions_on Nat.sub] in *; (split; [intros Q|intros _ Ef; try discriminate Ef]); try (exfalso; apply Q; auto; fail); nia.
  - pose proof (Doc 0%nat ltac:(lia)) as D0. pose proof (Doc 1%nat ltac:(lia)) as D1. pose proof (Doc 2%nat ltac:(lia)) as D2.
    cbn [ref_sub length seq map list_sum fold_right Nat.sub] in L. rewrite L. clear L.
    split; [|discriminate]. intros _. destruct f; injection R as <- <- <-; cbn [asked per_entity functions_on Nat.sub] in *.
    + assert (Q : ((k + 1) * (k + 2) / 2 = (k - 1) * (k - 2) / 2 + 3 * k)%Z).
      { replace ((k + 1) * (k + 2))%Z with ((k - 1) * (k - 2) + 3 * k * 2)%Z by ring. apply Z.div_add. lia. }
      rewrite Q, <- D2. nia.
    + rewrite <- D2. nia.
    + replace ((k - 1 + 1) * (k - 1 + 2))%Z with (k * (k + 1))%Z by ring. rewrite <- D2. nia.
    + nia.
Qed.
