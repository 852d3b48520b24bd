(** * Lemmas about the numbering of shapes: C40, C44 *)
From Coq Require Import List Arith ZArith Bool Lia.
From Verif Require Import Base BaseProof TagModel TagSpec.
Import ListNotations.

Section Retag.
  Variable dim_of : nat -> nat.
  Variable immersed_of : nat -> list nat.

  (** an invariant of the counter: the objects visited have different tags below it *)
  Definition inv (st : tags * Z) (seen : list nat) : Prop :=
    (forall x, In x seen -> 0 <= fst st x < snd st)%Z /\ (forall x y, In x seen -> In y seen -> x <> y -> fst st x <> fst st y) /\
    (0 <= snd st)%Z.
  Lemma inv_set st seen x : inv st seen -> inv (set_tag (fst st) x (snd st), snd st + 1)%Z (x :: seen).
  Proof.
    intros (R & D & N). unfold inv, set_tag. cbn [fst snd]. split; [|split]; [| |lia].
    - intros y Hy. destruct (Nat.eqb_spec y x); [lia|]. destruct Hy as [Hy|Hy]; [congruence|]. specialize (R y Hy). lia.
    - intros y z Hy Hz Ne. destruct (Nat.eqb_spec y x); destruct (Nat.eqb_spec z x); subst; try congruence.
      + destruct Hz as [Hz|Hz]; [congruence|]. specialize (R z Hz). lia.
      + destruct Hy as [Hy|Hy]; [congruence|]. specialize (R y Hy). lia.
      + destruct Hy as [Hy|Hy]; [congruence|]. destruct Hz as [Hz|Hz]; [congruence|]. auto.
  Qed.
  Lemma inv_incl st seen seen' : (forall x, In x seen' -> In x seen) -> inv st seen -> inv st seen'.
  Proof. intros I (R & D & N). split; [auto|split; auto]. Qed.

  Lemma inv_immersed dim s : dim_of s = dim -> forall l st seen, inv st seen ->
    inv (fold_left (retag_immersed dim_of dim s) l st) (l ++ seen) /\ (snd (fold_left (retag_immersed dim_of dim s) l st) = snd st + Z.of_nat (length l))%Z.
  Proof.
    intros Hd. induction l as [|x l IH]; intros st seen H; [split; [exact H|simpl; lia]|]. cbn [fold_left].
    assert (E : retag_immersed dim_of dim s st x = (set_tag (fst st) x (snd st), snd st + 1)%Z) by (unfold retag_immersed; rewrite Hd, Nat.eqb_refl; reflexivity).
    rewrite E. destruct (IH _ _ (inv_set st seen x H)) as [A B]. split.
    - eapply inv_incl; [|exact A]. intros y Hy. simpl in Hy. rewrite in_app_iff in *. simpl. tauto.
    - rewrite B. cbn [snd length]. lia.
  Qed.
  Notation touched := (touched immersed_of).
  Lemma inv_shapes dim : forall l st seen, (forall s, In s l -> dim_of s = dim) -> inv st seen ->
    inv (fold_left (retag_shape dim_of immersed_of dim) l st) (touched l ++ seen) /\
    (snd (fold_left (retag_shape dim_of immersed_of dim) l st) = snd st + Z.of_nat (length (touched l)))%Z.
  Proof.
    induction l as [|s l IH]; intros st seen Hd H; [split; [exact H|simpl; lia]|]. cbn [fold_left]. unfold retag_shape at 2 4.
    destruct (inv_immersed dim s (Hd s (or_introl eq_refl)) (immersed_of s) _ _ (inv_set st seen s H)) as [A1 A2].
    destruct (IH _ _ (fun t Ht => Hd t (or_intror Ht)) A1) as [B1 B2]. split.
    - eapply inv_incl; [|exact B1]. intros y Hy. unfold TagSpec.touched in *. cbn [flat_map] in Hy. rewrite !in_app_iff in *. simpl in *. tauto.
    - rewrite B2, A2. cbn [TagSpec.touched flat_map]. rewrite app_length. cbn [snd length]. unfold TagSpec.touched. lia.
  Qed.

  (** objects not touched keep their tag *)
  Lemma untouched dim x : forall l st, ~ In x (touched l) -> fst (fold_left (retag_shape dim_of immersed_of dim) l st) x = fst st x.
  Proof.
    induction l as [|s l IH]; intros st H; auto. cbn [fold_left]. unfold TagSpec.touched in *. cbn [flat_map] in H. rewrite in_app_iff in H.
    rewrite IH by tauto. unfold retag_shape.
    assert (G : forall m st, ~ In x m -> fst (fold_left (retag_immersed dim_of dim s) m st) x = fst st x).
    { induction m as [|y m IHm]; intros st' Hm; auto. cbn [fold_left]. rewrite IHm by (simpl in Hm; tauto). unfold retag_immersed. destruct (negb _); auto.
      cbn [fst]. unfold set_tag. destruct (Nat.eqb_spec x y); auto. subst. simpl in Hm. tauto. }
    rewrite G by (simpl in H; tauto). cbn [fst]. unfold set_tag. destruct (Nat.eqb_spec x s); auto. subst. simpl in H. tauto.
  Qed.

  Notation uniform_dims := (uniform_dims dim_of immersed_of).
  Lemma touched_dim D d x : uniform_dims D -> In x (touched (nth d D [])) -> dim_of x = d.
  Proof.
    intros U H. unfold TagSpec.touched in H. apply in_flat_map in H as (s & Hs & [<-|Hx]); apply (U d) in Hs as [A B]; auto.
  Qed.

  Lemma retag_lemma dimension D h : uniform_dims D ->
    let h' := retag_shapes dim_of immersed_of dimension D h in
    forall d, d <= dimension ->
      (forall x, In x (touched (nth d D [])) -> 0 <= h' x < Z.of_nat (length (touched (nth d D []))))%Z /\
      (forall x y, In x (touched (nth d D [])) -> In y (touched (nth d D [])) -> x <> y -> h' x <> h' y).
  Proof.
    intros U h' d Hd.
    assert (All : exists h0, forall x, In x (touched (nth d D [])) -> h' x = retag_with_dimension dim_of immersed_of D d h0 x).
    { exists (fold_left (fun h1 d0 => retag_with_dimension dim_of immersed_of D d0 h1) (seq 0 d) h). intros x Hx. unfold h', retag_shapes.
      assert (Q : seq 0 (S dimension) = seq 0 d ++ d :: seq (S d) (dimension - d)).
      { replace (S dimension) with (d + S (dimension - d)) by lia. rewrite seq_app. reflexivity. }
      rewrite Q, fold_left_app. cbn [fold_left].
      generalize (retag_with_dimension dim_of immersed_of D d (fold_left (fun h1 d0 => retag_with_dimension dim_of immersed_of D d0 h1) (seq 0 d) h)). intros h1.
      assert (G : forall l, (forall d', In d' l -> d < d') -> forall h2, fold_left (fun h3 d0 => retag_with_dimension dim_of immersed_of D d0 h3) l h2 x = h2 x).
      { induction l as [|d' l IH]; intros Hl h2; auto. cbn [fold_left]. rewrite IH by (intros; apply Hl; right; auto). unfold retag_with_dimension.
        rewrite untouched; auto. intros Hx'. apply touched_dim in Hx'; auto. apply touched_dim in Hx; auto. assert (d < d') by (apply Hl; left; auto). lia. }
      apply G. intros d' Hd'. apply in_seq in Hd'. lia. }
    destruct All as (h0 & E).
    destruct (inv_shapes d (nth d D []) (h0, 0%Z) []) as [(R & Df & _) C].
    { intros s Hs. exact (proj1 (U d s Hs)). }
    { split; [intros x []|split; [intros x y []|simpl; lia]]. }
    rewrite app_nil_r in R, Df. unfold retag_with_dimension in E. split.
    - intros x Hx. rewrite E by auto. specialize (R x Hx). rewrite C in R. cbn [snd] in R. lia.
    - intros x y Hx Hy Ne. rewrite !E by auto. apply Df; auto.
  Qed.
End Retag.

(** ** strides *)
Lemma count_loop_nth : forall counts room s, count_loop counts room = Ok s -> length s = room /\
  forall d, (forall k, k <= d -> nth k counts 0 <> 0) -> nth d s 0 = nth d counts 0.
Proof.
  induction counts as [|n l IH]; intros room s E.
  - simpl in E. inversion E; subst. split; [apply repeat_length|]. intros d _. rewrite nth_repeat. destruct d; reflexivity.
  - destruct room as [|room]; [discriminate|]. cbn [count_loop] in E. destruct (Nat.eqb_spec n 0) as [->|Nz].
    + injection E as <-. split; [apply (repeat_length 0 (S room))|]. intros d H. exfalso. apply (H 0); [lia|reflexivity].
    + apply bind_Ok in E as (r & Er & E). inversion E; subst. destruct (IH _ _ Er) as [A B]. split; [simpl; auto|].
      intros [|d] H; simpl; auto. apply B. intros k Hk. apply (H (S k)). lia.
Qed.
Lemma accumulate_nth : forall l acc d, d < length l -> nth_error (accumulate acc l) d = Some (acc + list_sum (firstn (S d) l)).
Proof.
  induction l as [|n l IH]; intros acc d H; [simpl in H; lia|]. destruct d as [|d]; cbn [accumulate nth_error firstn list_sum fold_right].
  - f_equal. simpl. lia.
  - simpl in H. rewrite IH by lia. f_equal. cbn [list_sum firstn fold_right]. unfold list_sum. simpl. lia.
Qed.
Lemma total_S counts d : S d < length counts -> total counts (S d) = total counts d + nth (S d) counts 0.
Proof.
  unfold total. revert d. induction counts as [|n l IH]; intros d H; [simpl in H; lia|]. simpl in H.
  change (firstn (S (S d)) (n :: l)) with (n :: firstn (S d) l). change (firstn (S d) (n :: l)) with (n :: firstn d l). cbn [list_sum fold_right nth].
  destruct d as [|d].
  - destruct l as [|m l]; [simpl in H; lia|]. unfold list_sum. simpl. lia.
  - specialize (IH d ltac:(lia)). unfold list_sum in *. cbn [fold_right] in *. lia.
Qed.

Lemma count_loop_ok : forall counts room, length counts <= room -> exists s, count_loop counts room = Ok s.
Proof.
  induction counts as [|n l IH]; intros room H; [eexists; reflexivity|]. destruct room as [|room]; [simpl in H; lia|]. cbn [count_loop].
  destruct (n =? 0)%nat; [eexists; reflexivity|]. simpl in H. destruct (IH room ltac:(lia)) as (r & E). rewrite E. eexists; reflexivity.
Qed.
Lemma firstn_ext {A} (dflt : A) k : forall l l', k <= length l -> k <= length l' -> (forall i, i < k -> nth i l dflt = nth i l' dflt) -> firstn k l = firstn k l'.
Proof.
  induction k as [|k IH]; intros l l' H H' E; auto. destruct l as [|x l]; [simpl in H; lia|]. destruct l' as [|y l']; [simpl in H'; lia|].
  simpl. f_equal; [apply (E 0); lia|]. apply IH; simpl in *; try lia. intros i Hi. apply (E (S i)). lia.
Qed.

(** the stride of a dimension all of whose lower dimensions, and itself, have shapes *)
Lemma strides_lemma counts : length counts <= 4 -> exists s, compute_strides counts = Ok s /\ length s = 4 /\
  forall d, (forall k, k <= d -> nth k counts 0 <> 0) -> nth_error s d = Some (total counts d).
Proof.
  intros H. destruct (count_loop_ok counts 4 H) as (r & E). unfold compute_strides. rewrite E. cbn [bind].
  destruct (count_loop_nth _ _ _ E) as [L N]. exists (accumulate 0 r). split; auto. split.
  { rewrite <- L. clear. generalize 0. induction r as [|n r IH]; intros k; simpl; auto. }
  intros d Hd. assert (Ld : d < length counts).
  { destruct (Nat.lt_ge_cases d (length counts)); auto. exfalso. apply (Hd d); auto. apply nth_overflow. auto. }
  rewrite accumulate_nth by lia. f_equal. unfold total. cbn [plus]. f_equal. apply (firstn_ext 0); [lia|lia|]. intros i Hi. apply N. intros k Hk. apply Hd. lia.
Qed.

Lemma total_le counts d d' : d <= d' -> total counts d <= total counts d'.
Proof.
  intros H. unfold total. replace (S d') with (S d + (d' - d)) by lia. generalize (S d) as k, (d' - d) as m. clear.
  induction counts as [|n l IH]; intros k m; [rewrite !firstn_nil; auto|]. destruct k; simpl; [lia|]. specialize (IH k m). lia.
Qed.

Lemma stride_lemma counts : length counts <= 4 -> exists s, compute_strides counts = Ok s /\
  forall d d' t t', (forall k, k <= d -> nth k counts 0 <> 0) -> (forall k, k <= d' -> nth k counts 0 <> 0) ->
    (0 <= t)%Z -> (0 <= t')%Z ->
    exists x y, stride_tag s d t = Ok x /\ stride_tag s d' t' = Ok y /\ (0 < x)%Z /\
      (d = d' -> x = y -> t = t') /\
      (d < d' -> (t < Z.of_nat (total counts d' - total counts d))%Z -> (x < y)%Z).
Proof.
  intros H. destruct (strides_lemma counts H) as (s & E & L & N). exists s. split; auto. intros d d' t t' Hd Hd' Ht Ht'.
  unfold stride_tag, get_at. rewrite (N d Hd), (N d' Hd'). cbn [bind]. eexists. eexists. split; [reflexivity|]. split; [reflexivity|]. split; [lia|]. split.
  - intros <- Q. lia.
  - intros Hlt Hb. pose proof (total_le counts d d' ltac:(lia)). lia.
Qed.

(** the numbers of the conformal mesher *)
Lemma conformal_lemma counts d d' t t' x y : (0 <= t < Z.of_nat (nth d counts 0%nat))%Z -> (0 <= t' < Z.of_nat (nth d' counts 0%nat))%Z ->
  conformal_tag counts d t = Some x -> conformal_tag counts d' t' = Some y -> x = y -> d = d' /\ t = t'.
Proof.
  intros Ht Ht' E E' Q. unfold conformal_tag in *.
  destruct d as [|[|[|[|d]]]]; destruct d' as [|[|[|[|d']]]]; try discriminate;
    repeat match goal with H : context [if ?b then _ else _] |- _ => destruct b; try discriminate end;
    injection E as <-; injection E' as <-; split; try lia.
Qed.
(** every shape of a domain without empty dimension is numbered *)
Lemma first_empty_full : forall counts k, Forall (fun n => n <> 0) counts -> first_empty counts k = k + length counts - 1.
Proof.
  induction counts as [|n l IH]; intros k F; [simpl; lia|]. inversion F; subst. cbn [first_empty]. destruct (Nat.eqb_spec n 0); [contradiction|].
  rewrite IH by auto. simpl. lia.
Qed.
Lemma conformal_total counts d t : length counts <= 4 -> Forall (fun n => n <> 0) counts -> d < length counts -> 2 <= length counts -> exists x, conformal_tag counts d t = Some x.
Proof.
  intros L F Hd L2. unfold conformal_tag. rewrite (first_empty_full counts 0 F). cbn [plus].
  destruct d as [|[|[|[|d]]]]; try lia; try (eexists; reflexivity).
  - destruct (Nat.ltb_spec 1 (length counts - 1)); [eexists; reflexivity|lia].
  - destruct (Nat.ltb_spec 2 (length counts - 1)); [eexists; reflexivity|lia].
Qed.
