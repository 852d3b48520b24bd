(** * Lemmas about boxes with fractures: the vertices where they meet, C101 *)
From Coq Require Import List Arith ZArith Bool Reals Lra Lia Permutation Sorted.
From Verif Require Import Base BaseProof VecBase VecProof GeoModel GeoSpec GeoProof2 PolyModel LineModel LineSpec LineProof LineProof2 ShapeModel ShapeSpec BoxProof VertexModel VertexSpec DiffProof DomainModel DomainSpec DomainProof DomainProof2 MdBoxModel MdBoxSpec.
Import ListNotations.
Local Open Scope nat_scope.

Lemma app_inv_length {A} (a b c d : list A) : a ++ b = c ++ d -> length a = length c -> a = c /\ b = d.
Proof. revert c. induction a as [|x a IH]; intros [|y c] E L; try discriminate; [auto|]. injection E as -> E. injection L as L. destruct (IH c E L) as [-> ->]. auto. Qed.
Lemma row_dec (x y : row) : {x = y} + {x <> y}.
Proof. decide equality; [apply Z.eq_dec|]. decide equality; apply Z.eq_dec. Qed.

(** ** First positions of rounded rows *)
Lemma row_lt_irrefl r : ~ row_lt r r.
Proof. unfold row_lt. rewrite row_refl. discriminate. Qed.
Lemma index_In r i l : StronglySorted row_lt (map fst l) -> forall s j, In (s, j) (insert_index r i l) <-> In (s, j) l \/ (s = r /\ j = i /\ ~ In r (map fst l)).
Proof.
  induction l as [|[s0 j0] l IH]; intros So s j; cbn [insert_index map fst].
  - split; [intros [H|[]]; injection H as <- <-; right; simpl; auto|intros [[]|(-> & -> & _)]; left; reflexivity].
  - cbn [map fst] in So. apply StronglySorted_inv in So as [So Fo]. destruct (row_compare r s0) eqn:C.
    + apply row_eq in C. subst s0. split; [intros H; left; exact H|intros [H|(_ & _ & N)]; [exact H|exfalso; apply N; left; reflexivity]].
    + split.
      * intros [H|H]; [injection H as <- <-; right; repeat split|left; exact H]. intros [<-|I].
        { apply (row_lt_irrefl s0). exact C. }
        { rewrite Forall_forall in Fo. apply (row_lt_irrefl r). apply (row_trans r s0 r); [exact C|apply Fo; exact I]. }
      * intros [H|(-> & -> & _)]; [right; exact H|left; reflexivity].
    + specialize (IH So s j). split.
      * intros [H|H]; [left; left; exact H|]. apply IH in H as [H|(-> & -> & N)]; [left; right; exact H|right]. repeat split. intros [->|I]; [|exact (N I)]. rewrite row_refl in C. discriminate.
      * intros [[H|H]|(-> & -> & N)]; [left; exact H|right; apply IH; left; exact H|right; apply IH; right]. repeat split. intros I. apply N. right. exact I.
Qed.
Lemma index_sorted r i l : StronglySorted row_lt (map fst l) -> StronglySorted row_lt (map fst (insert_index r i l)).
Proof.
  induction l as [|[s j] l IH]; intros So; cbn [insert_index]; [cbn [map fst]; constructor; constructor|]. destruct (row_compare r s) eqn:C; [exact So| |].
  - cbn [map fst] in *. constructor; [exact So|]. apply StronglySorted_inv in So as [So Fo]. constructor; [exact C|]. eapply Forall_impl; [|exact Fo]. intros t. apply row_trans. exact C.
  - cbn [map fst] in *. apply StronglySorted_inv in So as [So Fo]. constructor; [apply IH; exact So|]. apply Forall_forall. intros t I. apply in_map_iff in I as ((t' & k) & <- & I).
    apply index_In in I; [|exact So]. cbn [fst]. rewrite Forall_forall in Fo. destruct I as [I|(-> & -> & _)]; [apply Fo; apply in_map_iff; exists (t', k); auto|apply row_gt; exact C].
Qed.

Section Rows.
  Variable scale : R.
  Notation rnd := (rounded scale).
  Notation add_row := (fun l ip => insert_index (rnd (snd ip)) (fst ip) l).
  Lemma rows_fold (ips : list (nat * vec)) : forall l0, StronglySorted row_lt (map fst l0) ->
    StronglySorted row_lt (map fst (fold_left add_row ips l0)) /\
    forall r i, In (r, i) (fold_left add_row ips l0) <-> In (r, i) l0 \/
      (~ In r (map fst l0) /\ exists pre p post, ips = pre ++ (i, p) :: post /\ rnd p = r /\ forall q, In q pre -> rnd (snd q) <> r).
  Proof.
    induction ips as [|[k p] ips IH]; intros l0 So; cbn [fold_left fst snd].
    - split; [exact So|]. intros r i. split; [auto|]. intros [H|(_ & pre & p & post & E & _)]; [exact H|destruct pre; discriminate].
    - destruct (IH _ (index_sorted (rnd p) k l0 So)) as [So' G]. split; [exact So'|]. intros r i. rewrite G, index_In by exact So.
      assert (K : In r (map fst (insert_index (rnd p) k l0)) <-> In r (map fst l0) \/ r = rnd p).
      { rewrite !in_map_iff. split.
        - intros ((s & j) & <- & I). apply index_In in I; [|exact So]. destruct I as [I|(-> & -> & _)]; [left; exists (s, j); auto|right; reflexivity].
        - intros [((s & j) & <- & I)| ->]; [exists (s, j); split; [reflexivity|]; apply index_In; auto|].
          destruct (in_dec row_dec (rnd p) (map fst l0)) as [I|N].
          + apply in_map_iff in I as ((s & j) & Q & I). exists (s, j). split; [exact Q|]. apply index_In; auto.
          + exists (rnd p, k). split; [reflexivity|]. apply index_In; auto. }
      rewrite K. split.
      + intros [[H|(-> & -> & N)]|(N & pre & q & post & -> & Q & F)]; [left; exact H|right; split; [exact N|]; exists [], p, ips; simpl; tauto|].
        right. split; [tauto|]. exists ((k, p) :: pre), q, post. split; [reflexivity|]. split; [exact Q|]. intros x [<-|I]; [cbn [snd]; intros H; apply N; right; congruence|apply F; exact I].
      + intros [H|(N & pre & q & post & E & Q & F)]; [left; left; exact H|]. destruct pre as [|x pre]; cbn [app] in E.
        * injection E as -> -> E. left. right. subst r. tauto.
        * injection E as Ex E. right. split; [|exists pre, q, post; subst; repeat split; auto; intros y I; apply F; right; exact I].
          intros [I|I]; [exact (N I)|]. apply (F x); [left; reflexivity|]. rewrite <- Ex. cbn [snd]. congruence.
  Qed.

  (** [i] is a position of [points], and no earlier one has the same row *)
  Definition first_row (points : list vec) (i : nat) : Prop := exists pre p post, points = pre ++ p :: post /\ length pre = i /\ forall q, In q pre -> rnd q <> rnd p.
  Lemma combine_split {A} (l : list A) : forall k pre i x post, combine (seq k (length l)) l = pre ++ (i, x) :: post ->
    exists pre' post', l = pre' ++ x :: post' /\ k + length pre' = i /\ map snd pre = pre'.
  Proof.
    induction l as [|y l IH]; intros k pre i x post E; [destruct pre; discriminate|]. cbn [length seq combine] in E. destruct pre as [|z pre]; cbn [app] in E.
    - injection E as -> -> E. exists [], l. split; [reflexivity|]. split; [simpl; lia|reflexivity].
    - injection E as Ez E. subst z. apply IH in E as (pre' & post' & -> & L & M). exists (y :: pre'), post'. split; [reflexivity|]. split; [simpl; lia|]. cbn [map snd]. congruence.
  Qed.
  Lemma combine_app {A} (l l' : list A) k : combine (seq k (length (l ++ l'))) (l ++ l') = combine (seq k (length l)) l ++ combine (seq (k + length l) (length l')) l'.
  Proof. revert k. induction l as [|x l IH]; intros k; [simpl; rewrite Nat.add_0_r; reflexivity|]. cbn [app length seq combine]. rewrite IH. do 3 f_equal. simpl. f_equal. lia. Qed.
  Lemma rounded_idx_In points i : In i (rounded_idx scale points) <-> first_row points i.
  Proof.
    unfold rounded_idx. destruct (rows_fold (combine (seq 0 (length points)) points) [] (SSorted_nil _)) as [_ G]. rewrite in_map_iff. split.
    - intros ((r & j) & <- & I). apply G in I as [[]|(_ & pre & p & post & E & Q & F)]. cbn [snd]. apply combine_split in E as (pre' & post' & -> & L & M).
      exists pre', p, post'. split; [reflexivity|]. split; [simpl in L; exact L|]. intros q I. subst pre'. apply in_map_iff in I as (x & <- & I). rewrite Q. apply F. exact I.
    - intros (pre & p & post & -> & L & F). exists (rnd p, i). split; [reflexivity|]. apply G. right. split; [intros []|]. rewrite combine_app. cbn [length seq combine]. rewrite L. cbn [plus].
      eexists _, p, _. split; [reflexivity|]. split; [reflexivity|]. intros (k & q) I. cbn [snd]. apply F. apply in_combine_r in I. exact I.
  Qed.
  Lemma rounded_idx_nodup points : NoDup (rounded_idx scale points).
  Proof.
    unfold rounded_idx. destruct (rows_fold (combine (seq 0 (length points)) points) [] (SSorted_nil _)) as [So G]. apply sorted_nodup in So.
    set (l := fold_left _ _ _) in *.
    assert (U : forall r s j, In (r, j) l -> In (s, j) l -> r = s).
    { intros r s j I J. apply G in I as [[]|(_ & pre & p & post & E & <- & _)]. apply G in J as [[]|(_ & pre' & p' & post' & E' & <- & _)]. f_equal.
      apply combine_split in E as (a & b & E & L & _). apply combine_split in E' as (a' & b' & E' & L' & _). rewrite E in E'.
      assert (N : nth_error (a ++ p :: b) j = Some p) by (rewrite nth_error_app2 by lia; replace (j - length a) with 0 by (simpl in L; lia); reflexivity).
      assert (N' : nth_error (a' ++ p' :: b') j = Some p') by (rewrite nth_error_app2 by lia; replace (j - length a') with 0 by (simpl in L'; lia); reflexivity). congruence. }
    clearbody l. clear G. induction l as [|[r j] l IH]; [constructor|]. cbn [map fst snd] in *. apply NoDup_cons_iff in So as [N So]. constructor.
    - intros I. apply in_map_iff in I as ((s & k) & Q & I). cbn [snd] in Q. subst k. apply N. rewrite (U r s j); [apply in_map_iff; exists (s, j); auto|left; reflexivity|right; exact I].
    - apply IH; [exact So|]. intros. apply (U r0 s j0); right; assumption.
  Qed.
  Lemma rounded_idx_all points : NoDup (map rnd points) -> Permutation (rounded_idx scale points) (seq 0 (length points)).
  Proof.
    intros N. apply NoDup_Permutation; [apply rounded_idx_nodup|apply seq_NoDup|]. intros i. rewrite rounded_idx_In, in_seq. split.
    - intros (pre & p & post & -> & <- & _). rewrite app_length. simpl. lia.
    - intros [_ L]. destruct (nth_error points i) as [p|] eqn:E; [|apply nth_error_None in E; lia]. apply nth_error_split in E as (pre & post & -> & Lp). exists pre, p, post.
      split; [reflexivity|]. split; [exact Lp|]. intros q I Q. rewrite map_app in N. cbn [map] in N. apply NoDup_remove_2 in N. apply N. apply in_or_app. left. rewrite <- Q. apply in_map. exact I.
  Qed.

  (** *** the raw vertices that are kept *)
  Notation kept raw := (kept_vertices scale raw).
  Lemma kept_In raw x : In x (kept raw) <-> exists pre post, raw = pre ++ x :: post /\ forall y, In y pre -> rnd (snd y) <> rnd (snd x).
  Proof.
    unfold kept_vertices. rewrite in_map_iff. split.
    - intros ((i & y) & <- & I). apply filter_In in I as [I M]. cbn [fst snd] in *. apply memb_In in M. apply rounded_idx_In in M as (pre & p & post & E & L & F).
      apply in_split in I as (u & w & I). apply combine_split in I as (pre' & post' & Q & L' & _). exists pre', post'. split; [exact Q|]. simpl in L'. subst raw.
      rewrite map_app in E. cbn [map] in E. assert (Lm : length (map snd pre') = length pre) by (rewrite map_length; lia).
      apply app_inv_length in E; [|exact Lm]. destruct E as [E1 E2]. injection E2 as <- _. intros z I. apply F. rewrite <- E1. apply in_map. exact I.
    - intros (pre & post & -> & F). exists (length pre, x). split; [reflexivity|]. apply filter_In. split.
      + rewrite combine_app. apply in_or_app. right. left. simpl. reflexivity.
      + cbn [fst]. apply memb_In, rounded_idx_In. exists (map snd pre), (snd x), (map snd post). rewrite map_app. cbn [map]. split; [reflexivity|]. split; [apply map_length|].
        intros q I. apply in_map_iff in I as (y & <- & I). apply F. exact I.
  Qed.
  Lemma kept_nodup raw : NoDup (map (fun x => rnd (snd x)) (kept raw)).
  Proof.
    unfold kept_vertices. set (U := rounded_idx scale (map snd raw)).
    assert (G : forall l k pre, raw = pre ++ l -> length pre = k ->
      NoDup (map (fun x : option Z * vec => rnd (snd x)) (map snd (filter (fun ip => memb (fst ip) U) (combine (seq k (length l)) l)))) /\
      forall x, In x (map snd (filter (fun ip => memb (fst ip) U) (combine (seq k (length l)) l))) -> forall y, In y pre -> rnd (snd y) <> rnd (snd x)).
    { induction l as [|y l IH]; intros k pre E L; [split; [constructor|intros x []]|].
      destruct (IH (S k) (pre ++ [y])) as [N F]; [rewrite <- app_assoc; exact E|rewrite app_length; simpl; lia|].
      cbn [length seq combine filter fst]. destruct (memb k U) eqn:M; cycle 1.
      { split; [exact N|]. intros x I z J. apply (F x I). apply in_or_app. left. exact J. }
      cbn [map snd]. split.
      - constructor; [|exact N]. intros I. apply in_map_iff in I as (x & Q & I). apply (F x I y); [apply in_or_app; right; left; reflexivity|]. symmetry. exact Q.
      - intros x [<-|I] z J; [|apply (F x I); apply in_or_app; left; exact J]. apply memb_In, rounded_idx_In in M as (pre' & p & post & E' & L' & F').
        rewrite E, map_app in E'. cbn [map] in E'. apply app_inv_length in E'; [|rewrite map_length; lia]. destruct E' as [E1 E2]. injection E2 as <- _. apply F'. rewrite <- E1. apply in_map. exact J. }
    exact (proj1 (G raw 0 [] eq_refl eq_refl)).
  Qed.
  Lemma kept_covers raw x : In x raw -> exists y, In y (kept raw) /\ rnd (snd y) = rnd (snd x).
  Proof.
    intros I. assert (G : forall l pre, raw = pre ++ l -> (forall y, In y pre -> rnd (snd y) <> rnd (snd x)) -> In x l -> exists y, In y (kept raw) /\ rnd (snd y) = rnd (snd x)).
    { induction l as [|y l IH]; intros pre E F J; [destruct J|].
      destruct (row_dec (rnd (snd y)) (rnd (snd x))) as [Q|Q].
      - exists y. split; [|exact Q]. apply kept_In. exists pre, l. split; [exact E|]. intros z K. rewrite Q. apply F. exact K.
      - destruct J as [->|J]; [congruence|]. apply (IH (pre ++ [y])); [rewrite <- app_assoc; exact E| |exact J]. intros z K. apply in_app_or in K as [K|[<-|[]]]; [apply F; exact K|exact Q]. }
    apply (G raw []); [reflexivity|intros y []|exact I].
  Qed.
End Rows.
