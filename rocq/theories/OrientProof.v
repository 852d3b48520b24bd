(** * Lemmas: orientation of edges and faces, C47, C48, C64 *)
From Coq Require Import List Arith ZArith Bool Lia Permutation.
From Verif Require Import Base BaseProof MeshModel MeshSpec GraphModel OrientModel OrientSpec.
Import ListNotations.

Lemma list3 (l : list nat) : length l = 3 -> exists a b c, l = [a; b; c].
Proof. destruct l as [|a [|b [|c [|]]]]; simpl; intros; try lia; eauto. Qed.
Lemma list4 (l : list nat) : length l = 4 -> exists a b c d, l = [a; b; c; d].
Proof. destruct l as [|a [|b [|c [|d [|]]]]]; simpl; intros; try lia; eauto. Qed.
Lemma list2 (l : list nat) : length l = 2 -> exists a b, l = [a; b].
Proof. destruct l as [|a [|b [|]]]; simpl; intros; try lia; eauto. Qed.

Ltac eqb_lists := repeat match goal with
  | |- context [eqb ?a ?a] => replace (eqb a a) with true by (symmetry; apply eqb_true; reflexivity)
  | |- context [eqb ?a ?b] => replace (eqb a b) with false by (symmetry; apply eqb_false; intros Q_; inversion Q_; lia)
  end.

(** sorting three different numbers *)
Lemma sort3 x y z : x <> y -> x <> z -> y <> z -> exists a b c, sort_nat [x; y; z] = [a; b; c] /\ a < b < c /\
  (([x; y; z] = [a; b; c]) \/ ([x; y; z] = [a; c; b]) \/ ([x; y; z] = [b; a; c]) \/ ([x; y; z] = [b; c; a]) \/
   ([x; y; z] = [c; a; b]) \/ ([x; y; z] = [c; b; a])).
Proof.
  intros. unfold sort_nat. simpl. destruct (Nat.leb_spec y z); simpl.
  - destruct (Nat.leb_spec x y); [do 3 eexists; split; [reflexivity|]; split; [lia|auto]|]. 
    destruct (Nat.leb_spec x z); do 3 eexists; (split; [reflexivity|]); (split; [lia|tauto]).
  - destruct (Nat.leb_spec x z); [do 3 eexists; split; [reflexivity|]; split; [lia|tauto]|]. 
    destruct (Nat.leb_spec x y); do 3 eexists; (split; [reflexivity|]); (split; [lia|tauto]).
Qed.
Lemma sort2 x y : x <> y -> (x < y /\ sort_nat [x; y] = [x; y]) \/ (y < x /\ sort_nat [x; y] = [y; x]).
Proof.
  intros. unfold sort_nat. simpl. destruct (Nat.leb_spec x y); [left|right]; split; auto; lia.
Qed.

Lemma memb_13 i : memb i [1; 3] = ((i =? 1) || (i =? 3)).
Proof. destruct i as [|[|[|[|i]]]]; try reflexivity. Qed.

Lemma face_core nodes bc i con x y z : take nodes con = Ok [x; y; z] -> x <> y -> x <> z -> y <> z -> i < 4 -> i < length bc ->
  exists a b c r s, sort_nat [x; y; z] = [a; b; c] /\ a < b < c /\ r < 3 /\ s < 2 /\ moved r s [a; b; c] = [x; y; z] /\
    face_orientation nodes bc i con = Ok (if overridden bc i then (false, r, 1) else (eqb [a; b; c] [x; y; z], r, s)).
Proof.
  intros T Hxy Hxz Hyz Hi Hb. destruct (sort3 x y z Hxy Hxz Hyz) as (a & b & c & S & L & C).
  exists a, b, c. unfold face_orientation, overridden. rewrite T. cbn [bind]. rewrite S.
  assert (G : get_at bc i = Ok (nth i bc false)).
  { unfold get_at. rewrite (nth_error_nth' bc false Hb). reflexivity. }
  rewrite G, memb_13.
  unfold permutations. cbn [length permutations_of picks flat_map map fst snd app combine seq enumerate].
  unfold enumerate. cbn [length combine seq].
  destruct C as [C|[C|[C|[C|[C|C]]]]]; rewrite C;
    [exists 0, 0|exists 0, 1|exists 2, 1|exists 1, 0|exists 2, 0|exists 1, 1];
    (split; [reflexivity|]); (split; [auto|]); (split; [lia|]); (split; [lia|]); (split; [reflexivity|]);
    cbn [filter snd fst]; eqb_lists; cbn [filter map fst snd bind rotations_reflections Nat.eqb];
    destruct (nth i bc false && _); reflexivity.
Qed.

Lemma moved_unique a b c r s r' s' : a < b < c -> r < 3 -> s < 2 -> r' < 3 -> s' < 2 ->
  moved r s [a; b; c] = moved r' s' [a; b; c] -> r' = r /\ s' = s.
Proof.
  intros L Hr Hs Hr' Hs' E. destruct r as [|[|[|r]]], s as [|[|s]], r' as [|[|[|r']]], s' as [|[|s']];
    try lia; simpl in E; inversion E; lia.
Qed.
Lemma sorted_moved a b c r s : a < b < c -> r < 3 -> s < 2 -> (moved r s [a; b; c] = [a; b; c] <-> r = 0 /\ s = 0).
Proof.
  intros L Hr Hs. split.
  - intros E. destruct (moved_unique a b c 0 0 r s) as [-> ->]; auto; lia.
  - intros [-> ->]. reflexivity.
Qed.

Lemma take_face a b c d i con : nth_error tetra_faces i = Some con -> take [a; b; c; d] con = Ok (face_of [a; b; c; d] i).
Proof. destruct i as [|[|[|[|i]]]]; simpl; intros H; inversion H; try reflexivity. destruct i; discriminate. Qed.
Lemma face_of_distinct a b c d i : NoDup [a; b; c; d] -> i < 4 -> exists x y z, face_of [a; b; c; d] i = [x; y; z] /\ x <> y /\ x <> z /\ y <> z.
Proof.
  intros N Hi. apply NoDup_cons_iff in N as [N1 N]. apply NoDup_cons_iff in N as [N2 N]. apply NoDup_cons_iff in N as [N3 N]. simpl in *.
  destruct i as [|[|[|[|i]]]]; try lia; do 3 eexists; (split; [reflexivity|]); repeat split; intros ->; tauto.
Qed.

Lemma mapM_enumerate {A B} (f : nat * A -> res B) l (g : nat -> A -> B) :
  (forall i x, nth_error l i = Some x -> f (i, x) = Ok (g i x)) ->
  mapM f (enumerate l) = Ok (map (fun ix => g (fst ix) (snd ix)) (enumerate l)).
Proof.
  intros H. unfold enumerate. assert (K : forall k l', (forall i x, nth_error l' i = Some x -> f (k + i, x) = Ok (g (k + i) x)) ->
    mapM f (combine (seq k (length l')) l') = Ok (map (fun ix => g (fst ix) (snd ix)) (combine (seq k (length l')) l'))).
  { intros k l'. revert k. induction l' as [|x l' IH]; intros k Hk; simpl; auto.
    pose proof (Hk 0 x eq_refl) as H0. rewrite Nat.add_0_r in H0. rewrite H0. simpl.
    rewrite (IH (S k)); auto. intros i y Hy. specialize (Hk (S i) y Hy). rewrite <- Nat.add_succ_comm in Hk. exact Hk. }
  apply (K 0 l). auto.
Qed.
Lemma nth_error_enumerate {A} (l : list A) i : nth_error (enumerate l) i = option_map (fun x => (i, x)) (nth_error l i).
Proof.
  unfold enumerate. assert (K : forall k, nth_error (combine (seq k (length l)) l) i = option_map (fun x => (k + i, x)) (nth_error l i)).
  { revert i. induction l as [|x l IH]; intros i k; destruct i; simpl; auto. { rewrite Nat.add_0_r. auto. }
    rewrite IH. rewrite <- Nat.add_succ_comm. auto. }
  apply (K 0).
Qed.

Lemma increasing3 a b c x y z : a < b < c -> (([x; y; z] = [a; b; c]) \/ ([x; y; z] = [a; c; b]) \/ ([x; y; z] = [b; a; c]) \/ ([x; y; z] = [b; c; a]) \/
   ([x; y; z] = [c; a; b]) \/ ([x; y; z] = [c; b; a])) -> increasing [a; b; c] /\ Permutation [a; b; c] [x; y; z].
Proof.
  intros L C. split; [repeat constructor; lia|].
  destruct C as [C|[C|[C|[C|[C|C]]]]]; rewrite C; auto.
  - constructor. constructor.
  - constructor.
  - apply (Permutation_cons_app [b; c] []). auto.
  - symmetry. apply (Permutation_cons_app [a; b] []). auto.
  - apply (Permutation_cons_app [c; b] []). constructor.
Qed.
Lemma increasing_unique3 a b c g : a < b < c -> increasing g -> Permutation g [a; b; c] -> g = [a; b; c].
Proof.
  intros L I P. pose proof (Permutation_length P) as N. destruct (list3 g N) as (x & y & z & ->).
  inversion I; subst. inversion H3; subst.
  assert (Hx : In x [a; b; c]) by (eapply Permutation_in; [exact P|simpl; auto]).
  assert (Hy : In y [a; b; c]) by (eapply Permutation_in; [exact P|simpl; auto]).
  assert (Hz : In z [a; b; c]) by (eapply Permutation_in; [exact P|simpl; auto]).
  simpl in *. repeat f_equal; lia.
Qed.

Lemma face_orientation_lemma nodes bc : length nodes = 4 -> NoDup nodes -> length bc = 4 ->
  exists q, face_orientation_3d nodes bc = Ok q /\ length q = 4 /\ forall i, i < 4 ->
  exists g o r s t, increasing g /\ Permutation g (face_of nodes i) /\ nth_error q i = Some (o, r, t) /\ r < 3 /\ s < 2 /\
    moved r s g = face_of nodes i /\
    (forall r' s', r' < 3 -> s' < 2 -> moved r' s' g = face_of nodes i -> r' = r /\ s' = s) /\
    if overridden bc i then o = false /\ t = 1 else t = s /\ (o = true <-> r = 0 /\ s = 0).
Proof.
  intros Ln N Lb. destruct (list4 nodes Ln) as (n0 & n1 & n2 & n3 & ->).
  assert (H : forall i con, nth_error tetra_faces i = Some con -> exists q, face_orientation [n0; n1; n2; n3] bc i con = Ok q /\
    exists g o r s t, increasing g /\ Permutation g (face_of [n0; n1; n2; n3] i) /\ q = (o, r, t) /\ r < 3 /\ s < 2 /\
    moved r s g = face_of [n0; n1; n2; n3] i /\
    (forall r' s', r' < 3 -> s' < 2 -> moved r' s' g = face_of [n0; n1; n2; n3] i -> r' = r /\ s' = s) /\
    if overridden bc i then o = false /\ t = 1 else t = s /\ (o = true <-> r = 0 /\ s = 0)).
  { intros i con Hi. assert (i < 4) by (change 4 with (length tetra_faces); apply nth_error_Some; congruence).
    destruct (face_of_distinct _ _ _ _ i N H) as (x & y & z & Ef & D1 & D2 & D3).
    pose proof (take_face n0 n1 n2 n3 i con Hi) as T. rewrite Ef in T.
    destruct (face_core _ bc i con x y z T D1 D2 D3 H ltac:(lia)) as (a & b & c & r & s & S & L & Hr & Hs & Mv & E).
    destruct (sort3 x y z D1 D2 D3) as (a' & b' & c' & S' & L' & C). rewrite S in S'. inversion S'; subst a' b' c'.
    destruct (increasing3 a b c x y z L C) as [I P].
    eexists. split; [exact E|]. rewrite Ef. exists [a; b; c].
    destruct (overridden bc i); eexists; exists r, s; eexists; (split; [exact I|]); (split; [exact P|]); (split; [reflexivity|]);
      (split; [auto|]); (split; [auto|]); (split; [auto|]);
      (split; [intros r' s' Hr' Hs' E'; apply (moved_unique a b c); auto; congruence|]); auto.
    split; auto. rewrite eqb_true, <- Mv, <- (sorted_moved a b c r s L Hr Hs). split; congruence. }
  unfold face_orientation_3d, enumerate. cbn [length tetra_faces combine seq].
  destruct (H 0 _ eq_refl) as (q0 & E0 & F0). destruct (H 1 _ eq_refl) as (q1 & E1 & F1).
  destruct (H 2 _ eq_refl) as (q2 & E2 & F2). destruct (H 3 _ eq_refl) as (q3 & E3 & F3).
  cbn [mapM fst snd]. rewrite E0, E1, E2, E3. cbn [bind]. eexists. split; [reflexivity|]. split; auto.
  intros i Hi.
  assert (K : forall q, nth_error [q0; q1; q2; q3] i = Some q -> (exists g o r s t, increasing g /\ Permutation g (face_of [n0; n1; n2; n3] i) /\ q = (o, r, t) /\ r < 3 /\ s < 2 /\
    moved r s g = face_of [n0; n1; n2; n3] i /\
    (forall r' s', r' < 3 -> s' < 2 -> moved r' s' g = face_of [n0; n1; n2; n3] i -> r' = r /\ s' = s) /\
    if overridden bc i then o = false /\ t = 1 else t = s /\ (o = true <-> r = 0 /\ s = 0))).
  { intros q Hq. destruct i as [|[|[|[|i]]]]; try lia; simpl in Hq; inversion Hq; subst q; assumption. }
  destruct (nth_error [q0; q1; q2; q3] i) as [q|] eqn:Eq; [|apply nth_error_None in Eq; simpl in Eq; lia].
  destruct (K q eq_refl) as (g & o & r & s & t & H1 & H2 & -> & H3). exists g, o, r, s, t. auto.
Qed.

(** ** the transformation of the rows *)
Lemma iter_shift {A} (f : A -> A) n x : Nat.iter n f (f x) = f (Nat.iter n f x).
Proof. induction n; simpl; congruence. Qed.

Lemma len_rotated f : length f = 3 -> length (rotated f) = 3.
Proof. intros H. destruct (list3 f H) as (a & b & c & ->). reflexivity. Qed.
Lemma len_reflected f : length f = 3 -> length (reflected f) = 3.
Proof. intros H. destruct (list3 f H) as (a & b & c & ->). reflexivity. Qed.
Lemma len_iter (h : list nat -> list nat) n f : (forall g, length g = 3 -> length (h g) = 3) -> length f = 3 -> length (Nat.iter n h f) = 3.
Proof. intros H Hf. induction n; simpl; auto. Qed.

Section Rows.
  Variable M E F : Type.
  Variable mul : M -> M -> M.
  Variable one : M.
  Variable act_e : M -> E -> E.
  Variable act_f : M -> F -> F.
  Variable rotate_t reflect_t reflect_e : M.
  Variable Bf : list nat -> F.
  Variable Be : list nat -> E.
  Hypothesis Aact : action M mul one act_f.
  Hypothesis Hf : face_bases M F act_f rotate_t reflect_t Bf.
  Hypothesis He : edge_bases M E act_e reflect_e Be.

  Lemma act_times n m t x : act_f (times M mul n m t) x = Nat.iter n (act_f m) (act_f t x).
  Proof.
    revert t. induction n; intros t; simpl; auto. rewrite IHn, (proj2 Aact). apply iter_shift.
  Qed.
  Lemma undo_iter m (h : list nat -> list nat) : (forall f, length f = 3 -> act_f m (Bf (h f)) = Bf f) ->
    (forall f, length f = 3 -> length (h f) = 3) -> forall n f, length f = 3 -> Nat.iter n (act_f m) (Bf (Nat.iter n h f)) = Bf f.
  Proof.
    intros H L n. induction n as [|n IH]; intros f Hl; simpl; auto.
    rewrite <- iter_shift, H; [auto|]. apply len_iter; auto.
  Qed.
  Lemma transform_face_lemma o r s t g : length g = 3 -> s < 2 ->
    (o = true -> r = 0 /\ s = 0) ->
    transform_face M F mul one act_f rotate_t reflect_t (o, r, t) (Bf (moved r s g)) =
      if o then Bf g else Nat.iter t (act_f reflect_t) (Bf (Nat.iter s reflected g)).
  Proof.
    intros Lg Hs Ho. unfold transform_face, moved. destruct o.
    - destruct (Ho eq_refl) as [-> ->]. reflexivity.
    - rewrite act_times, act_times, (proj1 Aact). f_equal. apply undo_iter.
      + intros f Hl. apply (Hf f Hl).
      + apply len_rotated.
      + apply len_iter; auto. apply len_reflected.
  Qed.

  Lemma nth_error_update {A B} (f : B -> A -> A) q l i b x : nth_error q i = Some b -> nth_error l i = Some x ->
    nth_error (update_rows f q l) i = Some (f b x).
  Proof.
    unfold update_rows. revert l i. induction q as [|b' q IH]; intros [|x' l] [|i] Hb Hx; simpl in *; try discriminate; auto. congruence.
  Qed.
  Lemma length_update {A B} (f : B -> A -> A) q l : length q = length l -> length (update_rows f q l) = length l.
  Proof. intros H. unfold update_rows. rewrite map_length, combine_length. lia. Qed.
  Lemma nth_error_map_seq {A} (f : nat -> A) n i : i < n -> nth_error (map f (seq 0 n)) i = Some (f i).
  Proof. intros H. rewrite (map_nth_error f i (seq 0 n) (d := i)); auto. rewrite (nth_error_nth' _ 0); [|rewrite seq_length; auto]. rewrite seq_nth; auto. Qed.

  Lemma sub_edge cs c i e : stored_edge cs c i e -> sub_edge_nodes cs c i = Ok e.
  Proof.
    intros (subs & id & k & H1 & H2 & H3 & H4). unfold sub_edge_nodes, get_at, cell_of. rewrite H1. cbn [bind]. rewrite H2. cbn [bind].
    unfold get_at. rewrite H3. cbn [bind]. congruence.
  Qed.
  Lemma edge_row (e v : list nat) : length e = 2 -> NoDup e -> Permutation e v -> transform_edge M E act_e reflect_e (eqb e v) (Be e) = Be v.
  Proof.
    intros L N P. destruct (list2 e L) as (a & b & ->). apply Permutation_length_2_inv in P as [->| ->].
    - replace (eqb [a; b] [a; b]) with true by (symmetry; apply eqb_true; auto). reflexivity.
    - apply NoDup_cons_iff in N as [N _]. simpl in N.
      replace (eqb [a; b] [b; a]) with false by (symmetry; apply eqb_false; intros Q; inversion Q; auto).
      unfold transform_edge. apply (He [b; a]). reflexivity.
  Qed.

  Lemma tetra_edge_distinct a b c d i : NoDup [a; b; c; d] -> i < 6 -> length (tetra_edge_of [a; b; c; d] i) = 2 /\ NoDup (tetra_edge_of [a; b; c; d] i).
  Proof.
    intros N Hi. apply NoDup_cons_iff in N as [N1 N]. apply NoDup_cons_iff in N as [N2 N]. apply NoDup_cons_iff in N as [N3 N]. simpl in *.
    destruct i as [|[|[|[|[|[|i]]]]]]; try lia; (split; [reflexivity|]); repeat constructor; simpl; tauto.
  Qed.
  Lemma take_edge a b c d i con : nth_error tetra_edges i = Some con -> take [a; b; c; d] con = Ok (tetra_edge_of [a; b; c; d] i).
  Proof. destruct i as [|[|[|[|[|[|i]]]]]]; simpl; intros H; inversion H; try reflexivity. destruct i; discriminate. Qed.

  Lemma insert_sorted_perm x l : Permutation (insert_sorted x l) (x :: l).
  Proof. induction l as [|y l IH]; simpl; auto. destruct (x <=? y); auto. rewrite IH. apply perm_swap. Qed.
  Lemma sort_nat_perm l : Permutation (sort_nat l) l.
  Proof. induction l as [|x l IH]; simpl; auto. rewrite insert_sorted_perm. auto. Qed.
  Lemma sort2_spec e g : length e = 2 -> increasing g -> Permutation g e -> sort_nat e = g.
  Proof.
    intros L I P. destruct (list2 e L) as (a & b & ->). symmetry in P. apply Permutation_length_2_inv in P as [->| ->];
      inversion I; subst; unfold sort_nat; simpl; destruct (Nat.leb_spec a b); auto; lia.
  Qed.

  Lemma tetra_lemma cs c bc : c_dim c = 3 -> length (c_nodes c) = 4 -> NoDup (c_nodes c) -> length bc = 4 ->
    (forall i, i < 6 -> exists e, stored_edge cs c i e /\ Permutation e (tetra_edge_of (c_nodes c) i)) ->
    exists phi, permute_and_transform M E F mul one act_e act_f rotate_t reflect_t reflect_e false cs c bc (tetra_rows E F Be Bf (c_nodes c)) = Ok phi /\
      length (r_edges E F phi) = 6 /\ length (r_faces E F phi) = 4 /\
      (forall i g, i < 6 -> increasing g -> Permutation g (tetra_edge_of (c_nodes c) i) -> nth_error (r_edges E F phi) i = Some (Be g)) /\
      (forall i g r s, i < 4 -> increasing g -> Permutation g (face_of (c_nodes c) i) -> r < 3 -> s < 2 -> moved r s g = face_of (c_nodes c) i ->
         nth_error (r_faces E F phi) i = Some (if overridden bc i && (s =? 0) then act_f reflect_t (Bf g) else Bf g)).
  Proof.
    intros Hd Ln N Lb St. unfold permute_and_transform. rewrite Hd. cbn [Nat.eqb].
    destruct (face_orientation_lemma (c_nodes c) bc Ln N Lb) as (qf & Ef & Lf & Hq). rewrite Ef. cbn [bind].
    destruct (list4 _ Ln) as (n0 & n1 & n2 & n3 & En). rewrite En in *.
    set (v i := match sub_edge_nodes cs c i with Ok v => v | Err _ => [] end).
    assert (Ev : forall i, i < 6 -> sub_edge_nodes cs c i = Ok (v i) /\ Permutation (v i) (tetra_edge_of [n0; n1; n2; n3] i)).
    { intros i Hi. destruct (St i Hi) as (e & He' & Pe). apply sub_edge in He'. unfold v. rewrite He'. auto. }
    unfold edge_orientation_3d. rewrite (mapM_enumerate _ tetra_edges (fun i _ => eqb (tetra_edge_of [n0; n1; n2; n3] i) (sort_nat (v i)))).
    2:{ intros i con Hi. cbn [fst snd]. rewrite En, (take_edge _ _ _ _ _ _ Hi). cbn [bind].
        assert (i < 6) by (change 6 with (length tetra_edges); apply nth_error_Some; congruence).
        destruct (Ev i H) as [-> _]. reflexivity. }
    cbn [bind]. eexists. split; [reflexivity|]. cbn [r_edges r_faces tetra_rows].
    split; [rewrite length_update; [reflexivity|reflexivity]|]. split; [rewrite length_update; [reflexivity|auto]|]. split.
    - intros i g Hi I P. destruct (Ev i Hi) as [_ Pv]. destruct (tetra_edge_distinct n0 n1 n2 n3 i N Hi) as [L2 N2].
      assert (S : sort_nat (v i) = g).
      { apply sort2_spec; auto. { apply Permutation_length in Pv. lia. } rewrite P, Pv. auto. }
      destruct (nth_error tetra_edges i) as [con|] eqn:Eq; [|apply nth_error_None in Eq; simpl in Eq; lia].
      erewrite nth_error_update; [|erewrite map_nth_error; [reflexivity|]|apply nth_error_map_seq; auto].
      2:{ rewrite nth_error_enumerate, Eq. reflexivity. }
      cbn [fst]. rewrite S, edge_row; auto. symmetry; auto.
    - intros i g r s Hi I P Hr Hs Mv. destruct (Hq i Hi) as (g' & o & r' & s' & t & I' & P' & Eq & Hr' & Hs' & Mv' & U & C).
      destruct (face_of_distinct _ _ _ _ i N Hi) as (x & y & z & Efc & D).
      assert (g' = g).
      { assert (Lg : length g = 3) by (apply Permutation_length in P; rewrite Efc in P; auto). destruct (list3 g Lg) as (a & b & c0 & ->).
        apply increasing_unique3; auto. { inversion I; subst. inversion H3; subst. lia. } rewrite P', P. auto. }
      subst g'. destruct (U r s Hr Hs Mv) as [-> ->].
      assert (Lg : length g = 3) by (apply Permutation_length in P; rewrite Efc in P; auto).
      erewrite nth_error_update; [|exact Eq|apply nth_error_map_seq; auto]. f_equal. rewrite <- Mv.
      assert (Ho : o = true -> r' = 0 /\ s' = 0) by (destruct (overridden bc i); destruct C as [C1 C2]; [congruence|apply C2]).
      rewrite transform_face_lemma; auto. destruct (overridden bc i); cbn [andb].
      + destruct C as [-> ->]. cbn [Nat.iter nat_rect Nat.eqb]. destruct s' as [|[|s']]; [reflexivity| |lia]. apply (Hf g Lg).
      + destruct C as [-> C]. destruct o; auto. apply (undo_iter reflect_t reflected); auto. { intros f Hl. apply (Hf f Hl). } apply len_reflected.
  Qed.

  Lemma take_edge2 a b c i con : nth_error triangle_edges i = Some con -> take [a; b; c] con = Ok (edge_of [a; b; c] i).
  Proof. destruct i as [|[|[|i]]]; simpl; intros H; inversion H; try reflexivity. destruct i; discriminate. Qed.
  Lemma triangle_lemma cs c bc faces : c_dim c = 2 -> length (c_nodes c) = 3 -> NoDup (c_nodes c) ->
    (forall i, i < 3 -> exists e, stored_edge cs c i e /\ Permutation e (edge_of (c_nodes c) i)) ->
    exists phi, permute_and_transform M E F mul one act_e act_f rotate_t reflect_t reflect_e false cs c bc (triangle_rows E F Be (c_nodes c) faces) = Ok phi /\
      length (r_edges E F phi) = 3 /\ r_faces E F phi = faces /\
      (forall i e, i < 3 -> stored_edge cs c i e -> nth_error (r_edges E F phi) i = Some (Be e)).
  Proof.
    intros Hd Ln N St. unfold permute_and_transform. rewrite Hd. cbn [Nat.eqb].
    destruct (list3 _ Ln) as (n0 & n1 & n2 & En). rewrite En in *.
    set (v i := match sub_edge_nodes cs c i with Ok v => v | Err _ => [] end).
    assert (Ev : forall i, i < 3 -> sub_edge_nodes cs c i = Ok (v i) /\ Permutation (v i) (edge_of [n0; n1; n2] i)).
    { intros i Hi. destruct (St i Hi) as (e & He' & Pe). apply sub_edge in He'. unfold v. rewrite He'. auto. }
    unfold edge_orientation_2d. rewrite En.
    replace (mapM (take [n0; n1; n2]) triangle_edges) with (Ok (map (edge_of [n0; n1; n2]) [0; 1; 2])) by reflexivity. cbn [bind].
    rewrite (mapM_enumerate _ (map (edge_of [n0; n1; n2]) [0; 1; 2]) (fun i e => eqb e (v i))).
    2:{ intros i e Hi. cbn [fst snd].
        assert (i < 3) by (change 3 with (length (map (edge_of [n0; n1; n2]) [0; 1; 2])); apply nth_error_Some; congruence).
        destruct (Ev i H) as [-> _]. reflexivity. }
    cbn [bind]. eexists. split; [reflexivity|]. cbn [r_edges r_faces triangle_rows].
    split; [rewrite length_update; reflexivity|]. split; auto.
    intros i e Hi S. pose proof (sub_edge _ _ _ _ S) as S'. destruct (Ev i Hi) as [Sv Pv]. rewrite Sv in S'. inversion S' as [Hve]. rewrite Hve in *.
    assert (N2 : length (edge_of [n0; n1; n2] i) = 2 /\ NoDup (edge_of [n0; n1; n2] i)).
    { apply NoDup_cons_iff in N as [N1 N]. apply NoDup_cons_iff in N as [N2 N]. simpl in *.
      destruct i as [|[|[|i]]]; try lia; (split; [reflexivity|]); repeat constructor; simpl; tauto. }
    erewrite nth_error_update; [|erewrite map_nth_error; [reflexivity|]|apply nth_error_map_seq; auto].
    2:{ rewrite nth_error_enumerate. rewrite (map_nth_error _ i [0; 1; 2] (d := i)); [reflexivity|]. destruct i as [|[|[|i]]]; try reflexivity. lia. }
    cbn [fst snd]. rewrite Hve, edge_row; auto; [tauto|tauto|symmetry; auto].
  Qed.

  (** a common face of two tetrahedra *)
  Lemma shared_face_lemma cs c1 c2 bc1 bc2 i j : c_dim c1 = 3 -> length (c_nodes c1) = 4 -> NoDup (c_nodes c1) -> length bc1 = 4 ->
    c_dim c2 = 3 -> length (c_nodes c2) = 4 -> NoDup (c_nodes c2) -> length bc2 = 4 ->
    (forall k, k < 6 -> exists e, stored_edge cs c1 k e /\ Permutation e (tetra_edge_of (c_nodes c1) k)) ->
    (forall k, k < 6 -> exists e, stored_edge cs c2 k e /\ Permutation e (tetra_edge_of (c_nodes c2) k)) ->
    i < 4 -> j < 4 -> Permutation (face_of (c_nodes c1) i) (face_of (c_nodes c2) j) ->
    overridden bc1 i = false -> overridden bc2 j = false ->
    exists phi1 phi2 x,
      permute_and_transform M E F mul one act_e act_f rotate_t reflect_t reflect_e false cs c1 bc1 (tetra_rows E F Be Bf (c_nodes c1)) = Ok phi1 /\
      permute_and_transform M E F mul one act_e act_f rotate_t reflect_t reflect_e false cs c2 bc2 (tetra_rows E F Be Bf (c_nodes c2)) = Ok phi2 /\
      nth_error (r_faces E F phi1) i = Some x /\ nth_error (r_faces E F phi2) j = Some x.
  Proof.
    intros D1 L1 N1 B1 D2 L2 N2 B2 S1 S2 Hi Hj P O1 O2.
    destruct (tetra_lemma cs c1 bc1 D1 L1 N1 B1 S1) as (phi1 & E1 & _ & _ & _ & F1).
    destruct (tetra_lemma cs c2 bc2 D2 L2 N2 B2 S2) as (phi2 & E2 & _ & _ & _ & F2).
    destruct (face_orientation_lemma (c_nodes c1) bc1 L1 N1 B1) as (q1 & _ & _ & Q1).
    destruct (Q1 i Hi) as (g & o1 & r & s & t1 & I & Pg & _ & Hr & Hs & Mv & _).
    destruct (face_orientation_lemma (c_nodes c2) bc2 L2 N2 B2) as (q2 & _ & _ & Q2).
    destruct (Q2 j Hj) as (g' & o2 & r' & s' & t2 & I' & Pg' & _ & Hr' & Hs' & Mv' & _).
    assert (g' = g).
    { assert (Lg : length g = 3).
      { apply Permutation_length in Pg. rewrite Pg. destruct (list4 _ L1) as (n0 & n1 & n2 & n3 & En). rewrite En in *.
        destruct (face_of_distinct _ _ _ _ i N1 Hi) as (? & ? & ? & -> & _). reflexivity. }
      destruct (list3 g Lg) as (a & b & c & ->). apply increasing_unique3; auto. { inversion I; subst. inversion H3; subst. lia. }
      rewrite Pg', <- P. symmetry; auto. }
    subst g'. exists phi1, phi2, (Bf g). split; auto. split; auto.
    rewrite (F1 i g r s Hi I Pg Hr Hs Mv), (F2 j g r' s' Hj I' Pg' Hr' Hs' Mv'), O1, O2. auto.
  Qed.
End Rows.
Lemma bc_entities_lemma cs c : closed_mesh cs -> (exists i, cell_at cs i c) -> 1 <= c_dim c ->
  exists q, bc_entities cs c = Ok q /\ length q = length (nth (c_dim c - 1) (c_sub c) []) /\
    forall i f k, nth_error (nth (c_dim c - 1) (c_sub c) []) i = Some f -> cell_at cs f k -> nth_error q i = Some (match c_mat k with Some _ => true | None => false end).
Proof.
  intros [_ H] (j & Hj) D. destruct (H j c Hj) as (_ & _ & L & S). unfold bc_entities, get_at.
  rewrite (nth_error_nth' (c_sub c) []) by lia. cbn [bind]. set (l := nth (c_dim c - 1) (c_sub c) []).
  assert (S' : forall f, In f l -> exists k, cell_at cs f k). { intros f Hf. destruct (S (c_dim c - 1) f) as (k & Hk & _); [lia|exact Hf|eauto]. } clearbody l. clear -S'.
  induction l as [|f l IH]; [exists []; repeat split; auto; intros [|i] ? ? E; discriminate|]. destruct IH as (q & E & Lq & Q); [intros; apply S'; simpl; auto|].
  destruct (S' f) as (k & Hk); [simpl; auto|]. cbn [mapM]. unfold cell_of, get_at. unfold cell_at in Hk. rewrite Hk. cbn [bind]. unfold cell_of, get_at in E. rewrite E. cbn [bind].
  eexists. split; [reflexivity|]. split; [simpl; auto|]. intros [|i] f' k' Hf Hk'; cbn [nth_error] in Hf |- *; [injection Hf as <-; unfold cell_at in Hk'; rewrite Hk in Hk'; injection Hk' as <-; reflexivity|eauto].
Qed.
