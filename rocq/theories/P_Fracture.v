(** * Property theorems C54, C59, C63: fracture networks *)
From Coq Require Import List Arith ZArith Bool QArith Qabs Reals Permutation Lia.
From Verif Require Import Base FracModel FracSpec SegModel FracProof FracProof2 SegProof NetProof FracExamples.
Import ListNotations.

(** ** C54 *)
(** Different pairs get different numbers, and every number is used. *)
Theorem C54_pair_injective : forall x y x' y' : Z, (0 <= x -> 0 <= y -> 0 <= x' -> 0 <= y' ->
  pair_integers x y = pair_integers x' y' -> x = x' /\ y = y')%Z.
Proof. exact pair_injective. Qed.
Print Assumptions C54_pair_injective.
Theorem C54_pair_onto : forall z : Z, (0 <= z -> exists x y, 0 <= x /\ 0 <= y /\ pair_integers x y = z)%Z.
Proof. exact pair_surjective. Qed.
Print Assumptions C54_pair_onto.
Example C54_pair_example : map (fun p => pair_integers (fst p) (snd p)) [(2, 3); (3, 2); (3, 3); (0, 4)]%Z = [11; 14; 15; 16]%Z.
Proof. reflexivity. Qed.
(** unpair_intergers recovers the pair exactly when its first entry is 0. *)
Theorem C54_unpair_only_first_zero : forall x y : Z, (0 <= x)%Z -> (0 <= y)%Z ->
  (unpair_integers (IZR (pair_integers x y)) = (IZR x, IZR y) <-> x = 0%Z).
Proof. exact unpair_lemma. Qed.
Print Assumptions C54_unpair_only_first_zero.
Example C54_unpair_example : unpair_integers (IZR (pair_integers 0 7)) = (0, 7)%R /\
  unpair_integers (IZR (pair_integers 2 3)) <> (2, 3)%R.
Proof.
  split; [apply (C54_unpair_only_first_zero 0 7); lia|].
  intros H. apply (C54_unpair_only_first_zero 2 3) in H; [discriminate|lia|lia].
Qed.

(** ** C59 *)
(** For every list of segments, every intersection test, every comparison of points that
    calls a point near itself and every sorting by distance: the run succeeds, ids are
    positions, every intersection has its vertex, each fracture is split into a chain with the tag of the fracture whose members
    are its two end vertices and the vertices of its intersections, ordered by the distance
    from the first end; the chain starts at the first end if the other vertices are farther
    from the first end, and ends at the second end if the other vertices are nearer. *)
Theorem C59_fracture_chain : forall (P : Type) (isect : P -> P -> P -> P -> option P) (near : P -> P -> bool)
  (argsort : list P -> P -> list nat) (segs : list (P * P)) (shift : Z) (T : Type) (dist : P -> P -> T) (lt : T -> T -> Prop),
  segs <> [] -> (forall x, near x x = true) ->
  (forall xs o, Permutation (argsort xs o) (seq 0 (length xs))) ->
  (forall xs o i j u v x y, (i < j)%nat -> nth_error (argsort xs o) i = Some u -> nth_error (argsort xs o) j = Some v ->
     nth_error xs u = Some x -> nth_error xs v = Some y -> ~ lt (dist o y) (dist o x)) ->
  exists n, intersect_1D_fractures P isect near argsort (map (fun s => [fst s; snd s]) segs) shift = Ok n /\
  (forall i c, nth_error (n_cells P n) i = Some c -> gc_id c = i) /\
    (forall k l x, meets P isect segs k l x -> exists v, represents P near n v x) /\
  forall k a b, nth_error segs k = Some (a, b) -> exists imm chain, fracture_split P isect near segs shift n k imm chain /\
    (forall v w x y, before chain v w -> on_fracture P isect near segs n k v -> on_fracture P isect near segs n k w ->
       located P n v x -> located P n w y -> ~ lt (dist a y) (dist a x)) /\
    ((forall v x, on_fracture P isect near segs n k v -> v <> (3 * k)%nat -> located P n v x -> lt (dist a a) (dist a x)) ->
       exists l, chain = (3 * k)%nat :: l) /\
    ((forall v x, on_fracture P isect near segs n k v -> v <> (3 * k + 1)%nat -> located P n v x -> lt (dist a x) (dist a b)) ->
       exists l, chain = l ++ [(3 * k + 1)%nat]).
Proof. exact C59_order_lemma. Qed.
Print Assumptions C59_fracture_chain.
(** the hypotheses hold for the distances of the code on rational points *)
Example C59_instance : (forall x, near_q eps_12 x x = true) /\
  (forall xs o, Permutation (argsort_q xs o) (seq 0 (length xs))) /\
  (forall xs o i j u v x y, (i < j)%nat -> nth_error (argsort_q xs o) i = Some u -> nth_error (argsort_q xs o) j = Some v ->
     nth_error xs u = Some x -> nth_error xs v = Some y -> ~ (sqnorm (psub y o) < sqnorm (psub x o))%Q).
Proof.
  split; [intros; apply near_q_refl; reflexivity|]. split; [exact argsort_q_perm|exact argsort_q_sorted].
Qed.
Example C59_example : exists n, intersect_fractures_q (as_fractures three_fractures) 10 = Ok n /\
  edges_of n = [(2, [0; 1], [11; 12; 13]); (5, [3; 4], [14; 15]); (8, [6; 7], [16; 17]);
                (11, [0; 10], []); (12, [10; 9], []); (13, [9; 1], []); (14, [3; 9], []); (15, [9; 4], []); (16, [6; 10], []); (17, [10; 7], [])]%nat.
Proof. eexists. split; vm_compute; reflexivity. Qed.

(** Two disjoint fractures on one line: the first is split at a point outside of it, and its
    chain 0, 3, 1 is not ordered by distance. *)
Theorem C59_aligned_fractures_refuted : exists n, intersect_fractures_q (as_fractures aligned_fractures) 0 = Ok n /\
  exists c d e, nth_error (n_cells point n) 2 = Some c /\ gc_imm c = [6; 7]%nat /\
    nth_error (n_cells point n) 6 = Some d /\ gc_bc d = [0; 3]%nat /\
    nth_error (n_cells point n) 7 = Some e /\ gc_bc e = [3; 1]%nat /\
    located point n 0 (mk_point 0 0 0) /\ located point n 3 (mk_point 2 0 0) /\ located point n 1 (mk_point 1 0 0).
Proof. exact aligned_refuted_lemma. Qed.
Print Assumptions C59_aligned_fractures_refuted.

(** ** C67 *)
(** Every cell of the result is a vertex, a fracture or a piece, as described in
    [network_cells]: new vertices get the number of the pair of the two tags. *)
Theorem C67_cells : forall (P : Type) (isect : P -> P -> P -> P -> option P) (near : P -> P -> bool)
  (argsort : list P -> P -> list nat) (segs : list (P * P)) (shift : Z),
  segs <> [] -> (forall x, near x x = true) -> (forall xs o, Permutation (argsort xs o) (seq 0 (length xs))) ->
  exists n, intersect_1D_fractures P isect near argsort (map (fun s => [fst s; snd s]) segs) shift = Ok n /\ network_cells P isect near segs shift n.
Proof. exact cells_lemma. Qed.
Print Assumptions C67_cells.
(** The graph: from a line to its end vertices and its pieces; with a recursion limit of at
    least 2 it is built without error. *)
Theorem C67_graph : forall (P : Type) (isect : P -> P -> P -> P -> option P) (near : P -> P -> bool)
  (argsort : list P -> P -> list nat) (segs : list (P * P)) (shift : Z) (fuel : nat) (all_q : bool),
  segs <> [] -> (forall x, near x x = true) -> (forall xs o, Permutation (argsort xs o) (seq 0 (length xs))) -> (2 <= fuel)%nat ->
  exists n g, intersect_1D_fractures P isect near argsort (map (fun s => [fst s; snd s]) segs) shift = Ok n /\
    build_network_graph fuel (n_cells P n) all_q = Ok g /\ NoDup (g_edges g) /\
    forall u v, In (u, v) (g_edges g) <-> network_arrow (n_cells P n) all_q u v.
Proof. exact net_graph_lemma. Qed.
Print Assumptions C67_graph.
Example C67_example : exists n g h, intersect_fractures_q (as_fractures three_fractures) 10 = Ok n /\
  build_network_graph 2 (n_cells point n) true = Ok g /\ build_network_graph 2 (n_cells point n) false = Ok h /\
  map (fun c => (gc_id c, gc_tag c)) (filter (fun c => gc_dim c =? 0)%nat (n_cells point n)) =
    [(0%nat, 10); (1%nat, 10); (3%nat, 11); (4%nat, 11); (6%nat, 12); (7%nat, 12); (9%nat, 131); (10%nat, 154)]%Z /\
  length (g_edges g) = 27%nat /\
  g_edges h = [(11, 0); (11, 10); (12, 10); (12, 9); (13, 9); (13, 1); (14, 3); (14, 9); (15, 9); (15, 4); (16, 6); (16, 10); (17, 10); (17, 7)]%nat.
Proof. do 3 eexists. repeat (split; [vm_compute; reflexivity|]). vm_compute. reflexivity. Qed.

(** ** C63 *)
Local Open Scope Q_scope.
(** Segments that are not nearly parallel in the projection: a point is returned iff the
    projected segments meet, and then it is the common point. *)
Theorem C63_segment_test : forall (eps : Q) (i j : nat) (a b p q : point),
  0 < eps -> eps <= Qabs (det2 i j (psub a b) (psub p q)) ->
  (forall x y, line_line_intersection eps i j a b p q = Some (x, y) -> y = None /\ exists t u,
     0 <= t <= 1 /\ 0 <= u <= 1 /\ x = along a b t /\ coord x i == coord (along p q u) i /\ coord x j == coord (along p q u) j) /\
  (forall t u, 0 <= t <= 1 -> 0 <= u <= 1 -> coord (along a b t) i == coord (along p q u) i ->
     coord (along a b t) j == coord (along p q u) j ->
     exists x, line_line_intersection eps i j a b p q = Some (x, None) /\
       coord x i == coord (along a b t) i /\ coord x j == coord (along a b t) j).
Proof. exact line_line_lemma. Qed.
Print Assumptions C63_segment_test.
Example C63_example : eps_12 <= Qabs (det2 0 1 (psub (mk_point 0 0 0) (mk_point 2 2 0)) (psub (mk_point 0 2 0) (mk_point 2 0 0))) /\
  exists x, line_line_intersection eps_12 0 1 (mk_point 0 0 0) (mk_point 2 2 0) (mk_point 0 2 0) (mk_point 2 0 0) = Some (x, None) /\
    px x == 1 /\ py x == 1 /\
  line_line_intersection eps_12 0 1 (mk_point 0 0 0) (mk_point 2 2 0) (mk_point 0 2 0) (mk_point (3 # 4) (5 # 4) 0) = None.
Proof. split; [discriminate|]. eexists. split; [vm_compute; reflexivity|]. split; [reflexivity|]. split; reflexivity. Qed.

(** Disjoint segments on one line are said to intersect, at a point of only one of them. *)
Theorem C63_aligned_segments_refuted : exists a b p q x y, line_line_intersection eps_12 0 1 a b p q = Some (x, y) /\
  ~ on_segment a b x /\ (forall z, ~ (on_segment a b z /\ on_segment p q z)).
Proof. exact colinear_refuted_lemma. Qed.
Print Assumptions C63_aligned_segments_refuted.
(** This happens for all parallel segments with an end point of the second near the line of
    the first. *)
Theorem C63_aligned_segments : forall (eps : Q) (i j : nat) (a b p q : point),
  Qabs (det2 i j (psub a b) (psub p q)) < eps ->
  colinear_measurement i j a b p < eps \/ colinear_measurement i j a b q < eps ->
  line_line_intersection eps i j a b p q <> None.
Proof. exact colinear_lemma. Qed.
Print Assumptions C63_aligned_segments.
Example C63_aligned_example : Qabs (det2 0 1 (psub (mk_point 0 0 0) (mk_point 1 1 0)) (psub (mk_point 2 2 0) (mk_point 3 3 0))) < eps_12 /\
  colinear_measurement 0 1 (mk_point 0 0 0) (mk_point 1 1 0) (mk_point 2 2 0) < eps_12.
Proof. split; reflexivity. Qed.

(** Parallel segments running in the same direction of the coordinate [k] in which the first
    is longer, and overlapping there: the answer is the overlap. *)
Theorem C63_aligned_overlap : forall (eps : Q) (i j k : nat) (a b p q : point),
  Qabs (det2 i j (psub a b) (psub p q)) < eps ->
  colinear_measurement i j a b p < eps \/ colinear_measurement i j a b q < eps ->
  (k = i /\ Qabs (coord a j - coord b j) < Qabs (coord a i - coord b i)) \/ (k = j /\ Qabs (coord a i - coord b i) <= Qabs (coord a j - coord b j)) ->
  coord a k <= coord b k -> coord p k <= coord q k -> coord p k <= coord b k -> coord a k <= coord q k ->
  exists x y, line_line_intersection eps i j a b p q = Some (x, Some y) /\ (x = a \/ x = p) /\ (y = b \/ y = q) /\
    coord a k <= coord x k /\ coord p k <= coord x k /\ coord y k <= coord b k /\ coord y k <= coord q k.
Proof. exact overlap_lemma. Qed.
Print Assumptions C63_aligned_overlap.
Example C63_overlap_example : line_line_intersection eps_12 0 1 (mk_point 0 0 0) (mk_point 2 1 0) (mk_point 1 (1 # 2) 0) (mk_point 4 2 0) =
  Some (mk_point 1 (1 # 2) 0, Some (mk_point 2 1 0)).
Proof. reflexivity. Qed.
