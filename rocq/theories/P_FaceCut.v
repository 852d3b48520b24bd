(** * Property: faces intersected with each other (src/topology/shape_manipulation.py, intersect_faces) *)
From Coq Require Import List Arith ZArith Bool Reals Lia Sorted.
From Verif Require Import Base VecBase GeoExamples VertexModel VertexSpec ShapeSpec ShapeExamples VertexExamples EmbedModel EmbedSpec IntersectSpec FaceCutModel FaceCutSpec FaceCutProof FaceCutExamples FaceEdgeModel FaceEdgeProof FaceEdgeExamples.
Import ListNotations.

(** ** C108 *)
(** The pairs of faces that meet are found, in order and with their segments, if no segment comes
    twice.  [rest] is what is done with them then, lines 359-425; see C108_edges for 359-382. *)
Theorem C108_found_partial : forall (E A : Type) polygon_test (edge_eq : E -> E -> res bool) (rest : list segment -> list (nat * nat) -> res A) objects tools,
  tests_return polygon_test edge_eq objects tools ->
  (forall a s b t, face_cut polygon_test edge_eq objects tools a s -> face_cut polygon_test edge_eq objects tools b t -> earlier a b -> ~ near_pair t s) ->
  exists pairs cases, intersect_faces polygon_test edge_eq rest objects tools = rest pairs cases /\
    StronglySorted earlier cases /\ Forall2 (face_cut polygon_test edge_eq objects tools) cases pairs /\
    forall ij s, face_cut polygon_test edge_eq objects tools ij s -> In ij cases.
Proof. exact (fun E A p e r o t => @faces_found E A p e o t r). Qed.
Print Assumptions C108_found_partial.
Example C108_found_example : intersect_faces wall_test eq_nat keep [gable; shell; west; east] [gable; shell; west; east] =
  Ok ([(P 1 0 0, P 1 0 1); (P 2 0 0, P 2 0 1)], [(0, 2); (0, 3)]).
Proof. exact walls_example. Qed.

(** False when it does: the call raises, whatever follows. *)
Theorem C108_recurs_refuted : forall (E A : Type) polygon_test (edge_eq : E -> E -> res bool) (rest : list segment -> list (nat * nat) -> res A) objects tools a s b t,
  tests_return polygon_test edge_eq objects tools ->
  face_cut polygon_test edge_eq objects tools a s -> face_cut polygon_test edge_eq objects tools b t -> earlier a b -> near_pair t s ->
  intersect_faces polygon_test edge_eq rest objects tools = Err TypeError.
Proof. exact (fun E A p e r o t => @faces_recur E A p e o t r). Qed.
Print Assumptions C108_recurs_refuted.
Example C108_recurs_example : face_cut star_test eq_nat star star (0, 1) (P 0 0 0, P 0 0 1) /\ face_cut star_test eq_nat star star (0, 2) (P 0 0 0, P 0 0 1) /\
  intersect_faces star_test eq_nat keep star star = Err TypeError.
Proof. exact star_example. Qed.

(** Tools at the same or a lower position are not looked at. *)
Theorem C108_pairs_refuted : forall (E A : Type) polygon_test (edge_eq : E -> E -> res bool) (rest : list segment -> list (nat * nat) -> res A) objects tools,
  (forall i f j g, face_at objects i f -> face_at tools j g -> j <= i) -> intersect_faces polygon_test edge_eq rest objects tools = rest [] [].
Proof. exact (fun E A p e r o t => @faces_skipped E A p e o t r). Qed.
Print Assumptions C108_pairs_refuted.
Example C108_pairs_example : wall_test (f_outline gable) (f_outline west) = Ok (Some (P 1 0 0, P 1 0 1)) /\ intersect_faces wall_test eq_nat keep [gable] [west] = Ok ([], []).
Proof. split; reflexivity. Qed.

(** One edge with two new vertices is made for every segment found, in lexicographic order, and
    each case is given the edge of its segment. *)
Theorem C108_edges : forall argsort, is_argsort argsort -> forall h pairs e v p, exists unique new edges places,
  create_edges argsort h pairs e v p = Ok (h ++ new, edges, places) /\
  StronglySorted seg_lex unique /\ (forall s, In s unique <-> In s pairs) /\
  map fst new = consecutive v (2 * length unique) /\ length edges = length unique /\
  (forall k s, nth_error unique k = Some s ->
     nth_error edges k = Some (((e + Z.of_nat k)%Z, [length h + 2 * k; length h + 2 * k + 1]), (p + 1 + Z.of_nat k)%Z) /\
     pt (h ++ new) (length h + 2 * k) = fst s /\ pt (h ++ new) (length h + 2 * k + 1) = snd s) /\
  length places = length pairs /\
  forall c s, nth_error pairs c = Some s -> exists k, nth_error places c = Some k /\ nth_error unique k = Some s.
Proof. exact edges_lemma. Qed.
Print Assumptions C108_edges.
Example C108_edges_example : create_edges argsort_example [(5%Z, P 9 9 9)] [seam 2; seam 1; seam 2] 20 6 30 =
  Ok ([(5%Z, P 9 9 9); (6%Z, P 1 0 0); (7%Z, P 1 0 1); (8%Z, P 2 0 0); (9%Z, P 2 0 1)], [((20%Z, [1; 2]), 31%Z); ((21%Z, [3; 4]), 32%Z)], [1; 0; 1]).
Proof. exact seams_example. Qed.

(** The axis along which the edges of a face are then intersected is across the face if this is
    across an axis and its diagonal along none; *)
Theorem C108_axis_partial : forall pts p0 p2 k, nth_error pts 0 = Some p0 -> nth_error pts 2 = Some p2 -> k < 3 -> coord k p0 = coord k p2 ->
  (forall m, m < 3 -> m <> k -> coord m p0 <> coord m p2) -> face_axis pts = Ok k.
Proof. exact axis_lemma. Qed.
Print Assumptions C108_axis_partial.
Example C108_axis_example : face_axis [P 0 0 0; P 0 2 0; P 0 2 1; P 0 0 1] = Ok 0.
Proof. exact slab_axis. Qed.
(** otherwise it can be along the face, all of which is then projected to a line. *)
Theorem C108_axis_refuted : ~ (forall pts k c axis, k < 3 -> (forall p, In p pts -> coord k p = c) ->
  (exists p q r, In p pts /\ In q pts /\ In r pts /\ area2 k (vsub q p) (vsub r p) <> 0%R) ->
  face_axis pts = Ok axis -> exists p q r, In p pts /\ In q pts /\ In r pts /\ area2 axis (vsub q p) (vsub r p) <> 0%R).
Proof. exact axis_refuted. Qed.
Print Assumptions C108_axis_refuted.
Example C108_axis_refuted_example : face_axis diamond = Ok 1 /\ forall p, In p diamond -> vz p = 0%R.
Proof. exact (conj diamond_axis diamond_flat). Qed.
