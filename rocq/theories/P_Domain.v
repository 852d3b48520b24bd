(** * C84: operations with domains *)
From Coq Require Import List Arith ZArith Bool Reals Permutation Sorted.
From Verif Require Import Base VecBase GeoModel VertexModel ShapeSpec VertexSpec DomainModel DomainSpec DomainProof DomainProof3 DomainProof4 GeoExamples ShapeExamples VertexExamples DomainExamples.
Import ListNotations.

(** ** Intersection *)
(** With one edge: the domain holds exactly the vertices found on it.  None is found: ValueError. *)
Theorem C84_intersection_one_edge : forall hash ctol ptol ltol tag_min h tools e tag eps h' intx used,
  vertices_edge_intersection ctol ptol ltol tag_min h tools e tag eps = Ok (h', intx, used) ->
  (intx = [] -> domain_intersection hash ctol ptol ltol tag_min h tools [e] tag eps = Err ValueError) /\
  (intx <> [] -> no_collision hash 0 (tags_from tag (length intx)) ->
     exists vs, domain_intersection hash ctol ptol ltol tag_min h tools [e] tag eps = Ok (h', Some vs) /\ NoDup vs /\ forall x, In x vs <-> In x intx).
Proof. exact intersection_one. Qed.
Print Assumptions C84_intersection_one_edge.

Example C84_crossing_one : domain_intersection hash_id g g g (-2147483648) crossing [4] [(0, 1)] 100 g = Ok (crossing ++ [(100%Z, P 2 0 0)], Some [5]).
Proof. exact crossing_domain_one. Qed.

(** A result needs a vertex found on every edge; it is None exactly when there is no edge. *)
Theorem C84_intersection_every_edge : forall hash ctol ptol ltol tag_min h tools edges tag eps hf vs,
  domain_intersection hash ctol ptol ltol tag_min h tools edges tag eps = Ok (hf, vs) ->
  exists out, vertices_edges_intersection ctol ptol ltol tag_min h tools edges tag eps = Ok (hf, out) /\
    length out = length edges /\ (forall r, In r out -> fst r <> []) /\ (vs = None <-> edges = []).
Proof. exact intersection_hits. Qed.
Print Assumptions C84_intersection_every_edge.

(** With two edges or more some vertex that was found is missing from the domain. *)
Theorem C84_intersection_refuted : forall hash ctol ptol ltol tag_min h tools edges tag eps hf vs,
  (forall e v, In e edges -> In v tools -> apart h v e /\ v < length h /\ fst e < length h /\ snd e < length h) -> 2 <= length edges ->
  domain_intersection hash ctol ptol ltol tag_min h tools edges tag eps = Ok (hf, vs) ->
  exists out found, vertices_edges_intersection ctol ptol ltol tag_min h tools edges tag eps = Ok (hf, out) /\ vs = Some found /\
    exists r x, In r out /\ In x (fst r) /\ ~ In x found.
Proof. exact intersection_lost. Qed.
Print Assumptions C84_intersection_refuted.

Example C84_crossing_two : (forall e v, In e [(0, 1); (2, 3)] -> In v [4] -> apart crossing v e /\ v < length crossing /\ fst e < length crossing /\ snd e < length crossing) /\
  domain_intersection hash_id g g g (-2147483648) crossing [4] [(0, 1); (2, 3)] 100 g = Ok (crossing ++ [(100%Z, P 2 0 0); (100%Z, P 2 0 0)], Some [6]).
Proof. exact (conj crossing_apart crossing_domain_two). Qed.

(** ** Union *)
(** Each edge keeps its tags; every end that is at a vertex of the second domain is replaced by
    this vertex.  The vertices of the union are the ends of its edges. *)
Theorem C84_union : forall hash tol argsort, is_argsort argsort -> forall c0 c1, joinable tol c0 c1 ->
  no_collision hash 0 (map v_tag (d_vertices c0 ++ d_vertices c1)) -> no_collision hash 1 (map e_tag (d_edges c0)) ->
  one_edge tol c0 c1 -> no_collapse tol c0 c1 ->
  exists D, domain_union hash tol argsort c0 c1 = Ok D /\
    Forall2 (fun e e' => exists a b a' b', e_ends e = [a; b] /\ stands_for tol c0 c1 a a' /\ stands_for tol c0 c1 b b' /\ joins e' e a' b') (d_edges c0) (d_edges D) /\
    spanned D.
Proof. exact union_ok. Qed.
Print Assumptions C84_union.

Example C84_stick : (joinable g stick pins /\ one_edge g stick pins /\ no_collapse g stick pins /\ gives_way g stick pins s1 pin) /\
  domain_union hash_id g argsort_example stick pins = Ok (mk_domain [s0; pin] [mk_edge 5 None [s0; pin]]).
Proof. exact (conj stick_meets stick_union). Qed.

(** Without [one_edge] it is false: two edges meet at a vertex, a vertex of the second domain
    is there, and one edge of the union loses an end. *)
Theorem C84_union_refuted : exists c0 c1 D e, joinable g c0 c1 /\ no_collapse g c0 c1 /\
  domain_union hash_id g argsort_example c0 c1 = Ok D /\ In e (d_edges D) /\ length (e_ends e) < 2.
Proof. exact bend_refutes. Qed.
Print Assumptions C84_union_refuted.
(** This is so for every such vertex. *)
Theorem C84_shared_vertex_is_lost : forall hash tol argsort, is_argsort argsort -> forall c0 c1, joinable tol c0 c1 ->
  no_collision hash 0 (map v_tag (d_vertices c0 ++ d_vertices c1)) -> no_collision hash 1 (map e_tag (d_edges c0)) ->
  forall v t e1 e2 D, gives_way tol c0 c1 v t -> In e1 (d_edges c0) -> In e2 (d_edges c0) -> e1 <> e2 ->
  In v (e_ends e1) -> In v (e_ends e2) -> domain_union hash tol argsort c0 c1 = Ok D ->
  exists e', In e' (d_edges D) /\ length (e_ends e') < 2.
Proof. exact union_shared. Qed.
Print Assumptions C84_shared_vertex_is_lost.

Example C84_bend : exists D, domain_union hash_id g argsort_example bend pins = Ok D /\
  map (fun e => (e_tag e, map v_tag (e_ends e))) (d_edges D) = [(5%Z, [0%Z; 10%Z]); (6%Z, [2%Z])].
Proof. exact bend_union. Qed.

(** ** Difference, then union *)
(** Cutting edges by tools and joining the tools again refines each edge: in place of an edge
    that is touched there is one edge for each step from end to end over the tools, in the order
    of their distance; tools and ends are shared, not copied.  Only edges that no tool touches keep
    their tags. *)
Theorem C84_difference_then_union : forall tol eps unique_idx argsort_R argsort, is_argsort argsort -> is_argsort_R argsort_R -> (0 <= tol)%R ->
  forall E T tag, clean_cut tol eps E T tag -> Permutation (unique_idx (map v_point T)) (seq 0 (length T)) ->
  forall hash V1 E1, (forall e1, In e1 E1 -> (e_tag e1 < tag)%Z /\ forall e, In e E -> e_tag e1 <> e_tag e) ->
  no_collision hash 0 (map v_tag (flat_map e_ends E ++ T) ++ tags_from tag (length E * (3 * length T + 1))) ->
  no_collision hash 1 (map e_tag E ++ tags_from tag (length E * (3 * length T + 1))) ->
  let c0 := mk_domain V1 E in let c1 := mk_domain T E1 in
  exists D R, domain_difference tol tol unique_idx argsort_R argsort c0 c1 tag eps = Ok D /\ domain_union hash tol argsort D c1 = Ok R /\
    (exists ess, d_edges R = concat ess /\ Forall2 (refines tol eps T) E ess) /\ spanned R /\ NoDup (map e_tag (d_edges R)) /\
    (forall e', In e' (d_edges R) -> (tag <= e_tag e')%Z \/ exists e a b, In e E /\ e_ends e = [a; b] /\ (forall t, In t T -> ~ touches tol eps a b t) /\ joins e' e a b).
Proof. exact composite_ok. Qed.
Print Assumptions C84_difference_then_union.

Example C84_road_meets : clean_cut g g road posts 100.
Proof. exact road_clean. Qed.
Example C84_road : exists D R,
  domain_difference g g all_idx argsort_R_example argsort_example (mk_domain [pa; pb; pc] road) (mk_domain posts []) 100 g = Ok D /\
  domain_union hash_id g argsort_example D (mk_domain posts []) = Ok R /\ spanned R /\
  map (fun e => (e_phys e, map v_tag (e_ends e))) (d_edges R) = [(Some 7, [1; 10]); (Some 7, [10; 11]); (Some 7, [11; 12]); (None, [4; 12])]%Z.
Proof. exact road_cut. Qed.
