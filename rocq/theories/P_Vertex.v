(** * C42, C43: operations with vertices and edges *)
From Coq Require Import List Arith ZArith Bool Reals Permutation Sorted.
From Verif Require Import Base VecBase GeoModel GeoSpec VertexModel ShapeSpec VertexSpec VertexProof DiffProof WhereProof GeoExamples ShapeExamples VertexExamples.
Import ListNotations.

(** ** C42: difference of an edge by points *)
(** The tools touching the edge are taken in the order of their distance to its first end.
    The result is a chain through all of them which starts and ends at the ends of the edge,
    or at the tools which are there up to the default tolerances of np.isclose.  Missing from
    the claim: a tool close to both ends raises IndexError, and inner points must not be at
    an end up to the tolerance [ptol]. *)
Theorem C42_difference_is_a_chain_partial : forall ctol ptol unique_idx argsort_R argsort tools ts e va vb tag eps,
  is_argsort argsort -> is_argsort_R argsort_R -> (0 <= ptol)%R -> e_ends e = [va; vb] ->
  mapM (get_at tools) (unique_idx (map v_point tools)) = Ok ts ->
  let run := vertices_edge_difference ctol ptol unique_idx argsort_R argsort tools e tag eps in
  let found := touching ctol eps (v_point va) (v_point vb) ts in
  (found = [] -> run = Ok ([], [])) /\
  (found <> [] -> exists sorted, Permutation sorted found /\ by_distance (v_point va) (map fst sorted) /\
    ((exists p v, sorted = [(p, v)] /\ allclose_default p (v_point va) = true /\ allclose_default p (v_point vb) = true /\ run = Err IndexError) \/
     exists start finish pts, splits va vb sorted start finish pts /\
       (clear ptol va vb pts -> exists es vs, run = Ok (es, vs) /\ chain (e_phys e) tag start finish pts es vs))).
Proof. intros ctol ptol ui sr s tools ts e va vb tag eps H1 H2. exact (difference_lemma ctol ptol ui sr s H1 H2 tools ts e va vb tag eps). Qed.
Print Assumptions C42_difference_is_a_chain_partial.

Example C42_two_points : exists es vs,
  vertices_edge_difference g g all_idx argsort_R_example argsort_example [t2; t1] base 100 g = Ok (es, vs) /\
  chain (Some 7%Z) 100 va vb [P 1 0 0; P 2 0 0] es vs.
Proof. exact cut_example. Qed.

(** The edge from 100 to 100.0005 cannot be cut in its middle. *)
Theorem C42_difference_is_a_chain_refuted : exists e a b v,
  e_ends e = [a; b] /\ on_segment (v_point a) (v_point b) (v_point v) /\
  vertices_edge_difference g g all_idx argsort_R_example argsort_example [v] e 100 g = Err IndexError.
Proof. exact short_refutes. Qed.
Print Assumptions C42_difference_is_a_chain_refuted.

(** An inner point belongs to two vertices with different tags: the chain is not connected
    by shared vertices. *)
Theorem C42_inner_vertices_are_doubled : forall phys tag start finish pts es vs, chain phys tag start finish pts es vs ->
  forall k, k < length pts -> exists v w, nth_error vs (2 * k + 1) = Some v /\ nth_error vs (2 * k + 2) = Some w /\
    v_point v = v_point w /\ v_tag v <> v_tag w.
Proof. exact doubled_lemma. Qed.
Print Assumptions C42_inner_vertices_are_doubled.

(** For several edges, all new edges have increasing tags from [tag] on. *)
Theorem C42_several_edges : forall ctol ptol unique_idx argsort_R argsort tools edges tag eps out,
  vertices_edges_difference ctol ptol unique_idx argsort_R argsort tools edges tag eps = Ok out ->
  map (fun r => fst (fst r)) out = edges /\
  StronglySorted Z.lt (map e_tag (flat_map (fun r => snd (fst r)) out)) /\
  Forall (fun e => (tag <= e_tag e)%Z) (flat_map (fun r => snd (fst r)) out).
Proof. exact several_lemma. Qed.
Print Assumptions C42_several_edges.

Example C42_two_edges : exists out, vertices_edges_difference g g all_idx argsort_R_example argsort_example [t2; t1] [base; base] 100 g = Ok out /\
  length (flat_map (fun r => snd (fst r)) out) = 6.
Proof. exact two_edges_example. Qed.

(** ** C43: intersections with several edges *)
(** With one edge the tags are different. *)
Theorem C43_one_edge_partial : forall ctol ptol ltol tag_min h tools e tag eps h' intx used,
  vertices_edge_intersection ctol ptol ltol tag_min h tools e tag eps = Ok (h', intx, used) ->
  length intx = length used /\
  (forall x, In x intx -> exists t, vtag h' x = Ok t /\ (tag <= t < tag + Z.of_nat (length intx))%Z) /\
  (forall x y, In x intx -> In y intx -> x <> y -> vtag h' x <> vtag h' y).
Proof. exact single_lemma. Qed.
Print Assumptions C43_one_edge_partial.

(** With several edges, as long as the tools do not have the tags of the ends of the edges,
    two vertices created for consecutive edges always have the same tag. *)
Theorem C43_several_edges_refuted : forall ctol ptol ltol tag_min h tools edges tag eps hf out,
  (forall e v, In e edges -> In v tools -> apart h v e /\ v < length h /\ fst e < length h /\ snd e < length h) ->
  vertices_edges_intersection ctol ptol ltol tag_min h tools edges tag eps = Ok (hf, out) ->
  length out = length edges /\
  forall k, S k < length edges -> exists i1 u1 i2 u2 x y t, nth_error out k = Some (i1, u1) /\ nth_error out (S k) = Some (i2, u2) /\
    In x i1 /\ In y i2 /\ x <> y /\ vtag hf x = Ok t /\ vtag hf y = Ok t.
Proof. exact collision_always. Qed.
Print Assumptions C43_several_edges_refuted.

Example C43_crossing_edges : vertices_edges_intersection g g g (-2147483648) crossing [4] [(0, 1); (2, 3)] 100 g =
  Ok (crossing ++ [(100%Z, P 2 0 0); (100%Z, P 2 0 0)], [([5], [4]); ([6], [4])]).
Proof. exact crossing_example. Qed.

(** ** C69: where vertices touch an edge *)
(** [used] are the tools which touch the edge, in order; the others are neither near an end
    nor on the segment.  A tool which is an end of the edge gives this end, any other one a
    new vertex at the point where it touches the edge.  No vertex is moved, and only returned
    vertices are renumbered. *)
Theorem C69_where : forall ctol ptol ltol, (0 <= ltol)%R -> forall tag_min h tools e tag eps h' intx used,
  vertices_edge_intersection ctol ptol ltol tag_min h tools e tag eps = Ok (h', intx, used) ->
  (exists f, used = filter f tools /\ forall v, In v tools -> f v = false -> exists p a b,
     vpoint h v = Ok p /\ vpoint h (fst e) = Ok a /\ vpoint h (snd e) = Ok b /\ misses eps p a b /\ ~ is_end ptol h v (fst e) /\ ~ is_end ptol h v (snd e)) /\
  Forall2 (fun v x =>
     ((x = fst e \/ x = snd e) /\ is_end ptol h v x) \/
     (length h <= x /\ ~ is_end ptol h v (fst e) /\ ~ is_end ptol h v (snd e) /\ exists p a b q,
        vpoint h v = Ok p /\ vpoint h (fst e) = Ok a /\ vpoint h (snd e) = Ok b /\ vpoint h' x = Ok q /\ touches_at ctol ltol eps p a b q)) used intx /\
  (forall y, y < length h -> vpoint h' y = vpoint h y /\ (~ In y intx -> vtag h' y = vtag h y)).
Proof. exact where_lemma. Qed.
Print Assumptions C69_where.

Example C69_crossing : vertices_edge_intersection g g g (-2147483648) crossing [4] (0, 1) 100 g =
  Ok (crossing ++ [(100%Z, P 2 0 0)], [5], [4]).
Proof. exact crossing_one. Qed.
