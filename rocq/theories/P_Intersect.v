(** * C102: edges intersected with each other *)
From Coq Require Import List Arith ZArith Bool Reals Permutation Sorted.
From Verif Require Import Base VecBase GeoSpec GeoExamples VertexModel ShapeSpec ShapeExamples VertexSpec VertexExamples EmbedModel EmbedSpec IntersectModel IntersectSpec IntersectProof IntersectProof4 IntersectProof5 IntersectExamples.
Import ListNotations.
Local Open Scope R_scope.

(** The test of two segments in a plane: a point is found exactly when they have one in common,
    and it is that one. *)
Theorem C102_test : forall (eps : R) (axis : nat) (a b p q : vec), 0 < eps ->
  coord axis a = coord axis b -> coord axis a = coord axis p -> coord axis a = coord axis q ->
  (let u := vsub b a in eps <= Rabs (area2 axis u (vsub q p)) \/ (area2 axis u (vsub q p) = 0 /\ 2 * eps <= Rabs (area2 axis u (vsub p a)))) ->
  match segment_test eps (fst (axis_pos axis)) (snd (axis_pos axis)) a b p q with
  | Some x => on_segment a b x /\ on_segment p q x /\ a <> b /\ p <> q /\ forall y, on_segment a b y -> on_segment p q y -> y = x
  | None => forall y, on_segment a b y -> on_segment p q y -> False
  end.
Proof. exact test_lemma. Qed.
Print Assumptions C102_test.
Example C102_test_example : on_segment (pt comb 0) (pt comb 1) (P 1 0 0) /\ on_segment (pt comb 2) (pt comb 3) (P 1 0 0).
Proof. exact comb_shared. Qed.

(** Edges of a clear network: the new vertices are exactly at the points where edges cross
    other than in a common end, in increasing order, with consecutive tags and physical tags;
    no old vertex changes.  Every edge is cut at its crossings; the new edges of all have
    consecutive tags. *)
Theorem C102_intersect : forall (argsort_R : list R -> list nat) (argsort : list Z -> list nat), is_argsort_R argsort_R -> is_argsort argsort ->
  forall (h : heap) (edges : list (option host)) (eps : R) (axis : nat), clear_network h edges eps axis -> forall e_shift v_shift p_shift : Z,
  exists (new : heap) (hosts : list (option host)) (es : list (Z * list nat)),
    intersect_edges argsort_R argsort eps h edges edges axis e_shift v_shift p_shift =
      Ok (h ++ new, hosts, (es, combine (seq (length h) (length new)) (consecutive (p_shift + 1) (length new)))) /\
    map fst new = consecutive v_shift (length new) /\
    StronglySorted lex (map snd new) /\ (forall x, In x (map snd new) <-> exists i, cut_point h edges i x) /\
    es = concat (map immersed_in hosts) /\ map fst es = consecutive e_shift (length es) /\
    length hosts = length edges /\ (forall i, nth_error edges i = Some None -> nth_error hosts i = Some None) /\
    forall i a b, edge_at edges i a b -> exists a' b' es_i, nth_error hosts i = Some (Some (mk_host [a'; b'] es_i)) /\
      cut (h ++ new) (length h) (cut_point h edges i) a b a' b' es_i.
Proof. exact intersect_lemma. Qed.
Print Assumptions C102_intersect.
Example C102_intersect_hypotheses : clear_network comb comb_edges tiny 2.
Proof. exact comb_clear. Qed.
Example C102_intersect_example : exists hosts es, intersect_edges argsort_R_example argsort_example tiny comb comb_edges comb_edges 2 20 6 30 =
  Ok (comb ++ [(6%Z, P 1 0 0); (7%Z, P 4 0 0)], hosts, (es, [(6%nat, 31%Z); (7%nat, 32%Z)])).
Proof. exact comb_example. Qed.

(** With two arrays, crossings of an edge with a tool of the same or a lower position are not
    found. *)
Theorem C102_pairs_refuted : ~ (forall argsort_R argsort eps h objects tools axis s t r h' hosts es vs, is_argsort_R argsort_R -> is_argsort argsort -> clear_network h (objects ++ tools) eps axis ->
  intersect_edges argsort_R argsort eps h objects tools axis s t r = Ok (h', hosts, (es, vs)) ->
  forall i j x, (i < length objects)%nat -> (j < length tools)%nat -> crossing h (objects ++ tools) i (length objects + j) x -> exists v, In v (map fst vs) /\ pt h' v = x).
Proof. exact pairs_refuted. Qed.
Print Assumptions C102_pairs_refuted.
Example C102_pairs_example : intersect_edges argsort_R_example argsort_example tiny comb [plain 0 1] [plain 2 3] 2 20 6 30 = Ok (comb, [plain 0 1], ([], [])).
Proof. exact skipped. Qed.

(** All others are: the new vertices are exactly at the points where an edge crosses a tool of a
    higher position.  How the edges are cut is not said. *)
Theorem C102_pairs_partial : forall (argsort_R : list R -> list nat) (argsort : list Z -> list nat) (h : heap) (objects tools : list (option host)) (eps : R) (axis : nat) (e_shift v_shift p_shift : Z),
  is_argsort_R argsort_R -> is_argsort argsort -> clear_network h (objects ++ tools) eps axis ->
  exists (new : heap) (hosts : list (option host)) (es : list (Z * list nat)),
    intersect_edges argsort_R argsort eps h objects tools axis e_shift v_shift p_shift =
      Ok (h ++ new, hosts, (es, combine (seq (length h) (length new)) (consecutive (p_shift + 1) (length new)))) /\
    map fst new = consecutive v_shift (length new) /\ StronglySorted lex (map snd new) /\
    forall x, In x (map snd new) <-> exists i j, (i < length objects)%nat /\ (i < j)%nat /\ crossing h (objects ++ tools) i (length objects + j) x.
Proof. exact (fun aR aZ h objects tools eps axis e v p A1 A2 N => pairs_lemma h objects tools eps axis N aR aZ e v p A1 A2). Qed.
Print Assumptions C102_pairs_partial.
Example C102_pairs_partial_example : clear_network comb ([plain 0 1] ++ [None; plain 2 3]) tiny 2 /\ exists hosts es,
  intersect_edges argsort_R_example argsort_example tiny comb [plain 0 1] [None; plain 2 3] 2 20 6 30 = Ok (comb ++ [(6%Z, P 1 0 0)], hosts, (es, [(6%nat, 31%Z)])).
Proof. exact (conj spaced_clear spaced_example). Qed.

(** The positions of the tools are then taken for positions of objects, and a vertex off an edge
    is immersed in it. *)
Theorem C102_tools_refuted : ~ (forall argsort_R argsort eps h objects tools axis s t r h' hosts es vs, is_argsort_R argsort_R -> is_argsort argsort -> clear_network h (objects ++ tools) eps axis ->
  intersect_edges argsort_R argsort eps h objects tools axis s t r = Ok (h', hosts, (es, vs)) ->
  forall i a b ends es_i k ends_k v, edge_at objects i a b -> nth_error hosts i = Some (Some (mk_host ends es_i)) -> In (k, ends_k) es_i -> In v ends_k -> on_segment (pt h a) (pt h b) (pt h' v)).
Proof. exact tools_refuted. Qed.
Print Assumptions C102_tools_refuted.
Example C102_tools_example : clear_network comb ([plain 0 1; plain 3 5] ++ [None; plain 2 3]) tiny 2 /\ exists h' hosts es vs ends es_1 t ends_1,
  intersect_edges argsort_R_example argsort_example tiny comb [plain 0 1; plain 3 5] [None; plain 2 3] 2 20 6 30 = Ok (h', hosts, (es, vs)) /\
  nth_error hosts 1 = Some (Some (mk_host ends es_1)) /\ In (t, ends_1) es_1 /\ In 6%nat ends_1 /\ pt h' 6 = P 1 0 0.
Proof. exact (conj off_clear off_example). Qed.

(** Collinear edges count as crossing even when they have no point in common, and a vertex off
    the edge is then immersed in it. *)
Theorem C102_collinear_refuted : ~ (forall argsort_R argsort eps h edges axis s t r h' hosts es vs, is_argsort_R argsort_R -> is_argsort argsort -> 0 < eps -> NoDup (map fst h) ->
  (forall e, In e edges -> exists a b, e = Some (mk_host [a; b] []) /\ live h [a; b] /\ pt h a <> pt h b /\ coord axis (pt h a) = 0 /\ coord axis (pt h b) = 0) ->
  intersect_edges argsort_R argsort eps h edges edges axis s t r = Ok (h', hosts, (es, vs)) ->
  forall i a b ends es_i k ends_k v, edge_at edges i a b -> nth_error hosts i = Some (Some (mk_host ends es_i)) -> In (k, ends_k) es_i -> In v ends_k -> on_segment (pt h a) (pt h b) (pt h' v)).
Proof. exact collinear_refuted. Qed.
Print Assumptions C102_collinear_refuted.
Example C102_collinear_example : exists h' hosts es vs ends es_0 t ends_0,
  intersect_edges argsort_R_example argsort_example tiny gap gap_edges gap_edges 2 20 4 30 = Ok (h', hosts, (es, vs)) /\
  nth_error hosts 0 = Some (Some (mk_host ends es_0)) /\ In (t, ends_0) es_0 /\ In 4%nat ends_0 /\ pt h' 4 = P (-7) 0 0.
Proof. exact gap_example. Qed.
