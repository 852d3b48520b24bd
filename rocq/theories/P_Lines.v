(** * C93, C94: lines against lines, triangles and polygons *)
From Coq Require Import List Arith ZArith Bool Reals.
From Verif Require Import Base VecBase GeoModel GeoSpec GeoExamples VertexExamples PolyModel PolySpec PolyExamples LineModel LineSpec LineProof LineProof2 LineProof4 LineProof5 LineExamples.
Import ListNotations.
Local Open Scope R_scope.

(** ** C93 *)
(** lines_line_intersection gives the points where the lines meet the segment. *)
Theorem C93_lines_line : forall lstsq (ctol ptol eps : R), solves lstsq -> 0 <= ctol <= 1 / 100000000 -> 0 <= ptol -> 0 <= eps ->
  forall (lines : list (vec * vec)) (c d : vec), (forall l, In l lines -> clear_cut ctol ptol eps l (c, d)) ->
  exists out, lines_line_intersection lstsq ctol ptol lines c d eps = Ok out /\ forall z, In z out <-> exists l, In l lines /\ meet l (c, d) z.
Proof. exact lines_line_lemma. Qed.
Print Assumptions C93_lines_line.
Example C93_solver_example : solves lstsq_example.
Proof. exact lstsq_example_ok. Qed.
(** For every object lines_lines_intersection gives its points on the other lines. *)
Theorem C93_lines_lines : forall lstsq (ctol ptol eps : R), solves lstsq -> 0 <= ctol <= 1 / 100000000 -> 0 <= ptol -> 0 <= eps ->
  forall tools objects : list (vec * vec),
  (forall l m, In l tools -> In m objects -> l = m \/ (~ (nearly (fst l) (fst m) /\ nearly (snd l) (snd m)) /\ clear_cut ctol ptol eps l m)) ->
  exists outs, lines_lines lstsq ctol ptol tools objects eps = Ok outs /\
    Forall2 (fun m out => forall z, In z out <-> exists l, In l tools /\ l <> m /\ meet l m z) objects outs.
Proof. exact lines_lines_found. Qed.
Print Assumptions C93_lines_lines.
Example C93_lines_lines_example : (forall l m, In l [line_a; line_b; line_c] -> In m [line_a; line_b; line_c] ->
    l = m \/ (~ (nearly (fst l) (fst m) /\ nearly (snd l) (snd m)) /\ clear_cut tol tol tol l m)) /\ meet line_a line_b (P 0 0 0).
Proof. exact (conj lines_clear lines_meet). Qed.
(** Without duplicates: crossing points only, every one up to the rounding, and exactly
    they if no two of them are that close. *)
Theorem C93_unique : forall lstsq (ctol ptol eps scale : R), solves lstsq -> 0 <= ctol <= 1 / 100000000 -> 0 <= ptol -> 0 <= eps ->
  forall tools objects : list (vec * vec),
  (forall l m, In l tools -> In m objects -> l = m \/ (~ (nearly (fst l) (fst m) /\ nearly (snd l) (snd m)) /\ clear_cut ctol ptol eps l m)) ->
  0 < scale -> exists pts, lines_lines_points lstsq ctol ptol scale tools objects eps = Ok pts /\
    NoDup pts /\ (forall z, In z pts -> crossing_point tools objects z) /\
    (forall z, crossing_point tools objects z -> exists y, In y pts /\ within (/ scale) y z) /\
    ((forall y z, crossing_point tools objects y -> crossing_point tools objects z -> within (/ scale) y z -> y = z) ->
      forall z, In z pts <-> crossing_point tools objects z).
Proof. exact lines_lines_unique. Qed.
Print Assumptions C93_unique.
Example C93_unique_example : crossing_point [line_a; line_b; line_c] [line_a; line_b; line_c] (P 0 0 0).
Proof. exact three_lines_cross. Qed.
(** A line that lies in another (both ends on it) is a ValueError. *)
Theorem C93_overlap_fails : forall lstsq (ctol ptol eps : R), solves lstsq -> 0 <= ctol <= 1 / 100000000 -> 0 <= ptol -> 0 <= eps ->
  forall (tools objects : list (vec * vec)) (l m : vec * vec), In l tools -> In m objects -> ~ (nearly (fst l) (fst m) /\ nearly (snd l) (snd m)) ->
  on_segment (fst m) (snd m) (fst l) -> on_segment (fst m) (snd m) (snd l) -> lines_lines lstsq ctol ptol tools objects eps = Err ValueError.
Proof. exact lines_lines_fails. Qed.
Print Assumptions C93_overlap_fails.
Example C93_overlap_fails_example : let l := (P 1 0 0, P 0 0 0) in let m := (P 0 0 0, P 1 0 0) in
  ~ (nearly (fst l) (fst m) /\ nearly (snd l) (snd m)) /\ on_segment (fst m) (snd m) (fst l) /\ on_segment (fst m) (snd m) (snd l).
Proof. exact overlap_example. Qed.

(** ** C94 *)
(** line_triangle_incidence is false exactly if both ends are clearly on one side. *)
Theorem C94_incidence : forall (p q a b c : vec) (eps : R), 0 <= eps -> (line_triangle_incidence p q a b c eps = false <-> beside eps a b c p q).
Proof. exact incidence_spec. Qed.
Print Assumptions C94_incidence.
Example C94_incidence_example : beside tol (vmean rectangle) (corner rectangle 0) (corner rectangle 1) (P 0 0 1) (P 5 5 2).
Proof. exact (beside_example 0 (le_n_S 0 3 (Nat.le_0_l 3))). Qed.
(** A line that crosses the plane of the triangle in [z] gives [z] if it is in the triangle
    and None otherwise. *)
Theorem C94_triangle : forall lstsq (ctol ptol eps scale : R), solves lstsq -> 0 <= ctol <= 1 / 100000000 -> 0 <= ptol -> 0 <= eps ->
  forall a b c p q z : vec, proper_triangle a b c -> crosses_plane ctol eps a b c p q z ->
  (forall u v, triangle_edge a b c u v -> clear_cut ctol ptol eps (u, v) (p, q) /\ definite ctol eps z u v) ->
  (in_triangle a b c z -> line_triangle_intersection lstsq ctol ptol scale (p, q) a b c eps = Ok (LT_points [z])) /\
  (~ in_triangle a b c z -> line_triangle_intersection lstsq ctol ptol scale (p, q) a b c eps = Ok LT_none).
Proof. exact across. Qed.
Print Assumptions C94_triangle.
Example C94_triangle_example : let a := P 1 (1 / 2) 0 in let b := P 2 0 0 in let c := P 2 1 0 in
  proper_triangle a b c /\ crosses_plane tol tol a b c above below through /\
  (forall u v, triangle_edge a b c u v -> clear_cut tol tol tol (u, v) (above, below) /\ definite tol tol through u v) /\ in_triangle a b c through.
Proof. exact triangle_example. Qed.
(** The same for a convex polygon recognised as convex, *)
Theorem C94_across : forall lstsq argsort delaunay (ctol ptol eps scale : R), solves lstsq -> sorts argsort ->
  0 <= ctol <= 1 / 100000000 -> 0 <= ptol -> 0 <= eps -> forall (n : vec) (pts : list vec), convex_polygon n pts -> convex_q pts = Ok true ->
  forall p q z : vec, (forall i, (i < length pts)%nat -> crosses_plane ctol eps (vmean pts) (corner pts i) (corner pts (i + 1)) p q z) ->
  (forall u v, fan_edge pts u v -> clear_cut ctol ptol eps (u, v) (p, q) /\ definite ctol eps z u v) ->
  (in_polygon n pts z -> line_polygon_intersection lstsq argsort delaunay ctol ptol scale (p, q) pts eps = Ok (Some [z])) /\
  (~ in_polygon n pts z -> line_polygon_intersection lstsq argsort delaunay ctol ptol scale (p, q) pts eps = Ok None).
Proof. exact polygon_across. Qed.
Print Assumptions C94_across.
Example C94_across_example : (forall i, (i < length rectangle)%nat -> crosses_plane tol tol (vmean rectangle) (corner rectangle i) (corner rectangle (i + 1)) above below through) /\
  (forall u v, fan_edge rectangle u v -> clear_cut tol tol tol (u, v) (above, below) /\ definite tol tol through u v) /\ in_polygon up rectangle through.
Proof. exact across_example. Qed.
Example C94_sorter_example : sorts argsort_R_example.
Proof. exact argsort_R_example_ok. Qed.
(** and None for a line on one side of it. *)
Theorem C94_beside : forall lstsq argsort delaunay (ctol ptol eps scale : R), 0 <= eps -> forall (n : vec) (pts : list vec), convex_polygon n pts -> convex_q pts = Ok true ->
  forall p q : vec, (forall i, (i < length pts)%nat -> beside eps (vmean pts) (corner pts i) (corner pts (i + 1)) p q) ->
  line_polygon_intersection lstsq argsort delaunay ctol ptol scale (p, q) pts eps = Ok None.
Proof. exact polygon_beside. Qed.
Print Assumptions C94_beside.
Example C94_beside_example : forall i, (i < length rectangle)%nat -> beside tol (vmean rectangle) (corner rectangle i) (corner rectangle (i + 1)) (P 0 0 1) (P 5 5 2).
Proof. exact beside_example. Qed.
(** A line in the plane of the polygon with both ends outside gives the ends of its part in
    the polygon, the end nearest to the start first. *)
Theorem C94_within : forall lstsq argsort delaunay (ctol ptol eps scale : R), solves lstsq -> sorts argsort ->
  0 <= ctol <= 1 / 100000000 -> 0 <= ptol -> 0 <= eps -> forall (n : vec) (pts : list vec), convex_polygon n pts -> convex_q pts = Ok true ->
  forall p q : vec, 0 < scale -> dot n (vsub p (corner pts 0)) = 0 -> dot n (vsub q (corner pts 0)) = 0 -> ~ in_polygon n pts p -> ~ in_polygon n pts q ->
  (forall u v, fan_edge pts u v -> clear_cut ctol ptol eps (u, v) (p, q) /\ forall x, ~ near_segment ctol eps p u v x /\ ~ near_segment ctol eps q u v x) ->
  (forall x y, fan_crossing pts p q x -> fan_crossing pts p q y -> within (/ scale) x y -> x = y) ->
  exists r, line_polygon_intersection lstsq argsort delaunay ctol ptol scale (p, q) pts eps = Ok r /\ exact_ends (fun w => in_polygon n pts w /\ on_segment p q w) p r.
Proof. exact polygon_within. Qed.
Print Assumptions C94_within.
Example C94_within_example : dot up (vsub left_end (corner rectangle 0)) = 0 /\ dot up (vsub right_end (corner rectangle 0)) = 0 /\
  ~ in_polygon up rectangle left_end /\ ~ in_polygon up rectangle right_end /\
  (forall u v, fan_edge rectangle u v -> clear_cut tol tol tol (u, v) (left_end, right_end) /\ forall x, ~ near_segment tol tol left_end u v x /\ ~ near_segment tol tol right_end u v x) /\
  (forall x y, fan_crossing rectangle left_end right_end x -> fan_crossing rectangle left_end right_end y -> within (/ 10000000000) x y -> x = y).
Proof. exact within_example. Qed.
(** This is false if an end may be inside: this end is lost. *)
Theorem C94_inner_end_refuted : ~ (forall lstsq argsort delaunay (ctol ptol eps scale : R) (n : vec) (pts : list vec) (p q : vec), solves lstsq -> sorts argsort ->
  0 <= ctol <= 1 / 100000000 -> 0 <= ptol -> 0 <= eps -> 0 < scale -> convex_polygon n pts -> convex_q pts = Ok true ->
  dot n (vsub p (corner pts 0)) = 0 -> dot n (vsub q (corner pts 0)) = 0 ->
  (forall u v, fan_edge pts u v -> clear_cut ctol ptol eps (u, v) (p, q) /\ forall x, ~ near_segment ctol eps p u v x /\ ~ near_segment ctol eps q u v x) ->
  (forall x y, fan_crossing pts p q x -> fan_crossing pts p q y -> within (/ scale) x y -> x = y) ->
  exists r, line_polygon_intersection lstsq argsort delaunay ctol ptol scale (p, q) pts eps = Ok r /\ exact_ends (fun w => in_polygon n pts w /\ on_segment p q w) p r).
Proof. exact inner_refuted. Qed.
Print Assumptions C94_inner_end_refuted.
Example C94_inner_end_example : forall delaunay,
  line_polygon_intersection lstsq_example argsort_R_example delaunay tol tol 10000000000 (inner_end, outer) rectangle tol = Ok (Some [exit]).
Proof. exact inner_end_lost. Qed.
(** A line in the plane that contains an edge of the triangles, such as a diagonal of a
    rectangle, is an error. *)
Theorem C94_diagonal_fails : forall lstsq argsort delaunay (ctol ptol eps scale : R), solves lstsq ->
  0 <= ctol <= 1 / 100000000 -> 0 <= ptol -> 0 <= eps -> forall (n : vec) (pts : list vec), convex_polygon n pts -> convex_q pts = Ok true ->
  forall p q u v : vec, dot n (vsub p (corner pts 0)) = 0 -> dot n (vsub q (corner pts 0)) = 0 -> ~ in_polygon n pts p ->
  (forall u v x, fan_edge pts u v -> ~ near_segment ctol eps p u v x) -> fan_edge pts u v -> on_segment p q u -> on_segment p q v ->
  exists e, line_polygon_intersection lstsq argsort delaunay ctol ptol scale (p, q) pts eps = Err e.
Proof. exact polygon_fails. Qed.
Print Assumptions C94_diagonal_fails.
Example C94_diagonal_fails_example : dot up (vsub far_low (corner rectangle 0)) = 0 /\ dot up (vsub far_high (corner rectangle 0)) = 0 /\ ~ in_polygon up rectangle far_low /\
  (forall u v x, fan_edge rectangle u v -> ~ near_segment tol tol far_low u v x) /\ fan_edge rectangle (P 0 0 0) (P 1 (1 / 2) 0) /\
  on_segment far_low far_high (P 0 0 0) /\ on_segment far_low far_high (P 1 (1 / 2) 0).
Proof. exact diagonal_example. Qed.
(** Many lines across a polygon: the points inside, and which lines gave them. *)
Theorem C94_lines : forall lstsq argsort delaunay (ctol ptol eps scale : R), solves lstsq -> sorts argsort ->
  0 <= ctol <= 1 / 100000000 -> 0 <= ptol -> 0 <= eps -> forall (n : vec) (pts : list vec), convex_polygon n pts -> convex_q pts = Ok true ->
  forall (inside : vec -> bool) (lines : list (vec * vec)) (zs : list vec), (forall z, In z zs -> (inside z = true <-> in_polygon n pts z)) ->
  Forall2 (fun (l : vec * vec) z => (forall i, (i < length pts)%nat -> crosses_plane ctol eps (vmean pts) (corner pts i) (corner pts (i + 1)) (fst l) (snd l) z) /\
    (forall u v, fan_edge pts u v -> clear_cut ctol ptol eps (u, v) l /\ definite ctol eps z u v)) lines zs ->
  lines_polygon_intersection lstsq argsort delaunay ctol ptol scale lines pts eps = Ok (map (fun z => LT_points [z]) (filter inside zs), map inside zs).
Proof. exact lines_across. Qed.
Print Assumptions C94_lines.
Example C94_lines_example : Forall2 (fun (l : vec * vec) z => (forall i, (i < length rectangle)%nat -> crosses_plane tol tol (vmean rectangle) (corner rectangle i) (corner rectangle (i + 1)) (fst l) (snd l) z) /\
    (forall u v, fan_edge rectangle u v -> clear_cut tol tol tol (u, v) l /\ definite tol tol z u v)) [(above, below); (above, below)] [through; through].
Proof. exact two_lines. Qed.
(** Lines with answers of different sizes cannot be asked together. *)
Theorem C94_sizes : forall lstsq argsort delaunay (ctol ptol eps scale : R) (lines : list (vec * vec)) (pts : list vec) (rs : list (option (list vec))),
  Forall2 (fun line r => line_polygon_intersection lstsq argsort delaunay ctol ptol scale line pts eps = Ok r) lines rs ->
  ((forall l l', In (Some l) rs -> In (Some l') rs -> length l = length l') ->
    lines_polygon_intersection lstsq argsort delaunay ctol ptol scale lines pts eps =
      Ok (flat_map (fun o => match o with Some l => [LT_points l] | None => [] end) rs, map (fun o => match o with Some _ => true | None => false end) rs)) /\
  (forall l l', In (Some l) rs -> In (Some l') rs -> length l <> length l' ->
    lines_polygon_intersection lstsq argsort delaunay ctol ptol scale lines pts eps = Err ValueError).
Proof. exact lines_polygon_lemma. Qed.
Print Assumptions C94_sizes.
Example C94_sizes_example : forall delaunay, lines_polygon_intersection lstsq_example argsort_R_example delaunay tol tol 10000000000
  [(above, below); (left_end, right_end)] rectangle tol = Err ValueError.
Proof. exact sizes_example. Qed.
(** lines_triangle_intersection should give one array for each line marked; it is false:
    line_triangle_intersection may answer False, and this is among the results. *)
Theorem C94_false_refuted : ~ (forall lstsq (ctol ptol eps scale : R) (lines : list (vec * vec)) (a b c : vec) arr mask, solves lstsq ->
  0 <= ctol <= 1 / 100000000 -> 0 <= ptol -> 0 <= eps -> 0 < scale -> proper_triangle a b c ->
  lines_triangle_intersection lstsq ctol ptol scale lines a b c eps = Ok (arr, mask) -> length arr = count_occ bool_dec mask true).
Proof. exact false_refuted. Qed.
Print Assumptions C94_false_refuted.
Example C94_false_example : lines_triangle_intersection lstsq_example tol tol 10000000000 [(start_low, end_high)] (P 0 0 0) (P 1 0 0) (P 0 1 0) tol = Ok ([LT_false], [false]).
Proof. exact false_many. Qed.
