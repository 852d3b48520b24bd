(** * C101: boxes with fractures, create_md_box_2D *)
From Coq Require Import List Arith ZArith Bool Reals Permutation Sorted.
From Verif Require Import Base VecBase GeoModel GeoSpec GeoExamples PolyModel PolySpec PolyExamples LineModel LineSpec LineExamples ShapeModel ShapeSpec ShapeExamples VertexModel VertexSpec VertexExamples DomainModel DomainSpec DomainExamples MdBoxModel MdBoxSpec MdBoxProof5 MdBoxProof6 MdBoxProof7 MdBoxExamples.
Import ListNotations.
Local Open Scope nat_scope.

(** ** The network *)
(** The box with fractures is built.  Sides and fractures are cut where they meet: in place of
    each one there are the steps from end to end over the meeting points on it, and the edges
    share the vertices there.  The domain has the vertices and the edges, of these, that
    are inside the box, a wire of the edges inside that carry the physical tags of the sides, side
    by side, and one face. *)
Theorem C101_network : forall lstsq argsort_R argsort delaunay hash tol scale, is_argsort argsort -> is_argsort_R argsort_R -> solves lstsq ->
  (0 <= tol <= 1 / 100000000)%R -> (0 < scale)%R -> forall fuel, 4 <= fuel ->
  forall nrm box lines bc area line internal point, convex_polygon nrm box -> convex_q box = Ok true -> clear_network box lines tol scale ->
  exists B C, meeting_vertices box lines bc (Some point) B C /\
    let T := B ++ C in let N := Z.to_nat (next_tag box lines T) + (length box + length lines) * (3 * length T + 1) in
    no_collision hash 0 (tags_from 0 N) -> no_collision hash 1 (tags_from 0 N) ->
    exists D wire o parts md (inside : vec -> bool),
      create_md_box_2D lstsq argsort_R argsort delaunay hash tol scale fuel box (Some area) bc (Some lines) (Some line, Some internal, Some point) = Ok (D, (wire, o)) /\
      orient_immersed_edges allclose_default fuel wire = Ok o /\
      (exists ess, d_edges md = concat ess /\ Forall2 (refines tol tol T) (network_edges box lines bc (Some line) (Some internal) T) ess) /\
      spanned md /\ NoDup (map e_tag (d_edges md)) /\
      (forall p, point_polygon_intersection delaunay tol p box tol = Ok (if inside p then Some p else None)) /\ (forall p, in_polygon nrm box p -> inside p = true) /\
      assembled box inside bc (Some area) (next_tag box lines T) (d_vertices md) (d_edges md) D wire parts.
Proof. exact network_lemma. Qed.
Print Assumptions C101_network.

(** a square, a fracture across its bottom and one across the first *)
Example C101_cracks : convex_polygon up square /\ convex_q square = Ok true /\ clear_network square cracks tol 10000000000 /\
  exists D wire o, create_md_box_2D lstsq_example argsort_R_example argsort_example (fun _ => Ok []) hash_id tol 10000000000 4 square (Some 1%Z) side_tags (Some cracks) (Some 10%Z, Some 11%Z, Some 12%Z) = Ok (D, (wire, o)).
Proof.
  split; [exact square_convex|]. split; [exact square_recognised|]. split; [exact cracks_clear|].
  destruct (C101_network lstsq_example argsort_R_example argsort_example (fun _ => Ok []) hash_id tol 10000000000 argsort_example_ok argsort_R_example_ok lstsq_example_ok tol_small scale_positive 4 (le_n 4)
    up square cracks side_tags 1%Z 10%Z 11%Z 12%Z square_convex square_recognised cracks_clear) as (B & C & _ & H).
  destruct (H (hash_id_ok _ _) (hash_id_ok _ _)) as (D & wire & o & _ & _ & _ & E & _). exists D, wire, o. exact E.
Qed.

(** ** The wire *)
(** If the physical tags of the sides differ from each other and from that of the fractures, and
    no fracture meets the last side, the edges of the wire are the pieces of the sides in order;
    they make a closed walk from the first corner, and the signs say in which direction each is
    passed. *)
Theorem C101_wire : forall lstsq argsort_R argsort delaunay hash tol scale, is_argsort argsort -> is_argsort_R argsort_R -> solves lstsq ->
  (0 <= tol <= 1 / 100000000)%R -> (0 < scale)%R -> forall fuel, 4 <= fuel ->
  forall nrm box lines bc area line internal point, convex_polygon nrm box -> convex_q box = Ok true -> clear_network box lines tol scale ->
  (forall i j, i < length box -> j < length box -> bc i = bc j -> i = j) -> (forall i, i < length box -> bc i <> Some line) ->
  (forall z, crossing_point lines (side_lines box) z -> ~ on_segment (fst (side_line box (length box - 1))) (snd (side_line box (length box - 1))) z) ->
  exists B C, meeting_vertices box lines bc (Some point) B C /\
    let T := B ++ C in let N := Z.to_nat (next_tag box lines T) + (length box + length lines) * (3 * length T + 1) in
    no_collision hash 0 (tags_from 0 N) -> no_collision hash 1 (tags_from 0 N) ->
    exists D wire o ess path,
      create_md_box_2D lstsq argsort_R argsort delaunay hash tol scale fuel box (Some area) bc (Some lines) (Some line, Some internal, Some point) = Ok (D, (wire, o)) /\
      incl (immersed wire ++ [wire]) (nth 1 D []) /\
      Forall2 (refines tol tol T) (map (side_edge box bc) (seq 0 (length box))) ess /\ immersed wire = map shape_of_edge (concat ess) /\
      s_boundary wire = [shape_of_vertex (corner_at box 0)] /\
      length path = length (concat ess) /\ last path (corner_at box 0) = corner_at box 0 /\
      let l := combine (immersed wire) (map shape_of_vertex path) in
      walk (shape_of_vertex (corner_at box 0)) l /\ length o = length l /\
      (forall i e a b, nth_error l i = Some (e, b) -> nth_error (starts (shape_of_vertex (corner_at box 0)) l) i = Some a -> exists s, nth_error o i = Some s /\ leads s e a b).
Proof. exact md_wire_lemma. Qed.
Print Assumptions C101_wire.

Example C101_cracks_wire : (forall i j, i < length square -> j < length square -> side_tags i = side_tags j -> i = j) /\ (forall i, i < length square -> side_tags i <> Some 10%Z) /\
  (exists z, crossing_point cracks (side_lines square) z) /\
  (forall z, crossing_point cracks (side_lines square) z -> ~ on_segment (fst (side_line square (length square - 1))) (snd (side_line square (length square - 1))) z).
Proof. split; [exact side_tags_differ|]. split; [exact side_tags_line|]. split; [exact cracks_meet|]. exact cracks_last. Qed.

(** A fracture which crosses the last side: its pieces are put in order from the first corner, the
    others end at the last corner; the edges of the wire make no walk, whatever its start. *)
Theorem C101_wire_refuted : forall lstsq argsort_R argsort delaunay hash tol scale, is_argsort argsort -> is_argsort_R argsort_R -> solves lstsq ->
  (0 <= tol <= 1 / 100000000)%R -> (0 < scale)%R -> forall fuel, 4 <= fuel ->
  forall nrm box lines bc area line internal point, convex_polygon nrm box -> convex_q box = Ok true -> clear_network box lines tol scale ->
  (forall i j, i < length box -> j < length box -> bc i = bc j -> i = j) -> (forall i, i < length box -> bc i <> Some line) ->
  forall z, crossing_point lines (side_lines box) z -> on_segment (nth 0 box vzero) (nth (length box - 1) box vzero) z -> z <> nth 0 box vzero -> z <> nth (length box - 1) box vzero ->
  exists B C, meeting_vertices box lines bc (Some point) B C /\
    let T := B ++ C in let N := Z.to_nat (next_tag box lines T) + (length box + length lines) * (3 * length T + 1) in
    no_collision hash 0 (tags_from 0 N) -> no_collision hash 1 (tags_from 0 N) ->
    exists D wire o,
      create_md_box_2D lstsq argsort_R argsort delaunay hash tol scale fuel box (Some area) bc (Some lines) (Some line, Some internal, Some point) = Ok (D, (wire, o)) /\
      forall w l, map fst l = immersed wire -> ~ walk w l.
Proof. exact last_side_lemma. Qed.
Print Assumptions C101_wire_refuted.

Example C101_left_crack : clear_network square left_crack tol 10000000000 /\
  exists D wire o, create_md_box_2D lstsq_example argsort_R_example argsort_example (fun _ => Ok []) hash_id tol 10000000000 4 square (Some 1%Z) side_tags (Some left_crack) (Some 10%Z, Some 11%Z, Some 12%Z) = Ok (D, (wire, o)) /\
    forall w l, map fst l = immersed wire -> ~ walk w l.
Proof.
  split; [exact left_clear|]. destruct left_last as (Hz & On & N0 & Nl).
  destruct (C101_wire_refuted lstsq_example argsort_R_example argsort_example (fun _ => Ok []) hash_id tol 10000000000 argsort_example_ok argsort_R_example_ok lstsq_example_ok tol_small scale_positive 4 (le_n 4)
    up square left_crack side_tags 1%Z 10%Z 11%Z 12%Z square_convex square_recognised left_clear side_tags_differ side_tags_line _ Hz On N0 Nl) as (B & C & _ & H).
  exact (H (hash_id_ok _ _) (hash_id_ok _ _)).
Qed.
