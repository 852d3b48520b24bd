(** * Specification vocabulary for boxes with fractures, C101 *)
From Coq Require Import List Arith ZArith Bool Reals Permutation Sorted.
From Verif Require Import Base VecBase GeoModel GeoSpec PolyModel LineModel LineSpec ShapeModel VertexModel VertexSpec DomainModel DomainSpec MdBoxModel.
Import ListNotations.

Section MdBox.
  Variable box : list vec.
  Let n := length box.

  (** ** The box *)
  (** corner number [i], and the side from it to the next corner; the last side starts from
      corner 0 *)
  Definition corner_at (i : nat) : vertex := mk_vertex (Z.of_nat i) None (nth i box vzero).
  Definition side_from (i : nat) : nat := if S i =? n then 0 else i.
  Definition side_to (i : nat) : nat := if S i =? n then i else S i.
  Definition side_edge (bc : nat -> option Z) (i : nat) : edge := mk_edge (Z.of_nat i) (bc i) [corner_at (side_from i); corner_at (side_to i)].
  Definition side_line (i : nat) : segment := (nth (side_from i) box vzero, nth (side_to i) box vzero).
  Definition side_lines : list segment := map side_line (seq 0 n).
  (** ** The fractures; [first] is the tag of the first vertex of the first fracture *)
  Definition fracture_edge (line internal : option Z) (first : Z) (k : nat) (l : segment) : edge :=
    let t := (first + 3 * Z.of_nat k)%Z in
    mk_edge (t + 2) line [mk_vertex t internal (fst l); mk_vertex (t + 1) internal (snd l)].
  Definition fractures (line internal : option Z) (first : Z) (lines : list segment) : list edge :=
    map (fun kl => fracture_edge line internal first (fst kl) (snd kl)) (combine (seq 0 (length lines)) lines).

  (** ** Fractures that are placed clearly *)
  Variable lines : list segment.
  (** corners, ends of fractures, and points where a fracture meets a side or another fracture *)
  Definition special (p : vec) : Prop :=
    In p box \/ (exists l, In l lines /\ (p = fst l \/ p = snd l)) \/ crossing_point lines side_lines p \/ crossing_point lines lines p.
  Record clear_network (tol scale : R) : Prop := {
    cn_box : NoDup box;
    cn_proper : forall l, In l lines -> fst l <> snd l;
    cn_apart : forall p q, special p -> special q -> p <> q -> ~ close tol p q /\ ~ nearly p q /\ ~ within (/ scale) p q;
    cn_definite : forall p l, special p -> In l (side_lines ++ lines) -> definite tol tol p (fst l) (snd l);
    cn_clear : forall l m, In l lines -> In m (side_lines ++ lines) ->
      l = m \/ (~ (nearly (fst l) (fst m) /\ nearly (snd l) (snd m)) /\ clear_cut tol tol tol l m);
    cn_off : forall z l, crossing_point lines lines z -> In l side_lines -> ~ on_segment (fst l) (snd l) z }.

  (** ** The vertices where fractures meet sides and each other *)
  Record meeting_vertices (bc : nat -> option Z) (point : option Z) (B C : list vertex) : Prop := {
    mv_tags : map v_tag (B ++ C) = tags_from (Z.of_nat n + 1) (length (B ++ C));
    mv_sides : NoDup (map v_point B) /\ forall p, In p (map v_point B) <-> crossing_point lines side_lines p;
    mv_lines : NoDup (map v_point C) /\ forall p, In p (map v_point C) <-> crossing_point lines lines p;
    (** a vertex on a side has the physical tag of the first side it lies on *)
    mv_first : forall v, In v B -> exists i, i < n /\ v_phys v = bc i /\ on_segment (fst (side_line i)) (snd (side_line i)) (v_point v) /\
      forall j, j < i -> ~ on_segment (fst (side_line j)) (snd (side_line j)) (v_point v);
    mv_point : forall v, In v C -> v_phys v = point }.

  (** the first tag after those of the box and of the [T], and after those of the fractures *)
  Definition first_tag (T : list vertex) : Z := (Z.of_nat n + 1 + Z.of_nat (length T))%Z.
  Definition next_tag (T : list vertex) : Z := (first_tag T + 3 * Z.of_nat (length lines))%Z.
  (** the sides and the fractures before they are cut *)
  Definition network_edges (bc : nat -> option Z) (line internal : option Z) (T : list vertex) : list edge :=
    map (side_edge bc) (seq 0 n) ++ fractures line internal (first_tag T) lines.

  (** ** The domain, the wire [wire] around it with its first edge's first end, and the face *)
  Record assembled (inside : vec -> bool) (bc : nat -> option Z) (area : option Z) (tag : Z) (vs : list vertex) (es : list edge)
      (D : domain vec) (wire : shape vec) (parts : list (list edge)) : Prop := {
    as_domain : D = [map shape_of_vertex (filter (fun v => inside (v_point v)) vs);
                     map shape_of_edge (filter (fun e => inside (midpoint e)) es) ++ [wire];
                     [mk_shape Face (tag + 1) area None [wire] (map shape_of_edge (filter (fun e => inside (midpoint e)) es))]];
    as_wire : exists e v, hd_error (concat parts) = Some e /\ hd_error (e_ends e) = Some v /\
      wire = mk_shape Wire tag None None [shape_of_vertex v] (map shape_of_edge (concat parts));
    (** along each side: the edges inside with its physical tag, by the distance of their middle *)
    as_parts : length parts = n /\ forall i part, nth_error parts i = Some part ->
      Permutation part (filter (fun e => eqb (e_phys e) (bc i)) (filter (fun e => inside (midpoint e)) es)) /\
      by_distance (fst (side_line i)) (map midpoint part) }.
End MdBox.
