(** * Specification vocabulary for boxes with a network of fractures handed to gmsh *)
From Coq Require Import List Arith ZArith Bool.
From Verif Require Import Base FracModel FracSpec MesherModel MesherSpec BuilderModel.
Import ListNotations.

(** The tags in effect: those given, or the default when none are given. *)
Definition default_2D : dict key Z := [(KArea, 1%Z); (KBc 0, 2%Z); (KBc 1, 3%Z); (KBc 2, 4%Z); (KBc 3, 5%Z)].
Definition default_1D : dict key Z := [(KLine, 1%Z); (KBc 0, 2%Z); (KBc 1, 3%Z)].
Definition default_3D : dict key Z :=
  [(KVolume, 1%Z); (KBc 0, 2%Z); (KBc 1, 3%Z); (KBc 2, 4%Z); (KBc 3, 5%Z); (KBc 4, 6%Z); (KBc 5, 7%Z)].
Definition in_effect (tags default : dict key Z) : dict key Z := if Nat.eqb (length tags) 0 then default else tags.
(** Tags of a polygon with [n] corners *)
Definition all_tagged (tags : dict key Z) (n : nat) : Prop :=
  dget tags KArea <> None /\ forall i, i < n -> dget tags (KBc i) <> None.

(** The sides of a polygon with [n] corners: from corner [i] to the next one *)
Definition side (n : nat) (b e t : Z) : Prop :=
  exists i, i < n /\ b = (Z.of_nat i + 1)%Z /\ e = (Z.of_nat ((i + 1) mod n) + 1)%Z /\ t = Z.of_nat (n + i).
(** Its physical groups *)
Definition polygon_group (tags : dict key Z) (n d : nat) (l : list Z) (p : Z) : Prop :=
  (exists i, i < n /\ d = 1 /\ l = [Z.of_nat (n + i)] /\ dget tags (KBc i) = Some p) \/
  (d = 2 /\ l = [Z.of_nat (n + n)] /\ dget tags KArea = Some p).
(** The points are numbered from one. *)
Definition numbered {P} (pts : list P) (p : P) (t : Z) : Prop := exists i, nth_error pts i = Some p /\ t = (Z.of_nat i + 1)%Z.

Section Network.
  Variable P : Type.
  (** number of corners of the polygon, network *)
  Variable n : nat.
  Variable net : network P.
  (** The number gmsh gets for the vertex [v] of the network: after the corners *)
  Definition vertex_number (v : nat) (z : Z) : Prop :=
    exists c t, nth_error (n_cells P net) v = Some c /\ gc_dim c = 0 /\ gc_pid c = Some t /\ z = Z.of_nat (n + t + 1).
  (** The number of the line [i] of the network: after the cells of the polygon *)
  Definition line_number (i : nat) : Z := Z.of_nat (2 * n + 1 + i).
  (** Lines which are not divided *)
  Definition drawn (i : nat) : Prop := exists c, nth_error (n_cells P net) i = Some c /\ gc_dim c = 1 /\ gc_imm c = [].
  Definition drawn_line (b e t : Z) : Prop :=
    exists i c u v, nth_error (n_cells P net) i = Some c /\ gc_dim c = 1 /\ gc_imm c = [] /\ gc_bc c = [u; v] /\
      vertex_number u b /\ vertex_number v e /\ t = line_number i.
  (** The group of the pieces of fracture [k] *)
  Definition fracture_group (k : nat) (l : list Z) : Prop :=
    exists c, nth_error (n_cells P net) (3 * k + 2) = Some c /\
      l = map line_number (match gc_imm c with [] => [3 * k + 2] | imm => imm end).
  (** the vertices with a tag *)
  Definition tagged (p z : Z) : Prop := exists v c, nth_error (n_cells P net) v = Some c /\ gc_tag c = p /\ vertex_number v z.
End Network.
Definition fracture_tag (m : nat) (shift p : Z) : Prop := exists k, k < m /\ p = (Z.of_nat k + shift)%Z.

(** The calls describe the polygon [pts] with the [m] fractures of the network [net]. *)
Record fractured_polygon (P : Type) (T : dict key Z) (pts : list P) (m : nat) (shift : Z) (net : network P) (r : list (call P)) : Prop := {
  (** points: the corners and the points of the network *)
  fp_points : forall p t, In (AddPoint p t) r <-> numbered (pts ++ n_points P net) p t;
  (** lines: the sides and the lines of the network that are not divided *)
  fp_lines : forall b e t, In (AddLine b e t) r <-> side (length pts) b e t \/ drawn_line P (length pts) net b e t;
  fp_loops : forall l t, In (AddCurveLoop l t) r <-> l = map Z.of_nat (seq (length pts) (length pts)) /\ t = Z.of_nat (length pts + length pts);
  fp_faces : forall l t, In (AddPlaneSurface l t) r <-> l = [t] /\ t = Z.of_nat (length pts + length pts);
  fp_solids : forall l t, ~ In (AddSurfaceLoop l t) r /\ ~ In (AddVolume l t) r;
  (** groups of surfaces and lines: the polygon, its sides, and for each fracture its pieces *)
  fp_groups : forall d l p, d <> 0 -> In (AddPhysicalGroup d l p) r <->
    polygon_group T (length pts) d l p \/ (d = 1 /\ exists k, k < m /\ fracture_group P (length pts) net k l /\ p = (Z.of_nat k + shift)%Z);
  (** groups of points: for the tag of each fracture the vertices with that tag; each other vertex on its own *)
  fp_points_sound : forall l p, In (AddPhysicalGroup 0 l p) r ->
    (fracture_tag m shift p /\ forall z, In z l <-> tagged P (length pts) net p z) \/
    (~ fracture_tag m shift p /\ exists z, l = [z] /\ tagged P (length pts) net p z);
  fp_points_fractures : forall p, fracture_tag m shift p -> exists l, In (AddPhysicalGroup 0 l p) r;
  fp_points_others : forall p z, ~ fracture_tag m shift p -> tagged P (length pts) net p z -> In (AddPhysicalGroup 0 [z] p) r;
  (** the vertices and the lines of the network are embedded in the polygon *)
  fp_embedded : exists l0 l1, In (Embed 0 l0 2 (Z.of_nat (length pts + length pts))) r /\ In (Embed 1 l1 2 (Z.of_nat (length pts + length pts))) r;
  fp_embed : forall d l d' t, In (Embed d l d' t) r -> d' = 2 /\ t = Z.of_nat (length pts + length pts) /\
    ((d = 0 /\ forall z, In z l <-> exists v, vertex_number P (length pts) net v z) \/
     (d = 1 /\ forall z, In z l <-> exists i, drawn P net i /\ z = line_number (length pts) i));
  fp_nodes : forall t k, In (SetTransfiniteCurve t k) r <-> k = 10%Z /\ exists i, drawn P net i /\ t = line_number (length pts) i }.
(** The tags of the sides differ from each other and from those of the fractures. *)
Definition tags_apart (T : dict key Z) (n m : nat) (shift : Z) : Prop :=
  (forall i j, i < n -> j < n -> dget T (KBc i) = dget T (KBc j) -> i = j) /\
  (forall i k, i < n -> k < m -> dget T (KBc i) <> Some (Z.of_nat k + shift)%Z).
(** Tags of a hexahedron and of a segment *)
Definition hexa_tagged (T : dict key Z) : Prop := dget T KVolume <> None /\ forall i, i < 6 -> dget T (KBc i) <> None.
Definition segment_tagged (T : dict key Z) : Prop := dget T KLine <> None /\ dget T (KBc 0) <> None /\ dget T (KBc 1) <> None.

(** The calls describe the polygon [pts] alone. *)
Record plain_polygon (P : Type) (T : dict key Z) (pts : list P) (r : list (call P)) : Prop := {
  pp_points : forall p t, In (AddPoint p t) r <-> numbered pts p t;
  pp_lines : forall b e t, In (AddLine b e t) r <-> side (length pts) b e t;
  pp_loops : forall l t, In (AddCurveLoop l t) r <-> l = map Z.of_nat (seq (length pts) (length pts)) /\ t = Z.of_nat (length pts + length pts);
  pp_faces : forall l t, In (AddPlaneSurface l t) r <-> l = [t] /\ t = Z.of_nat (length pts + length pts);
  pp_groups : forall d l p, In (AddPhysicalGroup d l p) r <-> polygon_group T (length pts) d l p;
  pp_others : forall c, In c r -> match c with AddSurfaceLoop _ _ | AddVolume _ _ | Embed _ _ _ _ | SetTransfiniteCurve _ _ => False | _ => True end }.
(** The calls describe a segment between the first two of the points. *)
Record plain_segment (P : Type) (T : dict key Z) (pts : list P) (r : list (call P)) : Prop := {
  ps_points : forall p t, In (AddPoint p t) r <-> numbered pts p t;
  ps_lines : forall b e t, In (AddLine b e t) r <-> b = 1%Z /\ e = 2%Z /\ t = Z.of_nat (length pts);
  ps_groups : forall d l p, In (AddPhysicalGroup d l p) r <->
    (d = 0 /\ l = [1%Z] /\ dget T (KBc 0) = Some p) \/ (d = 0 /\ l = [2%Z] /\ dget T (KBc 1) = Some p) \/
    (d = 1 /\ l = [Z.of_nat (length pts)] /\ dget T KLine = Some p);
  ps_others : forall c, In c r -> match c with AddPoint _ _ | AddLine _ _ _ | AddPhysicalGroup _ _ _ | Synchronize => True | _ => False end }.
(** Two corners of a hexahedron, numbered from one as in gmsh, are joined: the bottom is
    1 2 3 4, the top 5 6 7 8. *)
Definition hexa_joined (b e : Z) : Prop :=
  In (b, e) [(1, 2); (2, 3); (3, 4); (4, 1); (5, 6); (6, 7); (7, 8); (8, 5); (1, 5); (2, 6); (3, 7); (4, 8)]%Z.
(** The corners of the faces of a hexahedron *)
Definition hexa_corners (i : nat) : list Z :=
  nth i [[1; 2; 6; 5]; [2; 3; 7; 6]; [3; 4; 8; 7]; [4; 1; 5; 8]; [1; 2; 3; 4]; [5; 6; 7; 8]]%Z [].
(** Loop [l] visits the corners [v]. *)
Definition visits {P} (r : list (call P)) (l v : list Z) : Prop :=
  length l = length v /\ forall k t a b, nth_error l k = Some t -> nth_error v k = Some a -> nth_error v (S k mod length v) = Some b ->
    ((0 < t)%Z /\ In (AddLine a b t) r) \/ ((t < 0)%Z /\ In (AddLine b a (- t)) r).
Record plain_hexahedron (P : Type) (T : dict key Z) (pts : list P) (r : list (call P)) : Prop := {
  ph_points : forall p t, In (AddPoint p t) r <-> numbered pts p t;
  (** the lines *)
  ph_lines : forall b e, hexa_joined b e <-> exists t, In (AddLine b e t) r;
  (** six faces *)
  ph_faces : forall l t, In (AddPlaneSurface l t) r <-> l = [t] /\ (20 <= t < 26)%Z;
  ph_loops : forall l t, In (AddCurveLoop l t) r -> exists i, i < 6 /\ t = Z.of_nat (20 + i) /\ visits r l (hexa_corners i);
  ph_loop : forall i, i < 6 -> exists l, In (AddCurveLoop l (Z.of_nat (20 + i))) r;
  (** one solid, bounded by all of them *)
  ph_shells : forall l t, In (AddSurfaceLoop l t) r <-> l = [20; 21; 22; 23; 24; 25]%Z /\ t = 26%Z;
  ph_solids : forall l t, In (AddVolume l t) r <-> l = [26%Z] /\ t = 26%Z;
  ph_groups : forall d l p, In (AddPhysicalGroup d l p) r <->
    (exists i, i < 6 /\ d = 2 /\ l = [Z.of_nat (20 + i)] /\ dget T (KBc i) = Some p) \/ (d = 3 /\ l = [26%Z] /\ dget T KVolume = Some p);
  ph_others : forall c, In c r -> match c with Embed _ _ _ _ | SetTransfiniteCurve _ _ => False | _ => True end }.
