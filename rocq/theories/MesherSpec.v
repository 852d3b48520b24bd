(** * Specification vocabulary for the descriptions handed to gmsh *)
From Coq Require Import List Arith ZArith Bool.
From Verif Require Import Base ShapeModel ShapeSpec MesherModel.
Import ListNotations.

Section Scene.
  Context {P : Type}.
  (** ** What gmsh accepts *)
  (** The entities of the geometry kernel, and those of the model after the last
      synchronisation.  A line is known with its ends. *)
  Record scene : Type := mk_scene {
    points : list Z; lines : list (Z * (Z * Z)); curve_loops : list Z; surfaces : list Z; surface_loops : list Z; volumes : list Z;
    visible : nat -> Z -> Prop }.
  Definition nothing : scene := mk_scene [] [] [] [] [] [] (fun _ _ => False).
  (** Entity [t] of dimension [d] is in the geometry kernel. *)
  Definition entity (s : scene) (d : nat) (t : Z) : Prop :=
    match d with
    | 0 => In t (points s) | 1 => In t (map fst (lines s)) | 2 => In t (surfaces s) | 3 => In t (volumes s) | _ => False
    end.
  (** The line with number [|t|], read backwards when [t] is negative, goes from [a] to [b]. *)
  Definition runs (s : scene) (t a b : Z) : Prop :=
    ((0 < t)%Z /\ In (t, (a, b)) (lines s)) \/ ((t < 0)%Z /\ In ((- t)%Z, (b, a)) (lines s)).
  (** The signed lines follow each other from [a] to [b]. *)
  Fixpoint trail (s : scene) (a : Z) (l : list Z) (b : Z) : Prop :=
    match l with [] => a = b | t :: l' => exists c, runs s t a c /\ trail s c l' b end.
  Definition closed_trail (s : scene) (l : list Z) : Prop := l <> [] /\ exists a, trail s a l a.

  (** When a call is in order: the number is new, what it refers to exists, a curve loop is
      closed, and groups, embeddings and meshing constraints only use visible entities. *)
  Definition in_order (s : scene) (c : call P) : Prop :=
    match c with
    | AddPoint _ t => ~ In t (points s)
    | AddLine b e t => In b (points s) /\ In e (points s) /\ ~ In t (map fst (lines s))
    | AddCurveLoop l t => closed_trail s l /\ ~ In t (curve_loops s)
    | AddPlaneSurface l t => (forall x, In x l -> In x (curve_loops s)) /\ ~ In t (surfaces s)
    | AddSurfaceLoop l t => l <> [] /\ (forall x, In x l -> In x (surfaces s)) /\ ~ In t (surface_loops s)
    | AddVolume l t => (forall x, In x l -> In x (surface_loops s)) /\ ~ In t (volumes s)
    | Synchronize => True
    | AddPhysicalGroup d tags _ => forall x, In x tags -> visible s d x
    | Embed d tags d' t => (forall x, In x tags -> visible s d x) /\ visible s d' t
    | SetTransfiniteCurve t _ => visible s 1 t
    end.
  Definition after (s : scene) (c : call P) : scene :=
    match c with
    | AddPoint _ t => mk_scene (t :: points s) (lines s) (curve_loops s) (surfaces s) (surface_loops s) (volumes s) (visible s)
    | AddLine b e t => mk_scene (points s) ((t, (b, e)) :: lines s) (curve_loops s) (surfaces s) (surface_loops s) (volumes s) (visible s)
    | AddCurveLoop _ t => mk_scene (points s) (lines s) (t :: curve_loops s) (surfaces s) (surface_loops s) (volumes s) (visible s)
    | AddPlaneSurface _ t => mk_scene (points s) (lines s) (curve_loops s) (t :: surfaces s) (surface_loops s) (volumes s) (visible s)
    | AddSurfaceLoop _ t => mk_scene (points s) (lines s) (curve_loops s) (surfaces s) (t :: surface_loops s) (volumes s) (visible s)
    | AddVolume _ t => mk_scene (points s) (lines s) (curve_loops s) (surfaces s) (surface_loops s) (t :: volumes s) (visible s)
    | Synchronize => mk_scene (points s) (lines s) (curve_loops s) (surfaces s) (surface_loops s) (volumes s) (entity s)
    | _ => s
    end.
  Fixpoint accepted (s : scene) (l : list (call P)) : Prop :=
    match l with [] => True | c :: l' => in_order s c /\ accepted (after s c) l' end.

  (** ** Which domains *)
  (** The shapes which become entities: vertices and edges without immersed shapes, faces and
      solids. *)
  Definition elementary (D : domain P) (d : nat) (s : shape P) : Prop :=
    In s (nth d D []) /\ s_composite s = false /\ (d <= 1 -> immersed s = []).
  (** The number of a shape: after all shapes of lower dimensions, counted from one *)
  Definition number (D : domain P) (d : nat) (s : shape P) : Z := (Z.of_nat (length (concat (firstn d D))) + s_tag s + 1)%Z.
  (** The shapes standing for [s]: its immersed shapes if there are, else itself. *)
  Definition stands_for (s i : shape P) : Prop := In i (immersed s) \/ (immersed s = [] /\ i = s).
  (** A wire whose edges, in order, form a closed path which leaves the first edge through its
      end with the larger tag. *)
  Definition closed_wire (w : shape P) : Prop :=
    s_kind w = Wire /\
    exists a e v l, immersed w = map fst ((e, v) :: l) /\ walk a ((e, v) :: l) /\ (s_tag a < s_tag v)%Z /\
      last (map snd ((e, v) :: l)) a = a.
  (** Everything a shape of the domain refers to is in the domain. *)
  Definition complete_vertex (D : domain P) (v : shape P) : Prop :=
    s_point v <> None /\ forall i, In i (immersed v) -> elementary D 0 i.
  Definition complete_curve (D : domain P) (c : shape P) : Prop :=
    (forall v, In v (s_boundary c) -> elementary D 0 v) /\
    (s_composite c = false -> 2 <= length (s_boundary c)) /\
    (s_composite c = true -> immersed c <> []) /\
    (forall i, In i (immersed c) -> elementary D 1 i).
  (** A shape immersed in a face: the curves standing for it and its ends are in the domain. *)
  Definition complete_surface (D : domain P) (f : shape P) : Prop :=
    if s_composite f then s_phys f = None
    else (exists w r, s_boundary f = w :: r /\ closed_wire w /\ forall e, In e (immersed w) -> elementary D 1 e) /\
         forall c, In c (immersed f) -> (forall i, stands_for c i -> elementary D 1 i) /\ forall v, In v (s_boundary c) -> elementary D 0 v.
  Definition complete_volume (D : domain P) (s : shape P) : Prop :=
    if s_composite s then s_phys s = None
    else (exists shell r, s_boundary s = shell :: r /\ immersed shell <> [] /\ forall f, In f (immersed shell) -> elementary D 2 f) /\
         forall c, In c (immersed s) ->
           (immersed c = [] -> elementary D 2 c) /\ (forall i, In i (immersed c) -> elementary D 1 i) /\
           (forall w i, In w (s_boundary c) -> In i (immersed w) -> elementary D 1 i).
  Definition complete (dimension : nat) (D : domain P) : Prop :=
    length D = S dimension /\ Forall (fun l => l <> []) D /\ 1 <= dimension <= 3 /\
    (forall d s, In s (nth d D []) -> s_dim s = d /\ (0 <= s_tag s)%Z) /\ (forall d, NoDup (map s_tag (nth d D []))) /\
    Forall (complete_vertex D) (nth 0 D []) /\ Forall (complete_curve D) (nth 1 D []) /\
    Forall (complete_surface D) (nth 2 D []) /\ Forall (complete_volume D) (nth 3 D []).
  (** The entities in the group of [s]: vertices and curves may be represented by immersed ones. *)
  Definition represents (d : nat) (s i : shape P) : Prop := (d <= 1 /\ stands_for s i) \/ (2 <= d /\ i = s).
  (** [tags] are the numbers of the shapes satisfying [Q]. *)
  Definition numbers (D : domain P) (d : nat) (Q : shape P -> Prop) (tags : list Z) : Prop :=
    forall t, In t tags <-> exists i, Q i /\ t = number D d i.
  (** The ends of a curve without a physical tag *)
  Definition loose_ends (k v : shape P) : Prop := In v (s_boundary k) /\ s_phys v = None.
  (** The shapes meshed along with a face: the ends of the immersed curves and the curves
      standing for these; with a solid: the immersed faces, the curves of their wires and
      those immersed in them. *)
  Definition in_surface_0 (f i : shape P) : Prop := exists c, In c (immersed f) /\ In i (s_boundary c).
  Definition in_surface_1 (f i : shape P) : Prop := exists c, In c (immersed f) /\ stands_for c i.
  Definition in_volume_1 (b i : shape P) : Prop := exists c, In c (immersed b) /\ (In i (immersed c) \/ exists w, In w (s_boundary c) /\ In i (immersed w)).
  Definition in_volume_2 (b i : shape P) : Prop := In i (immersed b) /\ immersed i = [].
  (** Dimension and tag of the physical groups, in order *)
  Definition group_keys (l : list (call P)) : list (nat * Z) :=
    flat_map (fun c => match c with AddPhysicalGroup d _ p => [(d, p)] | _ => [] end) l.
  Definition phys_list (l : list (shape P)) : list Z := flat_map (fun s => match s_phys s with Some p => [p] | None => [] end) l.
  (** The domain of dimension one has its graph, and the graph has its tagged curves. *)
  Definition graph_ready (dimension : nat) (graph : option (digraph (Z * Z))) (D : domain P) : Prop :=
    dimension = 1 -> exists g, graph = Some g /\ forall c, In c (nth 1 D []) -> s_phys c <> None -> In (0%Z, s_tag c) (g_nodes g).
  (** Some wire of the graph contains the curve. *)
  Definition has_parent (graph : option (digraph (Z * Z))) (c : shape P) : Prop :=
    exists g x, graph = Some g /\ In (x, (0%Z, s_tag c)) (g_edges g).
  (** A curve which is not divided gets a group in dimension two, and in dimension one if it is
      not part of a wire. *)
  Definition counted (dimension : nat) (graph : option (digraph (Z * Z))) (d : nat) (s : shape P) : Prop :=
    d = 1 -> immersed s = [] -> dimension = 2 \/ (dimension = 1 /\ ~ has_parent graph s).
End Scene.
