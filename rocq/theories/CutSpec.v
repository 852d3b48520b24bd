(** * Specification vocabulary for cutting a mesh *)
From Coq Require Import List Arith ZArith Bool Sorted.
From Verif Require Import Base MeshModel MeshSpec CutModel.
Import ListNotations.

(** Every slot is filled, ids are positions, and the sub-cell lists below the top dimension
    refer to cells of the right dimension. *)
Definition layered_mesh (cs : cells) : Prop :=
  (forall i, i < length cs -> exists c, cell_at cs i c) /\
  (forall i c, cell_at cs i c ->
     c_id c = i /\ c_dim c <= 3 /\ length (c_sub c) = c_dim c + 1 /\
     forall d j, d < c_dim c -> In j (nth d (c_sub c) []) -> exists c', cell_at cs j c' /\ c_dim c' = d).
(** Each vertex has one node, different vertices have different nodes, and edges and
    triangles list the nodes of their vertices in the same order as the vertices. *)
Definition aligned_mesh (cs : cells) : Prop :=
  (forall i c, cell_at cs i c -> c_dim c = 0 -> exists t, c_nodes c = [t]) /\
  (forall i c j c', cell_at cs i c -> cell_at cs j c' -> c_dim c = 0 -> c_dim c' = 0 ->
     c_nodes c = c_nodes c' -> i = j) /\
  (forall i c, cell_at cs i c -> c_dim c = 1 \/ c_dim c = 2 ->
     Forall2 (fun v t => exists c', cell_at cs v c' /\ c_nodes c' = [t]) (nth 0 (c_sub c) []) (c_nodes c)).

(** [l] lists the numbers with property [Q] in increasing order. *)
Definition increasing_list (l : list nat) (Q : nat -> Prop) : Prop :=
  StronglySorted lt l /\ forall i, In i l <-> Q i.

(** The k-th entry of [old] becomes [base + k], other numbers stay. *)
Fixpoint pos (x : nat) (l : list nat) : option nat :=
  match l with [] => None | y :: l' => if x =? y then Some 0 else option_map S (pos x l') end.
Definition relabel (old : list nat) (base x : nat) : nat :=
  match pos x old with Some k => base + k | None => x end.

(** [Q] occurs in a map applied to a list: used for update_entity_with_dimension *)
Definition image (m : dict nat nat) (x : nat) : nat := match dget m x with Some y => y | None => x end.

Section Spec.
  Variable P : Type.

  Definition interface_edge (cs : cells) (tag : Z) (e : nat) : Prop :=
    exists c, cell_at cs e c /\ c_dim c = 1 /\ c_mat c = Some tag.
  (** vertices of interface edges, except those that carry the tag of the interface *)
  Definition duplicated_vertex (cs : cells) (tag : Z) (v : nat) : Prop :=
    exists e c cv, interface_edge cs tag e /\ cell_at cs e c /\ In v (nth 0 (c_sub c) []) /\
      cell_at cs v cv /\ c_mat cv <> Some tag.

  Definition on_side (m : mesh P) (f : interface P) (c : cell) (q : bool) : Prop :=
    exists pts, Forall2 (fun t x => nth_error (m_points P m) t = Some x) (c_nodes c) pts /\ if_side P f pts = q.

  (** Cells touched by the interface: triangles with an interface edge, triangles and other
      edges with a duplicated vertex. *)
  Definition touched (F V : list nat) (i : nat) (c : cell) : Prop :=
    (c_dim c = 2 /\ exists e, In e F /\ In e (nth 1 (c_sub c) [])) \/
    ((c_dim c = 1 \/ c_dim c = 2) /\ ~ In i F /\ exists v, In v V /\ In v (nth 0 (c_sub c) [])).

  (** What cutting along one interface does.  [F]: its edges, [V]: its duplicated vertices,
      [T]: their nodes, [N]: the coordinates of these. *)
  Record cut_effect (f : interface P) (m m' : mesh P) (F V T : list nat) (N : list P) : Prop := {
    ce_F : increasing_list F (interface_edge (m_cells P m) (if_tag P f));
    ce_V : increasing_list V (duplicated_vertex (m_cells P m) (if_tag P f));
    ce_T : Forall2 (fun v t => exists c, cell_at (m_cells P m) v c /\ c_nodes c = [t]) V T;
    ce_N : Forall2 (fun t x => nth_error (m_points P m) t = Some x) T N;
    ce_points : m_points P m' = m_points P m ++ N ++ N;
    ce_length : length (m_cells P m') = length (m_cells P m) + 2 * length F + 2 * length V;
    (** old cells *)
    ce_old : forall i c, cell_at (m_cells P m) i c -> exists c' q,
      cell_at (m_cells P m') i c' /\ c_dim c' = c_dim c /\ c_id c' = c_id c /\ c_mat c' = c_mat c /\
      length (c_sub c') = length (c_sub c) /\
      (touched F V i c -> on_side m f c q) /\
      (c_dim c = 2 -> nth 1 (c_sub c') [] =
         map (relabel F (length (m_cells P m) + if q then 0 else length F)) (nth 1 (c_sub c) [])) /\
      ((c_dim c = 1 \/ c_dim c = 2) -> ~ In i F ->
         nth 0 (c_sub c') [] = map (relabel V (length (m_cells P m) + 2 * length F + if q then 0 else length V))
                                   (nth 0 (c_sub c) []) /\
         c_nodes c' = map (relabel T (length (m_points P m) + if q then 0 else length V)) (c_nodes c)) /\
      (c_dim c = 0 \/ c_dim c = 3 \/ In i F -> c' = c) /\
      nth (c_dim c) (c_sub c') [] = nth (c_dim c) (c_sub c) [];
    (** the two copies of each interface edge: positive ([q] = true) and negative *)
    ce_edges : forall (q : bool) k e c, nth_error F k = Some e -> cell_at (m_cells P m) e c ->
      let i := length (m_cells P m) + (if q then 0 else length F) + k in
      cell_at (m_cells P m') i
        (mk_cell 1 i (map (relabel T (length (m_points P m) + if q then 0 else length V)) (c_nodes c))
           (Some (if q then 1000 * if_tag P f + 1 else 1000 * if_tag P f - 1)%Z)
           [map (relabel V (length (m_cells P m) + 2 * length F + if q then 0 else length V)) (nth 0 (c_sub c) []); [i; e]]);
    (** the two copies of each duplicated vertex *)
    ce_vertices : forall (q : bool) k v c, nth_error V k = Some v -> cell_at (m_cells P m) v c ->
      let i := length (m_cells P m) + 2 * length F + (if q then 0 else length V) + k in
      let t := length (m_points P m) + (if q then 0 else length V) + k in
      cell_at (m_cells P m') i
        (mk_cell 0 i [t]
           (match c_mat c with
            | None => None
            | Some _ => Some (if q then 1000 * if_tag P f + 1 else 1000 * if_tag P f - 1)%Z
            end) [[t]]) }.

  (** The meshes on which the cut is studied. *)
  Definition cut_ready (m : mesh P) : Prop :=
    layered_mesh (m_cells P m) /\ aligned_mesh (m_cells P m) /\
    (forall i c t, cell_at (m_cells P m) i c -> In t (c_nodes c) -> t < length (m_points P m)).

  (** A run over a list of interfaces. *)
  Inductive cut_run : mesh P -> list (interface P) -> mesh P -> Prop :=
  | run_nil : forall m, cut_run m [] m
  | run_cons : forall m f m1 fs m2 F V T N,
      cut_effect f m m1 F V T N -> cut_run m1 fs m2 -> cut_run m (f :: fs) m2.

  (** Interfaces that can be cut: each interface edge and each duplicated vertex is listed
      by a triangle. *)
  Definition cuttable (m : mesh P) (tag : Z) : Prop :=
    (forall e, interface_edge (m_cells P m) tag e ->
       exists i c, cell_at (m_cells P m) i c /\ c_dim c = 2 /\ In e (nth 1 (c_sub c) [])) /\
    (forall v, duplicated_vertex (m_cells P m) tag v ->
       exists i c, cell_at (m_cells P m) i c /\ c_dim c = 2 /\ In v (nth 0 (c_sub c) [])).
End Spec.
