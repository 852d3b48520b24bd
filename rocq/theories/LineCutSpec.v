(** * Specification vocabulary for cutting a mesh along lines *)
From Coq Require Import List Arith ZArith Bool Sorted.
From Verif Require Import Base MeshModel MeshSpec CutModel CutSpec LineCutModel.
Import ListNotations.

(** No sub-cell is listed twice (below the top dimension). *)
Definition no_repeats (cs : cells) : Prop :=
  forall i c d, cell_at cs i c -> d < c_dim c -> NoDup (nth d (c_sub c) []).

(** The tag of a copy *)
Definition copy_tag (t : tags) (m : option Z) : option Z :=
  if eqb m (Some (t_point t)) then Some (t_point_clones t)
  else if eqb m (Some (t_line t)) then Some (t_line_clones t) else m.

Section Spec.
  Variable P : Type.

  (** Meshes as the cut needs them; only edges carry the tag of the lines. *)
  Definition line_ready (t : tags) (m : mesh P) : Prop :=
    cut_ready P m /\ no_repeats (m_cells P m) /\
    forall i c, cell_at (m_cells P m) i c -> c_mat c = Some (t_line t) -> c_dim c = 1.

  (** [pts] are the coordinates of the nodes of [c]. *)
  Definition has_points (m : mesh P) (c : cell) (pts : list P) : Prop :=
    Forall2 (fun t x => nth_error (m_points P m) t = Some x) (c_nodes c) pts.
  Definition side_of (m : mesh P) (ln : line P) (c : cell) (s : comparison) : Prop :=
    exists pts, has_points m c pts /\ l_side P ln pts = s.
  (** The edges that are cut and the vertices that are duplicated. *)
  Definition line_edge (t : tags) (m : mesh P) (ln : line P) (e : nat) : Prop :=
    exists c pts, cell_at (m_cells P m) e c /\ c_mat c = Some (t_line t) /\ has_points m c pts /\ l_on P ln pts = true.
  Definition line_vertex (t : tags) (m : mesh P) (ln : line P) (v : nat) : Prop :=
    exists e c cv, line_edge t m ln e /\ cell_at (m_cells P m) e c /\ In v (nth 0 (c_sub c) []) /\
      cell_at (m_cells P m) v cv /\ c_mat cv <> Some (t_internal t).

  (** Where the copies of a side are: the positive ones ([q] = true) come first, edges before
      vertices. *)
  Definition edge_base (m : mesh P) (F V : list nat) (q : bool) : nat :=
    length (m_cells P m) + if q then 0 else length F + length V.
  Definition vertex_base (m : mesh P) (F V : list nat) (q : bool) : nat :=
    length (m_cells P m) + length F + if q then 0 else length F + length V.
  Definition node_base (m : mesh P) (V : list nat) (q : bool) : nat :=
    length (m_points P m) + if q then 0 else length V.
  (** A cell moved to side [q] *)
  Definition moved (m : mesh P) (F V T : list nat) (q : bool) (c : cell) : cell :=
    mk_cell (c_dim c) (c_id c) (map (relabel T (node_base m V q)) (c_nodes c)) (c_mat c)
      (match c_sub c with
       | [vs; es; own] => [map (relabel V (vertex_base m F V q)) vs; map (relabel F (edge_base m F V q)) es; own]
       | [vs; own] => [map (relabel V (vertex_base m F V q)) vs; own]
       | l => l
       end).
  Definition lists_one (V : list nat) (c : cell) : Prop := exists v, In v V /\ In v (nth 0 (c_sub c) []).

  (** What cutting along one line does.  [F]: the cut edges, [V]: the duplicated vertices,
      [T]: their nodes, [N]: the coordinates of these. *)
  Record line_effect (t : tags) (ln : line P) (m m' : mesh P) (F V T : list nat) (N : list P) : Prop := {
    le_F : increasing_list F (line_edge t m ln);
    le_V : increasing_list V (line_vertex t m ln);
    le_T : Forall2 (fun v t => exists c, cell_at (m_cells P m) v c /\ c_nodes c = [t]) V T;
    le_N : Forall2 (fun t x => nth_error (m_points P m) t = Some x) T N;
    le_points : m_points P m' = m_points P m ++ map (l_bump P ln true) N ++ map (l_bump P ln false) N;
    le_length : length (m_cells P m') = length (m_cells P m) + 2 * (length F + length V);
    (** edges and triangles with a duplicated vertex move to their side, everything else stays *)
    le_moved : forall i c (q : bool), cell_at (m_cells P m) i c -> c_dim c = 1 \/ c_dim c = 2 -> lists_one V c ->
      side_of m ln c (if q then Gt else Lt) -> cell_at (m_cells P m') i (moved m F V T q c);
    le_kept : forall i c, cell_at (m_cells P m) i c ->
      c_dim c = 0 \/ c_dim c = 3 \/ ~ lists_one V c \/ side_of m ln c Eq -> cell_at (m_cells P m') i c;
    (** the copies of the edges and of the vertices *)
    le_edges : forall (q : bool) k e c, nth_error F k = Some e -> cell_at (m_cells P m) e c ->
      let i := edge_base m F V q + k in
      cell_at (m_cells P m') i
        (mk_cell 1 i (map (relabel T (node_base m V q)) (c_nodes c)) (copy_tag t (c_mat c))
           [map (relabel V (vertex_base m F V q)) (nth 0 (c_sub c) []); [i]]);
    le_vertices : forall (q : bool) k v c, nth_error V k = Some v -> cell_at (m_cells P m) v c ->
      let i := vertex_base m F V q + k in
      cell_at (m_cells P m') i (mk_cell 0 i [node_base m V q + k] (copy_tag t (c_mat c)) [[i]]) }.

  (** The returned description of the interface *)
  Definition interface_spec (m : mesh P) (F V : list nat) (f : interface_of) : Prop :=
    i_c1 f = (F, seq (edge_base m F V true) (length F), seq (edge_base m F V false) (length F)) /\
    i_c2 f = (V, seq (vertex_base m F V true) (length V), seq (vertex_base m F V false) (length V)).

  (** A run over a list of lines. *)
  Inductive line_run (t : tags) : mesh P -> list (line P) -> mesh P -> list interface_of -> Prop :=
  | line_nil : forall m, line_run t m [] m []
  | line_cons : forall m ln m1 lns m2 F V T N f fs,
      line_effect t ln m m1 F V T N -> interface_spec m F V f -> line_run t m1 lns m2 fs ->
      line_run t m (ln :: lns) m2 (f :: fs).

  (** When the cut goes through: there is something to cut, each duplicated vertex belongs to
      an edge and a triangle strictly on each side, and each cut edge to a triangle strictly on
      each side that has a duplicated vertex. *)
  Definition line_cuttable (t : tags) (m : mesh P) (ln : line P) : Prop :=
    (exists v, line_vertex t m ln v) /\
    (forall v s k, line_vertex t m ln v -> s <> Eq -> k = 1 \/ k = 2 ->
       exists i c, cell_at (m_cells P m) i c /\ c_dim c = k /\ In v (nth 0 (c_sub c) []) /\ side_of m ln c s) /\
    (forall e s, line_edge t m ln e -> s <> Eq ->
       exists i c v, cell_at (m_cells P m) i c /\ c_dim c = 2 /\ In e (nth 1 (c_sub c) []) /\ side_of m ln c s /\
         line_vertex t m ln v /\ In v (nth 0 (c_sub c) [])).
End Spec.
