(** * Specification vocabulary for cutting a mesh along fractures (as CutSpec, with the tags and
    sub-cell lists of this function) *)
From Coq Require Import List Arith ZArith Bool.
From Verif Require Import Base MeshModel MeshSpec CutModel CutSpec.
Import ListNotations.

Section Spec.
  Variable P : Type.

  (** What cutting along one fracture does.  [F]: its edges, [V]: its duplicated vertices,
      [T]: their nodes, [N]: the coordinates of these. *)
  Record frac_effect (f : interface P) (m m' : mesh P) (F V T : list nat) (N : list P) : Prop := {
    fe_F : increasing_list F (interface_edge (m_cells P m) (if_tag P f));
    fe_V : increasing_list V (duplicated_vertex (m_cells P m) (if_tag P f));
    fe_T : Forall2 (fun v t => exists c, cell_at (m_cells P m) v c /\ c_nodes c = [t]) V T;
    fe_N : Forall2 (fun t x => nth_error (m_points P m) t = Some x) T N;
    fe_points : m_points P m' = m_points P m ++ N ++ N;
    fe_length : length (m_cells P m') = length (m_cells P m) + 2 * length F + 2 * length V;
    (** old cells *)
    fe_old : forall i c, cell_at (m_cells P m) i c -> exists c' q,
      cell_at (m_cells P m') i c' /\ c_dim c' = c_dim c /\ c_id c' = c_id c /\ c_mat c' = c_mat c /\
      length (c_sub c') = length (c_sub c) /\
      (touched F V i c -> on_side P m f c q) /\
      (c_dim c = 2 -> nth 1 (c_sub c') [] =
         map (relabel F (length (m_cells P m) + if q then 0 else length F)) (nth 1 (c_sub c) [])) /\
      ((c_dim c = 1 \/ c_dim c = 2) -> ~ In i F ->
         nth 0 (c_sub c') [] = map (relabel V (length (m_cells P m) + 2 * length F + if q then 0 else length V))
                                   (nth 0 (c_sub c) []) /\
         c_nodes c' = map (relabel T (length (m_points P m) + if q then 0 else length V)) (c_nodes c)) /\
      (c_dim c = 0 \/ c_dim c = 3 \/ In i F -> c' = c) /\
      nth (c_dim c) (c_sub c') [] = nth (c_dim c) (c_sub c) [];
    (** the two copies of each interface edge: positive ([q] = true) and negative *)
    fe_edges : forall (q : bool) k e c, nth_error F k = Some e -> cell_at (m_cells P m) e c ->
      let i := length (m_cells P m) + (if q then 0 else length F) + k in
      cell_at (m_cells P m') i
        (mk_cell 1 i (map (relabel T (length (m_points P m) + if q then 0 else length V)) (c_nodes c))
           (Some (if q then 10 * if_tag P f + 1 else 10 * if_tag P f - 1)%Z)
           [map (relabel V (length (m_cells P m) + 2 * length F + if q then 0 else length V)) (nth 0 (c_sub c) []); [i]]);
    (** the two copies of each duplicated vertex *)
    fe_vertices : forall (q : bool) k v c, nth_error V k = Some v -> cell_at (m_cells P m) v c ->
      let i := length (m_cells P m) + 2 * length F + (if q then 0 else length V) + k in
      let t := length (m_points P m) + (if q then 0 else length V) + k in
      cell_at (m_cells P m') i
        (mk_cell 0 i [t]
           (match c_mat c with
            | None => None
            | Some _ => Some (if q then 10 * if_tag P f + 1 else 10 * if_tag P f - 1)%Z
            end) [[t]]) }.

  (** A run over a list of fractures. *)
  Inductive frac_run : mesh P -> list (interface P) -> mesh P -> Prop :=
  | frac_nil : forall m, frac_run m [] m
  | frac_cons : forall m f m1 fs m2 F V T N,
      frac_effect f m m1 F V T N -> frac_run m1 fs m2 -> frac_run m (f :: fs) m2.
End Spec.
