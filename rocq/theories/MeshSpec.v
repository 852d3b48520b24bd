(** * Specification vocabulary for meshes (independent of the construction code) *)
From Coq Require Import List Arith ZArith Bool Permutation Sorted.
From Verif Require Import Base MeshModel.
Import ListNotations.

(** Sub-entities of dimension [d] of the reference simplex of dimension [k], as lists of
    local vertex numbers, in the DefElement numbering: facet i is opposite to vertex i;
    the edges of the tetrahedron are 23,13,12,03,02,01; the only k-dimensional
    sub-entity is the simplex itself. *)
Definition ref_sub (k d : nat) : list (list nat) :=
  match k, d with
  | 0, 0 => [[0]]
  | 1, 0 => [[0]; [1]]
  | 1, 1 => [[0; 1]]
  | 2, 0 => [[0]; [1]; [2]]
  | 2, 1 => [[1; 2]; [0; 2]; [0; 1]]
  | 2, 2 => [[0; 1; 2]]
  | 3, 0 => [[0]; [1]; [2]; [3]]
  | 3, 1 => [[2; 3]; [1; 3]; [1; 2]; [0; 3]; [0; 2]; [0; 1]]
  | 3, 2 => [[1; 2; 3]; [0; 2; 3]; [0; 1; 3]; [0; 1; 2]]
  | 3, 3 => [[0; 1; 2; 3]]
  | _, _ => []
  end.

(** The nodes that a local sub-entity selects from a node list. *)
Definition select (nodes ix : list nat) : list nat := map (fun i => nth i nodes 0) ix.

(** Rows of the four simplex types have the number of nodes of their type
    (meshio stores them in arrays of that width). *)
Definition simplex_dim (k : kind) : option nat :=
  match k with
  | KVertex => Some 0 | KLine => Some 1 | KTriangle => Some 2 | KTetra => Some 3
  | KOther _ => None
  end.
Definition well_shaped (blocks : list block) : Prop :=
  (forall b k row, In b blocks -> simplex_dim (b_kind b) = Some k -> In row (b_rows b) ->
    length row = k + 1) /\
  (* "vertex" is the only 0-dimensional type of meshio *)
  (forall b, In b blocks -> b_kind b <> KOther 0).

(** Every block comes with one physical tag (possibly None) per row. *)
Definition fully_tagged (blocks : list block) (physical : list (list (option Z))) : Prop :=
  Forall2 (fun b p => length (b_rows b) = length p) blocks physical.

(** [key] is the sorted node list of some [d]-dimensional sub-entity of a cell of the
    input (of a cell of dimension at least 1). *)
Definition occurs (blocks : list block) (d : nat) (key : list nat) : Prop :=
  exists b k row ix,
    In b blocks /\ simplex_dim (b_kind b) = Some k /\ In row (b_rows b) /\
    In ix (ref_sub k d) /\ Sorted le key /\ Permutation key (select row ix).

(** The rows of the input in file order, with dimension and physical tag. *)
Definition input_rows (blocks : list block) (physical : list (list (option Z)))
  : list (nat * list nat * option Z) :=
  flat_map (fun bp => map (fun rp => (block_dim (fst bp), fst rp, snd rp))
                          (combine (b_rows (fst bp)) (snd bp)))
           (combine blocks physical).

(** [t] is the last tag that a list of rows gives to the [d]-cell with these nodes:
    either no row with a tag has this node set, or the list splits at the last one. *)
Definition tags_cell (d : nat) (nodes : list nat) (r : nat * list nat * option Z) (t : Z) : Prop :=
  fst (fst r) = d /\ Permutation (snd (fst r)) nodes /\ snd r = Some t.
Definition last_tag (rows : list (nat * list nat * option Z)) (d : nat) (nodes : list nat)
    (m : option Z) : Prop :=
  match m with
  | None => forall r t, In r rows -> ~ tags_cell d nodes r t
  | Some t => exists l1 r l2, rows = l1 ++ r :: l2 /\ tags_cell d nodes r t /\
                              forall r' t', In r' l2 -> ~ tags_cell d nodes r' t'
  end.

(** The cell stored at a position. *)
Definition cell_at (cs : cells) (i : nat) (c : cell) : Prop := nth_error cs i = Some (Some c).

(** Every stored cell carries its position as id. *)
Definition id_is_index (cs : cells) : Prop := forall i c, cell_at cs i c -> c_id c = i.

(** A mesh with closed incidence lists: ids are positions, every slot is filled, and
    each list of [d]-dimensional sub-cells refers to [d]-cells. *)
Definition closed_mesh (cs : cells) : Prop :=
  (forall i, i < length cs -> exists c, cell_at cs i c) /\
  (forall i c, cell_at cs i c ->
     c_id c = i /\ c_dim c <= 3 /\ length (c_sub c) = c_dim c + 1 /\
     forall d j, d <= c_dim c -> In j (nth d (c_sub c) []) ->
       exists c', cell_at cs j c' /\ c_dim c' = d).

(** Moreover each cell is its own only top-dimensional sub-cell. *)
Definition self_incident (cs : cells) : Prop :=
  forall i c, cell_at cs i c -> nth (c_dim c) (c_sub c) [] = [i].

(** Sub-cells of sub-cells are sub-cells. *)
Definition transitive_mesh (cs : cells) : Prop :=
  forall i c j c' d e, cell_at cs i c -> cell_at cs j c' -> d <= c_dim c -> e <= d ->
    In j (nth d (c_sub c) []) -> incl (nth e (c_sub c') []) (nth e (c_sub c) []).

(** No sub-cell is listed twice. *)
Definition distinct_subs (cs : cells) : Prop :=
  forall i c d, cell_at cs i c -> d <= c_dim c -> NoDup (nth d (c_sub c) []).

(** Each cell has as many sub-cells of each dimension as the reference simplex. *)
Definition simplicial (cs : cells) : Prop :=
  forall i c d, cell_at cs i c -> d <= c_dim c ->
    length (nth d (c_sub c) []) = length (ref_sub (c_dim c) d).

(** What the rest of the library relies on. *)
Definition good_mesh (cs : cells) : Prop :=
  closed_mesh cs /\ self_incident cs /\ transitive_mesh cs /\ distinct_subs cs /\ simplicial cs.

(** Input conditions under which the constructed mesh is good: every point is used by
    some cell, and no cell lists a node twice. *)
Definition all_points_used (np : nat) (blocks : list block) (physical : list (list (option Z))) : Prop :=
  forall i, i < np -> exists d row t, In (d, row, t) (input_rows blocks physical) /\ d <= 3 /\ In i row.
Definition distinct_nodes (blocks : list block) : Prop :=
  forall b row, In b blocks -> In row (b_rows b) -> NoDup row.
