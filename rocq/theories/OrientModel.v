(** * Model of src/basis/permute_and_transform.py:8-149 and of
    FiniteElement._fill_element_bc_entity_data, src/basis/finite_element.py:112-119

    Definitions only.  Simplifications: the rows of [phi] that belong to one edge (face) are
    one element of a type [E] ([F]); the matrices [transformations["interval"][0]] and
    [transformations["triangle"]] are elements of a type [M] with a product [mul] and a unit
    [one], applied to rows by [act_e] ([act_f]); the loops over derivatives [d] and components
    [dim] apply the same matrix to each slice and are part of [act_e] ([act_f]). *)
From Coq Require Import List Arith ZArith Bool.
From Verif Require Import Base MeshModel GraphModel.
Import ListNotations.

(** [list(permutations(l))] of itertools: lexicographic in the positions *)
Fixpoint picks {A} (l : list A) : list (A * list A) :=
  match l with
  | [] => []
  | x :: l' => (x, l') :: map (fun p => (fst p, x :: snd p)) (picks l')
  end.
Fixpoint permutations_of (n : nat) (l : list nat) : list (list nat) :=
  match n with
  | 0 => [[]]
  | S n' => flat_map (fun p => map (cons (fst p)) (permutations_of n' (snd p))) (picks l)
  end.
Definition permutations (l : list nat) : list (list nat) := permutations_of (length l) l.

(** [a[con]] with an index array *)
Definition take {A} (a : list A) (con : list nat) : res (list A) := mapM (get_at a) con.

(** permute_and_transform.py:9-12, 41-47, 61-65 *)
Definition triangle_edges : list (list nat) := [[1; 2]; [0; 2]; [0; 1]].
Definition tetra_edges : list (list nat) := [[2; 3]; [1; 3]; [1; 2]; [0; 3]; [0; 2]; [0; 1]].
Definition tetra_faces : list (list nat) := [[1; 2; 3]; [0; 2; 3]; [0; 1; 3]; [0; 1; 2]].

(** [enumerate(l)] *)
Definition enumerate {A} (l : list A) : list (nat * A) := combine (seq 0 (length l)) l.

(** [data.mesh.cells[data.cell.sub_cells_ids[1][i]].node_tags], permute_and_transform.py:16, 52 *)
Definition sub_edge_nodes (cs : cells) (c : cell) (i : nat) : res (list nat) :=
  do subs <- get_at (c_sub c) 1;
  do id <- get_at subs i;
  do e <- cell_of cs id;
  Ok (c_nodes e).

(** _validate_edge_orientation_2d, permute_and_transform.py:8-19: the three edges are indexed
    first *)
Definition edge_orientation_2d (cs : cells) (c : cell) : res (list bool) :=
  do edges <- mapM (take (c_nodes c)) triangle_edges;
  mapM (fun ie => do v <- sub_edge_nodes cs c (fst ie); Ok (eqb (snd ie) v)) (enumerate edges).

(** _validate_edge_orientation_3d, permute_and_transform.py:39-57 *)
Definition edge_orientation_3d (cs : cells) (c : cell) : res (list bool) :=
  mapM (fun ic => do edge <- take (c_nodes c) (snd ic);
                  do v <- sub_edge_nodes cs c (fst ic);
                  Ok (eqb edge (sort_nat v))) (enumerate tetra_edges).

(** The table of permute_and_transform.py:86-104: (rotations, reflections) *)
Definition rotations_reflections (position : nat) : nat * nat :=
  match position with
  | 0 => (0, 0) | 1 => (0, 1) | 2 => (2, 1) | 3 => (1, 0) | 4 => (2, 0) | 5 => (1, 1)
  | _ => (0, 0)
  end.
(** One round of the loop of _validate_face_orientation_3d, permute_and_transform.py:70-110:
    (orientation[i], rotations[i], reflections[i]) *)
Definition face_orientation (nodes : list nat) (bc : list bool) (i : nat) (con : list nat) : res (bool * nat * nat) :=
  do face <- take nodes con;
  let face_ref := sort_nat face in
  do (o, r, s) <-
    (if eqb face_ref face then Ok (true, 0, 0)
     else
       match map fst (filter (fun kp => eqb (snd kp) face) (enumerate (permutations face_ref))) with
       | [position] => if position =? 0 then Err AssertionError
                       else Ok (let (r, s) := rotations_reflections position in (false, r, s))
       | _ => Err AssertionError
       end);
  do b <- get_at bc i;
  Ok (if b && memb i [1; 3] then (false, r, 1) else (o, r, s)).
(** _validate_face_orientation_3d, permute_and_transform.py:60-112 *)
Definition face_orientation_3d (nodes : list nat) (bc : list bool) : res (list (bool * nat * nat)) :=
  mapM (fun ic => face_orientation nodes bc (fst ic) (snd ic)) (enumerate tetra_faces).

(** FiniteElement._fill_element_bc_entity_data, finite_element.py:112-119, for cells of
    dimension at least 1 *)
Definition bc_entities (cs : cells) (c : cell) : res (list bool) :=
  do subs <- get_at (c_sub c) (c_dim c - 1);
  mapM (fun id => do f <- cell_of cs id; Ok (match c_mat f with Some _ => true | None => false end)) subs.

Section Transform.
  Variable M E F : Type.
  Variable mul : M -> M -> M.
  Variable one : M.
  Variable act_e : M -> E -> E.
  Variable act_f : M -> F -> F.
  Variable rotate_t reflect_t : M.       (* transformations["triangle"] *)
  Variable reflect_e : M.                (* transformations["interval"][0] *)

  (** [for i in range(n): t = m @ t] *)
  Fixpoint times (n : nat) (m t : M) : M := match n with 0 => t | S n' => times n' m (mul m t) end.
  (** permute_and_transform.py:120-130 *)
  Definition transform_face (o : bool * nat * nat) (x : F) : F :=
    let '(oriented, r, s) := o in
    if oriented then x else act_f (times s reflect_t (times r rotate_t one)) x.
  (** permute_and_transform.py:26-34, 137-143 *)
  Definition transform_edge (oriented : bool) (x : E) : E := if oriented then x else act_e reflect_e x.

  (** Rows of one cell: per edge and per face (other rows are never changed). *)
  Record rows : Type := mk_rows { r_edges : list E; r_faces : list F }.
  (** [for index, check in enumerate(q): if not check: phi[.., entity_dofs[index], ..] = ..];
      as many entities as entries of [q] *)
  Definition update_rows {A B} (f : B -> A -> A) (q : list B) (l : list A) : list A :=
    map (fun bx => f (fst bx) (snd bx)) (combine q l).

  (** _permute_and_transform_2d / _3d / permute_and_transform, permute_and_transform.py:22-36,
      115-149 *)
  Definition permute_and_transform (identity_q : bool) (cs : cells) (c : cell) (bc : list bool) (phi : rows) : res rows :=
    if c_dim c =? 2 then
      if identity_q then Ok phi
      else do q <- edge_orientation_2d cs c; Ok (mk_rows (update_rows transform_edge q (r_edges phi)) (r_faces phi))
    else if c_dim c =? 3 then
      if identity_q then Ok phi
      else
        do qf <- face_orientation_3d (c_nodes c) bc;
        do qe <- edge_orientation_3d cs c;
        Ok (mk_rows (update_rows transform_edge qe (r_edges phi)) (update_rows transform_face qf (r_faces phi)))
    else Ok phi.
End Transform.
