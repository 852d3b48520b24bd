(** * Model of the circulation of an internal boundary, src/mesh/mesh.py:1442-1561

    Definitions only.  Python's recursion limit is the parameter [fuel] ([gfuel] for the
    construction of the graph). *)
From Coq Require Import List Arith ZArith Bool.
From Verif Require Import Base MeshModel GraphModel CutModel.
Import ListNotations.

(** [self.cells[idx[1]].material_id not in fracture_tags] *)
Definition on_skin (cs : cells) (tags : list Z) (u : vid) : res bool :=
  do c <- cell_of cs (snd u); Ok (negb (memb (c_mat c) (map Some tags))).
(** A comprehension whose condition may raise *)
Fixpoint filterM {A} (f : A -> res bool) (l : list A) : res (list A) :=
  match l with [] => Ok [] | x :: r => do b <- f x; do r' <- filterM f r; Ok (if b : bool then x :: r' else r') end.

(** next_d_m_1, lines 1442-1462, and next_d_m_1_cell, lines 1494-1520: the value is closed_q[0] *)
Fixpoint next_d_m_1 (fuel : nat) (cs : cells) (tags : list Z) (seed cell_id cell_m_1_id : vid) (g : digraph vid) : res bool :=
  match fuel with
  | 0 => Err RecursionError
  | S f =>
      do pc <- predecessors g cell_m_1_id;
      do neighs <- filterM (on_skin cs tags) pc;
      if negb (length neighs =? 2) then Err AssertionError else
      match filter (fun u => negb (eqb u cell_id)) neighs with
      | [fcell] =>
          do sc <- successors g fcell;
          match filter (fun u => negb (eqb u cell_m_1_id)) sc with
          | [next] => if eqb seed next then Ok true else next_d_m_1 f cs tags seed fcell next g
          | _ => Err AssertionError
          end
      | _ => Err AssertionError
      end
  end.

(** [l[0]] *)
Definition first {A} (l : list A) : res A := match l with [] => Err IndexError | x :: _ => Ok x end.

(** circulate_internal_bc, lines 1464-1492; the lines 1534-1561 of
    circulate_internal_bc_from_domain are the same *)
Definition circulate_internal_bc (gfuel fuel : nat) (cs : cells) (tags : list Z) : res bool :=
  do t0 <- first tags;
  do l <- all_cells cs;
  let cells_1d := map c_id (filter (fun c => eqb (c_mat c) (Some t0)) l) in
  do f_all <- mapM (cell_of cs) cells_1d;
  let f_cells := filter (fun c => c_dim c =? 1) f_all in
  do subs <- mapM (fun c => get_at (c_sub c) 0) f_cells;
  do f_vertices <- filterM (fun v => do c <- cell_of cs v; Ok (eqb (c_mat c) (Some t0))) (np_unique (concat subs));
  do graph <- build_graph_on_materials gfuel cs 1 1;
  do v0 <- first f_vertices;
  do c0 <- cell_of cs v0;
  let seed := (c_dim c0, v0) in
  do pc <- predecessors graph seed;
  do skin <- filterM (on_skin cs tags) pc;
  do s0 <- first skin;
  next_d_m_1 fuel cs tags seed s0 seed graph.

(** circulate_internal_bc_from_domain, lines 1522-1561: [immersed] are the physical tags of
    the immersed shapes of each top-dimensional shape of the domain *)
Definition circulate_internal_bc_from_domain (gfuel fuel : nat) (mesh_dim : nat) (immersed : list (list Z)) (cs : cells) : res bool :=
  if negb (mesh_dim =? 2) then Err AssertionError else
  match immersed with
  | [tags] => if length tags =? 0 then Ok true else circulate_internal_bc gfuel fuel cs tags
  | _ => Err AssertionError
  end.
