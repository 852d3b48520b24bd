(** * Model of src/mesh/mesh_coloring.py

    Definitions only.  nx.coloring.equitable_color is a parameter: a dictionary from the
    nodes of the graph to colours, or an exception. *)
From Coq Require Import List Arith ZArith Bool.
From Verif Require Import Base MeshModel GraphModel CutModel.
Import ListNotations.

(** A dictionary key: an integer, or the pair (dimension, id) which names a graph node *)
Inductive key : Type := Int (i : nat) | Pair (v : vid).
(** [item[0] in c0_entities], line 16: a tuple never equals an integer *)
Definition key_in (k : key) (ids : list nat) : bool := match k with Int i => memb i ids | Pair _ => false end.
(** an entry of the array made at line 17; a row with a tuple is ragged *)
Definition row (it : key * nat) : res (nat * nat) := match fst it with Int i => Ok (i, snd it) | Pair _ => Err ValueError end.

(** position of [x] in [l]: [return_inverse], line 20 *)
Fixpoint position (x : nat) (l : list nat) : nat :=
  match l with [] => 0 | y :: r => if x =? y then 0 else S (position x r) end.
(** Lines 27-34 *)
Definition collect (d : dict nat (list nat)) (it : nat * nat) : dict nat (list nat) :=
  match dget d (snd it) with None => dset d (snd it) [fst it] | Some chunk => dset d (snd it) (chunk ++ [fst it]) end.
(** coloring_mesh_by_co_dimension after the colouring, lines 16-36 *)
Definition color_maps (c0 : list nat) (rcoloring : list (key * nat)) : res (dict nat nat * dict nat (list nat)) :=
  let colored := filter (fun it => key_in (fst it) c0) rcoloring in
  if length colored =? 0 then Err ValueError (* np.vstack of nothing *) else
  do rows <- mapM row colored;
  let base := np_unique (map snd rows) in
  let entity_to_color := dict_of (map (fun r => (fst r, position (snd r) base)) rows) in
  Ok (entity_to_color, fold_left collect entity_to_color []).

(** [self.entity_maps[dim_gap]], mesh_topology.py:49-52: a negative position counts from the
    end *)
Definition entity_map_by_codimension (t : topology) (co : nat) : res (digraph vid) :=
  let gap := (Z.of_nat (t_dim t) - Z.of_nat co)%Z in
  if (gap <? 0)%Z then if (gap + Z.of_nat (length (t_maps t)) <? 0)%Z then Err IndexError
                       else get_at (t_maps t) (Z.to_nat (gap + Z.of_nat (length (t_maps t))))
  else get_at (t_maps t) (Z.to_nat gap).
(** [map.reverse(copy=False)], line 12 *)
Definition reverse {V} (g : digraph V) : digraph V := mk_digraph (g_nodes g) (map (fun a => (snd a, fst a)) (g_edges g)).

(** coloring_mesh_by_co_dimension, lines 7-36 *)
Definition coloring_mesh (equitable_color : digraph vid -> nat -> res (list (vid * nat)))
    (fuel n_colors : nat) (cs : cells) (mesh_dim dim co : nat) : res (dict nat nat * dict nat (list nat)) :=
  do t <- build_data fuel cs mesh_dim dim;
  do g <- entity_map_by_codimension t co;
  do rcoloring <- equitable_color (reverse g) n_colors;
  do l <- all_cells cs;
  let c0 := map c_id (filter (fun c => c_dim c =? dim) l) in
  color_maps c0 (map (fun it => (Pair (fst it), snd it)) rcoloring).
