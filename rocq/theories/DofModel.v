(** * Model of DoFMap: src/spaces/dof_map.py

    Definitions only.  [layout] is [ref_element.num_entity_dofs] (basix): for each
    dimension the list of the numbers of DoFs of the sub-entities of the reference cell.
    Simplification: numpy's error on ragged nested lists is not modelled (the lists of
    one dimension all have the same length). *)
From Coq Require Import List Arith ZArith Bool.
From Verif Require Import Base MeshModel GraphModel.
Import ListNotations.

(** DoFMap attributes, dof_map.py:15-28: [dm_maps] = [vertex_map; edge_map; face_map;
    volume_map]. *)
Record dofmap : Type := mk_dofmap {
  dm_topo : topology; dm_layout : list (list nat); dm_dim : nat;
  dm_maps : list (dict nat (list Z)); dm_n : Z }.

(** [int(np.mean(l))]: the mean of an empty list is nan, whose int() raises ValueError. *)
Definition int_mean (l : list nat) : res nat :=
  match l with [] => Err ValueError | _ => Ok (list_sum l / length l) end.

(** [range(a, b)] as an array *)
Definition zrange (a b : Z) : list Z :=
  map (fun k => a + Z.of_nat k)%Z (seq 0 (Z.to_nat (b - a))).

(** [np.split(a, n)] for n > 0: n pieces of equal length, ValueError if impossible *)
Fixpoint chunks {A} (size n : nat) (l : list A) : list (list A) :=
  match n with 0 => [] | S n' => firstn size l :: chunks size n' (skipn size l) end.
Definition np_split {A} (l : list A) (n : nat) : res (list (list A)) :=
  if length l mod n =? 0 then Ok (chunks (length l / n) n l) else Err ValueError.

(** dof_map.py:69-71: [entity_support[dim] *= e_dofs * n_components] for the dimensions
    of the layout (IndexError beyond the four entries). *)
Fixpoint scale_support (layout : list (list nat)) (comps : nat) (support : list nat)
  : res (list nat) :=
  match layout, support with
  | [], _ => Ok support
  | _ :: _, [] => Err IndexError
  | l :: layout', s :: support' =>
      do e <- int_mean l;
      do rest <- scale_support layout' comps support';
      Ok ((s * (e * comps)) :: rest)
  end.

(** dof_map.py:86-95 (and 97-128): [if len(ids) != 0: map = dict(zip(ids, np.split(...)))];
    otherwise the map stays empty. *)
Definition entity_map (ids : list nat) (a b : Z) : res (dict nat (list Z)) :=
  if length ids =? 0 then Ok [] else
  do parts <- np_split (zrange a b) (length ids);
  Ok (dict_of (combine ids parts)).

(** The ids of the entities by dimension, dof_map.py:41-61: empty above [dim]. *)
Definition support_ids (t : topology) (dim : nat) : res (list (list nat)) :=
  if 3 <? dim then Err ValueError else
  mapM (fun d => if d <=? dim then entities_by_dimension t d else Ok []) (seq 0 4).

(** DoFMap.build_entity_maps, dof_map.py:38-129 *)
Definition build_entity_maps (t : topology) (layout : list (list nat)) (dim comps : nat) (shift : Z)
  : res dofmap :=
  do ids <- support_ids t dim;
  do support <- scale_support layout comps (map (@length nat) ids);
  (* np.add.accumulate([0, s0, s1, s2, s3]) + shift, lines 74-84 *)
  let gi := map (fun x => Z.of_nat x + shift)%Z (accumulate (0 :: support)) in
  do maps <- mapM (fun d =>
      do i <- get_at ids d; do a <- get_at gi d; do b <- get_at gi (d + 1);
      entity_map i a b) (seq 0 4);
  Ok (mk_dofmap t layout dim maps (Z.of_nat (list_sum support))).

(** DoFMap.dof_number, dof_map.py:131-132 *)
Definition dof_number (m : dofmap) : Z := dm_n m.

(** [entity_maps[d].get(id)] put into an integer array: None raises TypeError. *)
Definition dofs_of (m : dofmap) (d id : nat) : res (list Z) :=
  do em <- get_at (dm_maps m) d;
  match dget em id with Some l => Ok l | None => Err TypeError end.

(** [np.concatenate(l)]: ValueError when there is nothing to concatenate *)
Definition np_concatenate {A} (l : list (list A)) : res (list A) :=
  match l with [] => Err ValueError | _ => Ok (concat l) end.

(** DoFMap.destination_indices, dof_map.py:134-146 *)
Definition destination_indices (m : dofmap) (cell_id : nat) : res (list Z) :=
  do c <- cell_of (t_cells (dm_topo m)) cell_id;
  do parts <- mapM (fun d =>
      do g <- entity_map_by_dimension (dm_topo m) d;
      do supports <- successors g (index c);
      do ls <- mapM (fun s : vid => dofs_of m d (snd s)) supports;
      Ok (concat ls)) (seq 0 (dm_dim m + 1));
  np_concatenate parts.

(** DoFMap.bc_destination_indices, dof_map.py:148-170 *)
Definition bc_destination_indices (m : dofmap) (cell_id bc_id : nat) : res (list Z) :=
  do c <- cell_of (t_cells (dm_topo m)) cell_id;
  do bc <- cell_of (t_cells (dm_topo m)) bc_id;
  do parts <- mapM (fun d =>
      do g <- entity_map_by_dimension (dm_topo m) d;
      do supports <- successors g (index c);
      do bc_ids <- get_at (c_sub bc) d;
      let filtered := filter (fun s => memb (d, s) supports) bc_ids in
      do lay <- get_at (dm_layout m) d;
      do e <- int_mean lay;
      let filtered := if e =? 0 then [] else filtered in
      do ls <- mapM (dofs_of m d) filtered;
      Ok (concat ls)) (seq 0 (dm_dim m));
  np_concatenate parts.
