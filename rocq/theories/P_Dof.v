(** * Properties of the degree-of-freedom numbering (spaces/dof_map.py): C13-C18 *)
From Coq Require Import List Arith ZArith Bool Lia.
From Verif Require Import Base MeshModel MeshSpec GraphModel DofModel DofSpec DofProof2 MeshExamples DofExamples.
Import ListNotations.

(** ** C13 *)
Theorem C13_numbering_is_bijective : forall cs dim tags dofs comps shift m,
  numbered_space cs dim tags dofs comps shift m ->
  (forall d j, space_entity cs dim tags d j <-> exists l, dofs_of m d j = Ok l) /\
  (forall d j l, dofs_of m d j = Ok l -> exists s, l = zrange s (s + Z.of_nat (nth d dofs 0 * comps))) /\
  (forall x, (shift <= x < shift + dof_number m)%Z <-> exists d j l, dofs_of m d j = Ok l /\ In x l) /\
  (forall d j l k d' j' l' k' x, dofs_of m d j = Ok l -> dofs_of m d' j' = Ok l' ->
     nth_error l k = Some x -> nth_error l' k' = Some x -> d = d' /\ j = j' /\ k = k').
Proof. exact C13_lemma. Qed.
Print Assumptions C13_numbering_is_bijective.
Theorem C13_numbering_can_be_built : forall fuel cs mesh_dim dim tags t layout dofs comps shift,
  good_mesh cs -> build_data_on_physical_tags (S fuel) cs mesh_dim dim tags = Ok t ->
  dim <= 3 -> length layout = dim + 1 -> uniform_layout layout dofs ->
  exists m, build_entity_maps t layout dim comps shift = Ok m.
Proof. exact C13_success_lemma. Qed.
Print Assumptions C13_numbering_can_be_built.
Example C13_example : numbered_space ex2 2 tags12 [1; 1; 0] 2 100 ex2_dofs /\
  dof_number ex2_dofs = 18%Z /\ dofs_of ex2_dofs 1 4 = Ok [108; 109]%Z.
Proof. split; [exact ex2_numbered|split; reflexivity]. Qed.

(** ** C14 *)
Theorem C14_shared_entities_share_dofs : forall cs dim tags dofs comps shift m,
  numbered_space cs dim tags dofs comps shift m ->
  exists D : nat -> nat -> list Z,
    (forall d j, space_entity cs dim tags d j -> dofs_of m d j = Ok (D d j)) /\
    let dest c := flat_map (fun d => flat_map (D d) (nth d (c_sub c) [])) (seq 0 (dim + 1)) in
    (forall i c, space_cell cs dim tags i c -> destination_indices m i = Ok (dest c)) /\
    (forall i c i' c' x, space_cell cs dim tags i c -> space_cell cs dim tags i' c' ->
       (In x (dest c) /\ In x (dest c') <->
        exists d j, d <= dim /\ In j (nth d (c_sub c) []) /\ In j (nth d (c_sub c') []) /\ In x (D d j))).
Proof. exact C14_lemma. Qed.
Print Assumptions C14_shared_entities_share_dofs.
(** the triangles share the vertices 1, 2 and the edge 4: DoFs 102..105, 108, 109 *)
Example C14_example :
  destination_indices ex2_dofs 9 = Ok [100; 101; 102; 103; 104; 105; 108; 109; 110; 111; 112; 113]%Z /\
  destination_indices ex2_dofs 10 = Ok [106; 107; 104; 105; 102; 103; 108; 109; 114; 115; 116; 117]%Z.
Proof. split; vm_compute; reflexivity. Qed.

(** ** C15 *)
Theorem C15_destinations : forall cs dim tags dofs comps shift m,
  numbered_space cs dim tags dofs comps shift m ->
  forall i c, space_cell cs dim tags i c ->
  exists l, destination_indices m i = Ok l /\ NoDup l /\
    (forall x, In x l -> (shift <= x < shift + dof_number m)%Z) /\
    length l = reference_dofs dim dofs * comps.
Proof. exact C15_lemma. Qed.
Print Assumptions C15_destinations.
Example C15_example : numbered_space ex2 2 tags12 [1; 1; 0] 2 100 ex2_dofs /\
  (exists c, space_cell ex2 2 tags12 10 c) /\ reference_dofs 2 [1; 1; 0] = 6.
Proof. split; [exact ex2_numbered|]. split; [|reflexivity]. destruct ex2_c10 as (c & H & _). eauto. Qed.

(** ** C16 *)
Theorem C16_boundary_dofs : forall cs dim tags dofs comps shift m,
  numbered_space cs dim tags dofs comps shift m ->
  exists D : nat -> nat -> list Z,
    (forall d j, space_entity cs dim tags d j -> dofs_of m d j = Ok (D d j)) /\
    forall b cb, cell_at cs b cb -> c_dim cb + 1 = dim ->
    forall i c, space_cell cs dim tags i c -> In b (nth (c_dim cb) (c_sub c) []) ->
    let l := flat_map (fun d => flat_map (D d) (nth d (c_sub cb) [])) (seq 0 dim) in
    bc_destination_indices m i b = Ok l /\
    exists l', destination_indices m i = Ok l' /\ incl l l'.
Proof. exact C16_lemma. Qed.
Print Assumptions C16_boundary_dofs.
Theorem C16_boundary_dofs_independent : forall cs dim tags dofs comps shift m b cb i c i' c',
  numbered_space cs dim tags dofs comps shift m -> cell_at cs b cb -> c_dim cb + 1 = dim ->
  space_cell cs dim tags i c -> In b (nth (c_dim cb) (c_sub c) []) ->
  space_cell cs dim tags i' c' -> In b (nth (c_dim cb) (c_sub c') []) ->
  bc_destination_indices m i b = bc_destination_indices m i' b.
Proof. exact C16_independent_lemma. Qed.
Print Assumptions C16_boundary_dofs_independent.
(** the inner edge, seen from both triangles *)
Example C16_example :
  (exists cb, cell_at ex2 4 cb /\ c_dim cb + 1 = 2 /\ c_sub cb = [[1; 2]; [4]]) /\
  bc_destination_indices ex2_dofs 9 4 = Ok [102; 103; 104; 105; 108; 109]%Z /\
  bc_destination_indices ex2_dofs 10 4 = Ok [102; 103; 104; 105; 108; 109]%Z.
Proof. split; [eexists; repeat split; reflexivity|split; vm_compute; reflexivity]. Qed.

(** ** C17 *)
Theorem C17_discontinuous : forall cs dim tags dofs comps shift m,
  numbered_space cs dim tags dofs comps shift m ->
  (forall d, d < dim -> nth d dofs 0 = 0) ->
  (forall i c i' c' l l' x, space_cell cs dim tags i c -> space_cell cs dim tags i' c' -> i <> i' ->
     destination_indices m i = Ok l -> destination_indices m i' = Ok l' -> In x l -> ~ In x l') /\
  (forall i c b cb, space_cell cs dim tags i c -> cell_at cs b cb -> c_dim cb + 1 = dim ->
     In b (nth (c_dim cb) (c_sub c) []) -> bc_destination_indices m i b = Ok []).
Proof. exact C17_lemma. Qed.
Print Assumptions C17_discontinuous.
Example C17_example : numbered_space ex2 2 tags12 [0; 0; 3] 1 0 ex2_dg /\
  destination_indices ex2_dg 9 = Ok [0; 1; 2]%Z /\ destination_indices ex2_dg 10 = Ok [3; 4; 5]%Z /\
  bc_destination_indices ex2_dg 9 4 = Ok [].
Proof. split; [exact ex2_dg_numbered|]. repeat split; vm_compute; reflexivity. Qed.

(** ** C18 *)
Theorem C18_shift_translates : forall t layout dim comps s,
  let shifted r := match r with Ok l => Ok (map (fun x => x + s)%Z l) | Err e => Err e end in
  match build_entity_maps t layout dim comps 0 with
  | Err e => build_entity_maps t layout dim comps s = Err e
  | Ok m0 => exists ms, build_entity_maps t layout dim comps s = Ok ms /\
      dof_number ms = dof_number m0 /\
      (forall d j, dofs_of ms d j = shifted (dofs_of m0 d j)) /\
      (forall i, destination_indices ms i = shifted (destination_indices m0 i)) /\
      (forall i b, bc_destination_indices ms i b = shifted (bc_destination_indices m0 i b))
  end.
Proof. exact C18_lemma. Qed.
Print Assumptions C18_shift_translates.
Example C18_example : exists m0, build_entity_maps ex2_topo lag2 2 2 0 = Ok m0 /\
  destination_indices m0 10 = Ok [6; 7; 4; 5; 2; 3; 8; 9; 14; 15; 16; 17]%Z.
Proof. eexists. split; vm_compute; reflexivity. Qed.
