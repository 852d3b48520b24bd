(** * Properties of discrete and product spaces (spaces/discrete_space.py,
    spaces/product_space.py): C19-C23, C61 *)
From Coq Require Import List Arith ZArith Bool Lia.
From Verif Require Import Base MeshModel MeshSpec GraphModel DofModel DofSpec SpaceModel SpaceSpec SpaceProof SpaceProof2 MeshExamples SpaceExamples.
Import ListNotations.

(** ** C19 *)
Theorem C19_fields_own_disjoint_blocks : forall q i d,
  built_product q -> discrete_spaces_destination_indexes q i = Ok d ->
  map fst d = map fst (ps_spaces q) /\
  (forall k name s l x, nth_error (ps_spaces q) k = Some (name, s) -> dget d name = Some l -> In x l ->
     (ps_shift q + before q k <= x < ps_shift q + before q k + field_n q k)%Z) /\
  (forall n l n' l' x, n <> n' -> dget d n = Some l -> dget d n' = Some l' -> In x l -> ~ In x l') /\
  (forall n l x, dget d n = Some l -> In x l -> (ps_shift q <= x < ps_shift q + ps_n q)%Z).
Proof. exact C19_lemma. Qed.
Print Assumptions C19_fields_own_disjoint_blocks.
Theorem C19_destinations_exist : forall q i, built_product q ->
  (forall n s, In (n, s) (ps_spaces q) -> i < length (sp_elements s)) ->
  exists d, discrete_spaces_destination_indexes q i = Ok d.
Proof. exact C19_success_lemma. Qed.
Print Assumptions C19_destinations_exist.
Example C19_example : built_product ex_q /\
  discrete_spaces_destination_indexes ex_q 1 = Ok [(0, [10; 13; 14]%Z); (1, [18; 19; 20]%Z)] /\
  field_n ex_q 0 = 5%Z /\ before ex_q 1 = 5%Z /\ ps_n ex_q = 11%Z.
Proof. split; [exact ex_built|]. repeat split; vm_compute; reflexivity. Qed.

(** ** C20 *)
Theorem C20_concatenation : forall q i l, built_product q -> destination_indexes q i None = Ok l ->
  exists ls, Forall2 (fun ns l => destination_indexes q i (Some (fst ns)) = Ok l) (ps_spaces q) ls /\
             l = concat ls /\ NoDup l.
Proof. exact C20_lemma. Qed.
Print Assumptions C20_concatenation.
Theorem C20_concatenation_exists : forall q i, built_product q -> ps_spaces q <> [] ->
  (forall n s, In (n, s) (ps_spaces q) -> i < length (sp_elements s)) ->
  exists l, destination_indexes q i None = Ok l.
Proof. exact C20_success_lemma. Qed.
Print Assumptions C20_concatenation_exists.
Theorem C20_bc_concatenation : forall q i l, built_product q -> bc_destination_indexes q i None = Ok l ->
  exists ls,
    Forall2 (fun ns l => bc_destination_indexes q i (Some (fst ns)) = Ok l)
            (filter (fun ns => negb (length (sp_bc_elements (snd ns)) =? 0)) (ps_spaces q)) ls /\
    l = concat ls /\ NoDup l /\
    (forall k name s l' x, nth_error (ps_spaces q) k = Some (name, s) ->
       bc_destination_indexes q i (Some name) = Ok l' -> In x l' ->
       (ps_shift q + before q k <= x < ps_shift q + before q k + field_n q k)%Z) /\
    (forall name s, In (name, s) (ps_spaces q) -> sp_bc_elements s = [] ->
       bc_destination_indexes q i (Some name) = Err KeyError).
Proof. exact C20_bc_lemma. Qed.
Print Assumptions C20_bc_concatenation.
Theorem C20_bc_concatenation_exists : forall q i, built_product q ->
  (exists n s, In (n, s) (ps_spaces q) /\ sp_bc_elements s <> []) ->
  (forall n s, In (n, s) (ps_spaces q) -> sp_bc_elements s <> [] -> i < length (sp_bc_elements s)) ->
  exists l, bc_destination_indexes q i None = Ok l.
Proof. exact C20_bc_success_lemma. Qed.
Print Assumptions C20_bc_concatenation_exists.
Example C20_example : destination_indexes ex_q 1 None = Ok [10; 13; 14; 18; 19; 20]%Z /\
  bc_destination_indexes ex_q 0 None = Ok [12]%Z /\ bc_destination_indexes ex_q 1 None = Ok [13]%Z /\
  bc_destination_indexes ex_q 1 (Some 1) = Err KeyError.
Proof. repeat split; vm_compute; reflexivity. Qed.

(** ** C21 *)
Theorem C21_setter : forall v,
  (forall z, (0 <= z)%Z -> v = PyInt z \/ v = NpInteger z -> set_dof_shift v = Ok z) /\
  (forall z, (z < 0)%Z -> v = PyInt z \/ v = NpInteger z -> set_dof_shift v = Err ValueError) /\
  ((forall z, v <> PyInt z /\ v <> NpInteger z) -> (forall b, v <> PyBool b) -> set_dof_shift v = Err TypeError).
Proof. exact C21_setter_lemma. Qed.
Print Assumptions C21_setter.
Theorem C21_last_accepted : forall vs s s' rs, assign_shifts s vs = (s', rs) ->
  rs = map set_dof_shift vs /\
  ((s' = s /\ forall v z, In v vs -> set_dof_shift v <> Ok z) \/
   (exists pre v post, vs = pre ++ v :: post /\ set_dof_shift v = Ok s' /\
      forall w z, In w post -> set_dof_shift w <> Ok z)).
Proof. exact C21_history_lemma. Qed.
Print Assumptions C21_last_accepted.
Example C21_example : assign_shifts 0 [PyInt 4; PyFloat; NpInteger 7; PyInt (-2); PyNone]%Z
  = (7, [Ok 4; Err TypeError; Ok 7; Err ValueError; Err TypeError])%Z.
Proof. reflexivity. Qed.

(** ** C22 *)
(** False as stated: with a field of dimension 0 the construction always fails, the boundary
    loop asking for the cell type of dimension -1. *)
Theorem C22_dimension_zero_refuted : forall fields,
  (forall n f, In (n, f) fields -> f_dim f <= 3) -> (exists n f, In (n, f) fields /\ f_dim f = 0) ->
  new_product fields = Err KeyError.
Proof. exact C22_product_refuted_lemma. Qed.
Print Assumptions C22_dimension_zero_refuted.
Example C22_refuted_example : exists fields : dict nat field,
  (forall n f, In (n, f) fields -> f_dim f <= 3) /\ (exists n f, In (n, f) fields /\ f_dim f = 0) /\ length fields = 2.
Proof.
  exists [(0, mk_field 2 1 rt0 1 ex2 2); (1, mk_field 0 1 rt0 0 ex2 2)]. split; [|split; [|reflexivity]].
  - intros n f [H|[H|[]]]; inversion H; simpl; lia.
  - exists 1, (mk_field 0 1 rt0 0 ex2 2). split; [right; left; reflexivity|reflexivity].
Qed.
(** It holds for fields of dimensions 1 to 3. *)
Theorem C22_quadratures : forall fields, fields <> [] -> (forall d k, In (d, k) fields -> 1 <= d <= 3) ->
  exists q b kmax, define_quadrature fields = Ok (q, b) /\
    (forall d k, In (d, k) fields -> k <= kmax) /\ (exists d, In (d, kmax) fields) /\
    (forall d k e, In (d, k) fields -> e <= d -> nth_error q e = Some (rule_for e (2 * kmax + 1))) /\
    (forall d k, In (d, k) fields -> nth_error b (d - 1) = Some (rule_for (d - 1) (2 * kmax + 1))).
Proof. exact C22_lemma. Qed.
Print Assumptions C22_quadratures.
Theorem C22_product_can_be_built : forall fields, NoDup (map fst fields) -> fields <> [] ->
  (forall n f, In (n, f) fields -> 1 <= f_dim f <= 3 /\ f_dim f <= f_mesh_dim f) ->
  exists p, new_product fields = Ok p /\ map fst (ps_spaces p) = map fst fields /\
    forall n f, In (n, f) fields -> exists s, In (n, s) (ps_spaces p) /\ fresh_field s /\
      sp_cells s = f_cells f /\ sp_dim s = f_dim f /\ sp_comps s = f_comps f.
Proof. exact C22_product_lemma. Qed.
Print Assumptions C22_product_can_be_built.
Example C22_example :
  define_quadrature [(2, 1); (3, 2); (1, 4)] =
    Ok ([Some QPoint; Some (QBasix CInterval 9); Some (QBasix CTriangle 9); Some (QBasix CTetrahedron 9)],
        [Some QPoint; Some (QBasix CInterval 9); Some (QBasix CTriangle 9); None]) /\
  exists p, new_product ex_fields = Ok p.
Proof. split; [reflexivity|]. eexists; vm_compute; reflexivity. Qed.

(** ** C23 *)
Theorem C23_element_ids : forall fuel s tags s', good_field s -> build_structures (S fuel) s tags = Ok s' ->
  (forall id k, dget (sp_id_to_element s') id = Some k <->
      exists c, nth_error (sp_elements s') k = Some c /\ c_id c = id) /\
  (forall c, In c (sp_elements s') <-> space_cell (sp_cells s) (sp_dim s) tags (c_id c) c).
Proof. exact C23_lemma. Qed.
Print Assumptions C23_element_ids.
Theorem C23_structures_can_be_built : forall fuel s tags, good_field s ->
  exists s', build_structures (S fuel) s tags = Ok s'.
Proof. exact C23_success_lemma. Qed.
Print Assumptions C23_structures_can_be_built.
Theorem C23_boundary_elements : forall fuel s tags s' btags s'', good_field s ->
  build_structures (S fuel) s tags = Ok s' -> btags <> [] -> build_boundary_structures s' btags = Ok s'' ->
  sp_elements s'' = sp_elements s' /\ sp_id_to_element s'' = sp_id_to_element s' /\
  (forall id k, dget (sp_id_to_bc s'') id = Some k <->
      exists c, nth_error (sp_bc_elements s'') k = Some c /\ c_id c = id) /\
  (forall c, In c (sp_bc_elements s'') <->
      cell_at (sp_cells s) (c_id c) c /\ c_dim c + 1 = sp_dim s /\
      space_entity (sp_cells s) (sp_dim s) tags (c_dim c) (c_id c) /\ In (c_mat c) btags).
Proof. exact C23_bc_lemma. Qed.
Print Assumptions C23_boundary_elements.
Example C23_example : exists s s' s'', In (0, s) (ps_spaces ex_new) /\ good_field s /\
  build_structures 1 s [Some 1; Some 2]%Z = Ok s' /\ sp_id_to_element s' = [(9, 0); (10, 1)] /\
  build_boundary_structures s' [Some 6; Some 7]%Z = Ok s'' /\ sp_id_to_bc s'' = [(6, 0); (7, 1)].
Proof.
  do 3 eexists. split; [left; reflexivity|]. split; [apply (ex_fields_good 0); left; reflexivity|].
  split; [vm_compute; reflexivity|]. split; [reflexivity|]. split; [vm_compute; reflexivity|reflexivity].
Qed.
(** The remaining case of the claim is false: when no boundary tag is requested in a second
    build the boundary elements of the first one stay. *)
Theorem C23_rebuild_without_tags_refuted : exists fuel s tags btags s1 s2 s3 s4,
  good_field s /\ fresh_field s /\ build_structures fuel s tags = Ok s1 /\
  build_boundary_structures s1 btags = Ok s2 /\
  build_structures fuel s2 tags = Ok s3 /\ build_boundary_structures s3 [] = Ok s4 /\
  sp_bc_elements s4 <> [].
Proof.
  exists 1. eexists. exists [Some 1; Some 2]%Z, [Some 6; Some 7]%Z. do 4 eexists.
  split; [apply (ex_fields_good 0); left; reflexivity|]. split; [split; reflexivity|].
  split; [vm_compute; reflexivity|]. split; [vm_compute; reflexivity|].
  split; [vm_compute; reflexivity|]. split; [vm_compute; reflexivity|]. discriminate.
Qed.
Print Assumptions C23_rebuild_without_tags_refuted.

(** ** C61 *)
Theorem C61_options_of_fields : forall fuel p disc tags btags b,
  (forall n s, In (n, s) (ps_spaces (make_subspaces_discontinuous p disc)) -> good_field s) ->
  build_product (S fuel) (make_subspaces_discontinuous p disc) tags btags = Ok b ->
  map fst (ps_spaces b) = map fst (ps_spaces p) /\ ps_shift b = ps_shift p /\
  forall n s, In (n, s) (ps_spaces p) -> exists s' m, In (n, s') (ps_spaces b) /\ sp_map s' = Some m /\
    (dget disc n = Some true -> dm_layout m = sp_layout s true) /\
    (dget disc n <> Some true -> dm_layout m = sp_layout s (sp_disc s)) /\
    sp_comps s' = sp_comps s /\
    (forall l, dget tags n = Some l \/ dget tags n = None /\ l = [None] ->
       forall c, In c (sp_elements s') <-> space_cell (sp_cells s) (sp_dim s) l (c_id c) c).
Proof. exact C61_lemma. Qed.
Print Assumptions C61_options_of_fields.
(** field 1 is marked, field 0 is marked False and keeps its layout *)
Example C61_example : exists p b s0 s1 m0 m1, new_product ex_fields = Ok p /\ (forall n s, In (n, s) (ps_spaces (make_subspaces_discontinuous p [(1, true); (0, false)])) -> good_field s) /\ build_product 1 (make_subspaces_discontinuous p [(1, true); (0, false)])
     [(0, [Some 1; Some 2]%Z); (1, [Some 1; Some 2]%Z)] [] = Ok b /\ ps_spaces b = [(0, s0); (1, s1)] /\ sp_map s0 = Some m0 /\ sp_map s1 = Some m1 /\ dm_layout m0 = rt0 false /\ dm_layout m1 = p1 true /\ p1 true <> p1 false.
Proof.
  do 6 eexists. split; [vm_compute; reflexivity|]. split.
  { exact (fun n s H => proj1 (ex_fields_good n s H)). }
  split; [vm_compute; reflexivity|]. do 5 (split; [reflexivity|]). discriminate.
Qed.
