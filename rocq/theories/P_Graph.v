(** * Property theorems C09-C12: incidence graphs and topology queries *)
From Coq Require Import List Arith ZArith Bool Lia.
From Verif Require Import Base MeshModel MeshSpec MeshExamples GraphModel GraphProof GraphProof2.
Import ListNotations.

(** ** C09 : [co] = d - k is the codimension argument. *)
Theorem C09_graph_is_incidence : forall fuel cs d k,
  closed_mesh cs -> k <= d -> d <= 3 ->
  exists g, build_graph (S fuel) cs (Z.of_nat d) (Z.of_nat d - Z.of_nat k) = Ok g /\
    NoDup (g_edges g) /\ NoDup (g_nodes g) /\
    (forall u v, In (u, v) (g_edges g) <->
       exists i c j, cell_at cs i c /\ c_dim c = d /\ In j (nth k (c_sub c) []) /\
                     u = (d, i) /\ v = (k, j)) /\
    (forall w, In w (g_nodes g) <-> exists u v, In (u, v) (g_edges g) /\ (w = u \/ w = v)) /\
    (forall i c, cell_at cs i c -> c_dim c = d -> NoDup (nth k (c_sub c) []) ->
       nth k (c_sub c) [] <> [] ->
       successors g (d, i) = Ok (map (pair k) (nth k (c_sub c) []))).
Proof. exact C09_lemma. Qed.
Print Assumptions C09_graph_is_incidence.
Example C09_example : closed_mesh ex3 /\
  exists g, build_graph 1 ex3 3 1 = Ok g /\ length (g_edges g) = 8 /\ length (g_nodes g) = 9.
Proof. split; [exact (proj1 ex3_good)|]. eexists; split; [vm_compute; reflexivity|split; reflexivity]. Qed.

(** ** C10 *)
Theorem C10_tagged_graph_is_restriction : forall fuel cs tags d k,
  closed_mesh cs -> k <= d -> d <= 3 ->
  exists g gt, build_graph (S fuel) cs (Z.of_nat d) (Z.of_nat d - Z.of_nat k) = Ok g /\
    build_graph_on_physical_tags (S fuel) cs tags (Z.of_nat d) (Z.of_nat d - Z.of_nat k) = Ok gt /\
    NoDup (g_edges gt) /\
    (forall w, In w (g_nodes gt) <-> exists u v, In (u, v) (g_edges gt) /\ (w = u \/ w = v)) /\
    forall u v, In (u, v) (g_edges gt) <->
      In (u, v) (g_edges g) /\ exists c, cell_at cs (snd u) c /\ In (c_mat c) tags.
Proof. exact tagged_lemma. Qed.
Print Assumptions C10_tagged_graph_is_restriction.
Example C10_example : closed_mesh ex2 /\
  exists g gt, build_graph 1 ex2 2 1 = Ok g /\
    build_graph_on_physical_tags 1 ex2 [Some 2%Z] 2 1 = Ok gt /\
    length (g_edges g) = 6 /\ length (g_edges gt) = 3.
Proof.
  split; [exact (proj1 ex2_good)|]. do 2 eexists. split; [vm_compute; reflexivity|].
  split; [vm_compute; reflexivity|split; reflexivity].
Qed.

(** ** C11 *)
Theorem C11_entity_lists : forall fuel cs mesh_dim dim tags t,
  closed_mesh cs -> self_incident cs ->
  build_data_on_physical_tags (S fuel) cs mesh_dim dim tags = Ok t ->
  (forall k, k <= dim -> exists ids, entities_by_dimension t k = Ok ids /\ NoDup ids /\
    forall j, In j ids <-> exists i c, cell_at cs i c /\ c_dim c = dim /\ In (c_mat c) tags /\
                             In j (nth k (c_sub c) [])) /\
  (forall k, dim < k -> entities_by_dimension t k = Err ValueError).
Proof. exact C11_lemma. Qed.
Print Assumptions C11_entity_lists.
Theorem C11_topology_can_be_built : forall fuel cs mesh_dim dim tags,
  closed_mesh cs -> dim <= mesh_dim ->
  exists t, build_data_on_physical_tags (S fuel) cs mesh_dim dim tags = Ok t.
Proof. exact C11_success_lemma. Qed.
Print Assumptions C11_topology_can_be_built.
Example C11_example : closed_mesh ex2 /\ self_incident ex2 /\
  exists t, build_data_on_physical_tags 1 ex2 2 2 [Some 2%Z] = Ok t /\
    entities_by_dimension t 0 = Ok [3; 2; 1] /\ entities_by_dimension t 2 = Ok [10].
Proof.
  split; [exact (proj1 ex2_good)|split; [exact (proj1 (proj2 ex2_good))|]].
  eexists; split; [vm_compute; reflexivity|split; reflexivity].
Qed.

(** ** C12 *)
Theorem C12_higher_neighbours : forall fuel cs mesh_dim dim tags t,
  closed_mesh cs -> self_incident cs ->
  build_data_on_physical_tags (S fuel) cs mesh_dim dim tags = Ok t ->
  forall j c', cell_at cs j c' -> c_dim c' <= dim ->
  let has i := exists c, cell_at cs i c /\ c_dim c = dim /\ In (c_mat c) tags /\
                         In j (nth (c_dim c') (c_sub c) []) in
  ((exists i, has i) -> exists l, find_higher_dimension_neighs c' t = Ok l /\ NoDup l /\
     forall u, In u l <-> exists i, has i /\ u = (dim, i)) /\
  (~ (exists i, has i) -> find_higher_dimension_neighs c' t = Err NetworkXError).
Proof. exact C12_lemma. Qed.
Print Assumptions C12_higher_neighbours.
(** the inner edge (cell 4) has both triangles as neighbours *)
Example C12_example : exists t c', build_data_on_physical_tags 1 ex2 2 2 [Some 1; Some 2]%Z = Ok t /\
  cell_at ex2 4 c' /\ find_higher_dimension_neighs c' t = Ok [(2, 9); (2, 10)].
Proof. do 2 eexists. split; [vm_compute; reflexivity|]. split; reflexivity. Qed.

(** The other half of the English claim is false. *)
Theorem C12_lower_neighbours_refuted : exists fuel cs dim tags t j c' l,
  good_mesh cs /\ build_data_on_physical_tags fuel cs dim dim tags = Ok t /\
  cell_at cs j c' /\ 0 < c_dim c' /\ find_lower_dimension_neighs c' t = Ok l /\
  ~ (exists u, In u l /\ fst u < c_dim c').
Proof.
  exists 1, ex2, 2, [Some 1; Some 2]%Z. do 4 eexists. split; [exact ex2_good|].
  split; [vm_compute; reflexivity|]. split; [exact (eq_refl : nth_error ex2 9 = Some (Some _))|].
  split; [simpl; lia|]. split; [vm_compute; reflexivity|].
  intros (u & [<-|[]] & H). simpl in H. lia.
Qed.
Print Assumptions C12_lower_neighbours_refuted.

(** It fails in every case: the query for lower
    neighbours, whenever it returns, returns no entity of lower dimension at all,
    although every cell of positive dimension has such. *)
Theorem C12_lower_neighbours_are_never_lower : forall fuel cs mesh_dim dim tags t,
  closed_mesh cs -> self_incident cs ->
  build_data_on_physical_tags (S fuel) cs mesh_dim dim tags = Ok t ->
  forall j c', cell_at cs j c' -> c_dim c' <= dim ->
  (exists i c, cell_at cs i c /\ c_dim c = dim /\ In (c_mat c) tags /\
               In j (nth (c_dim c') (c_sub c) [])) ->
  exists l, find_lower_dimension_neighs c' t = Ok l /\ forall u, In u l -> ~ fst u < c_dim c'.
Proof. exact C12_lower_lemma. Qed.
Print Assumptions C12_lower_neighbours_are_never_lower.
Example C12_lower_example : exists t c', build_data_on_physical_tags 1 ex2 2 2 [Some 1; Some 2]%Z = Ok t /\
  cell_at ex2 9 c' /\ c_sub c' = [[0; 1; 2]; [4; 5; 6]; [9]] /\
  find_lower_dimension_neighs c' t = Ok [(2, 9)].
Proof. do 2 eexists. split; [vm_compute; reflexivity|]. repeat split; reflexivity. Qed.

(** ** C60 *)
Theorem C60_graph_on_materials : forall fuel cs d k,
  closed_mesh cs -> k <= d -> d <= 3 ->
  exists g gm, build_graph (S fuel) cs (Z.of_nat d) (Z.of_nat d - Z.of_nat k) = Ok g /\
    build_graph_on_materials (S fuel) cs (Z.of_nat d) (Z.of_nat d - Z.of_nat k) = Ok gm /\
    NoDup (g_edges gm) /\
    (forall w, In w (g_nodes gm) <-> exists u v, In (u, v) (g_edges gm) /\ (w = u \/ w = v)) /\
    forall u v, In (u, v) (g_edges gm) <->
      In (u, v) (g_edges g) /\ exists c, cell_at cs (snd u) c /\ c_mat c <> None.
Proof. exact materials_lemma. Qed.
Print Assumptions C60_graph_on_materials.
(** two of the five edges carry a tag: four of the ten arrows remain *)
Example C60_materials_example : closed_mesh ex2 /\
  exists g gm, build_graph 1 ex2 1 1 = Ok g /\ build_graph_on_materials 1 ex2 1 1 = Ok gm /\
    length (g_edges g) = 10 /\ length (g_edges gm) = 4.
Proof.
  split; [exact (proj1 ex2_good)|]. do 2 eexists. split; [vm_compute; reflexivity|].
  split; [vm_compute; reflexivity|split; reflexivity].
Qed.

Theorem C60_graph_from_cell_ids : forall fuel cs ids d k,
  closed_mesh cs -> k <= d -> d <= 3 -> (forall i, In i ids -> i < length cs) ->
  exists g gi, build_graph (S fuel) cs (Z.of_nat d) (Z.of_nat d - Z.of_nat k) = Ok g /\
    build_graph_from_cell_ids (S fuel) cs ids (Z.of_nat d) (Z.of_nat d - Z.of_nat k) = Ok gi /\
    NoDup (g_edges gi) /\
    (forall w, In w (g_nodes gi) <-> exists u v, In (u, v) (g_edges gi) /\ (w = u \/ w = v)) /\
    forall u v, In (u, v) (g_edges gi) <-> In (u, v) (g_edges g) /\ In (snd u) ids.
Proof. exact cell_ids_lemma. Qed.
Print Assumptions C60_graph_from_cell_ids.
Theorem C60_unknown_cell_id : forall fuel cs ids d co,
  closed_mesh cs -> (exists i, In i ids /\ length cs <= i) ->
  build_graph_from_cell_ids fuel cs ids d co = Err IndexError.
Proof. exact cell_ids_out_of_range. Qed.
Print Assumptions C60_unknown_cell_id.
(** cell 9 is a triangle, cell 4 an edge, which the dimension filter drops *)
Example C60_cell_ids_example : closed_mesh ex2 /\ length ex2 = 11 /\
  exists gi, build_graph_from_cell_ids 1 ex2 [4; 9] 2 1 = Ok gi /\ length (g_edges gi) = 3.
Proof.
  split; [exact (proj1 ex2_good)|]. split; [reflexivity|].
  eexists. split; [vm_compute; reflexivity|reflexivity].
Qed.

Theorem C60_topology_of_all_cells : forall fuel cs mesh_dim dim t,
  closed_mesh cs -> self_incident cs -> build_data (S fuel) cs mesh_dim dim = Ok t ->
  (forall k, k <= dim -> exists ids, entities_by_dimension t k = Ok ids /\ NoDup ids /\
    forall j, In j ids <-> exists i c, cell_at cs i c /\ c_dim c = dim /\ In j (nth k (c_sub c) [])) /\
  (forall k, dim < k -> entities_by_dimension t k = Err ValueError) /\
  (forall j c', cell_at cs j c' -> c_dim c' <= dim ->
     let has i := exists c, cell_at cs i c /\ c_dim c = dim /\ In j (nth (c_dim c') (c_sub c) []) in
     ((exists i, has i) -> exists l, find_higher_dimension_neighs c' t = Ok l /\ NoDup l /\
        forall u, In u l <-> exists i, has i /\ u = (dim, i)) /\
     (~ (exists i, has i) -> find_higher_dimension_neighs c' t = Err NetworkXError)).
Proof. exact build_data_lemma. Qed.
Print Assumptions C60_topology_of_all_cells.
Theorem C60_topology_can_be_built : forall fuel cs mesh_dim dim,
  closed_mesh cs ->
  (dim <= mesh_dim -> exists t, build_data (S fuel) cs mesh_dim dim = Ok t) /\
  (mesh_dim < dim -> build_data (S fuel) cs mesh_dim dim = Err ValueError).
Proof. exact build_data_success. Qed.
Print Assumptions C60_topology_can_be_built.
Example C60_topology_example : closed_mesh ex2 /\ self_incident ex2 /\
  exists t, build_data 1 ex2 2 1 = Ok t /\
    entities_by_dimension t 1 = Ok [4; 5; 6; 7; 8].
Proof.
  split; [exact (proj1 ex2_good)|split; [exact (proj1 (proj2 ex2_good))|]].
  eexists; split; [vm_compute; reflexivity|reflexivity].
Qed.
