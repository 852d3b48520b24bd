(** * Property theorems C01-C08, C62: mesh construction, cell registry, append_cells *)
From Coq Require Import List Arith ZArith Bool Lia Permutation String.
From Verif Require Import Base MeshModel MeshSpec MeshProof4 MeshProof5 MeshExamples GraphModel
  RegistryModel RegistryProof AppendProof.
Import ListNotations.

(** ** C01 *)
Theorem C01_id_is_index : forall np blocks physical cs,
  well_shaped blocks -> build_conformal_mesh np blocks physical = Ok cs ->
  exists L1 L2 L3,
    NoDup L1 /\ NoDup L2 /\ NoDup L3 /\
    (forall key, In key L1 <-> occurs blocks 1 key) /\
    (forall key, In key L2 <-> occurs blocks 2 key) /\
    (forall key, In key L3 <-> occurs blocks 3 key) /\
    List.length cs = np + List.length L1 + List.length L2 + List.length L3 /\
    forall i c, cell_at cs i c ->
      c_id c = i /\
      (i < np -> c_dim c = 0 /\ c_nodes c = [i]) /\
      (np <= i < np + List.length L1 -> c_dim c = 1 /\
         exists key, nth_error L1 (i - np) = Some key /\ Permutation key (c_nodes c)) /\
      (np + List.length L1 <= i < np + List.length L1 + List.length L2 -> c_dim c = 2 /\
         exists key, nth_error L2 (i - (np + List.length L1)) = Some key /\ Permutation key (c_nodes c)) /\
      (np + List.length L1 + List.length L2 <= i -> c_dim c = 3 /\
         exists key, nth_error L3 (i - (np + List.length L1 + List.length L2)) = Some key /\
                     Permutation key (c_nodes c)).
Proof. exact C01_lemma. Qed.
Print Assumptions C01_id_is_index.
Example C01_example : well_shaped ex3_blocks /\ build_conformal_mesh 5 ex3_blocks ex3_phys = Ok ex3 /\
  List.length ex3 = 5 + 9 + 7 + 2.
Proof. split; [exact ex3_shaped|split; [exact ex3_built|reflexivity]]. Qed.

(** ** C02 *)
Theorem C02_no_duplicate_entity : forall np blocks physical cs,
  well_shaped blocks -> build_conformal_mesh np blocks physical = Ok cs ->
  forall i c i' c', cell_at cs i c -> cell_at cs i' c' -> c_dim c = c_dim c' ->
    Permutation (c_nodes c) (c_nodes c') -> i = i'.
Proof. exact C02_lemma. Qed.
Print Assumptions C02_no_duplicate_entity.
(** the doubly listed line 0-1 / 1-0 of the example is one cell *)
Example C02_example : well_shaped ex2_blocks /\ build_conformal_mesh 4 ex2_blocks ex2_phys = Ok ex2 /\
  List.length (filter (fun o => match o with Some c => eqb (sort_nat (c_nodes c)) [0; 1] | None => false end) ex2) = 1.
Proof. split; [exact ex2_shaped|split; [exact ex2_built|reflexivity]]. Qed.

(** ** C03 *)
Theorem C03_conformity : forall np blocks physical cs,
  well_shaped blocks -> build_conformal_mesh np blocks physical = Ok cs ->
  forall i1 c1 i2 c2 d p1 ix1 p2 ix2,
    cell_at cs i1 c1 -> cell_at cs i2 c2 ->
    nth_error (ref_sub (c_dim c1) d) p1 = Some ix1 ->
    nth_error (ref_sub (c_dim c2) d) p2 = Some ix2 ->
    Permutation (select (c_nodes c1) ix1) (select (c_nodes c2) ix2) ->
    exists j, nth_error (nth d (c_sub c1) []) p1 = Some j /\
              nth_error (nth d (c_sub c2) []) p2 = Some j.
Proof. exact C03_lemma. Qed.
Print Assumptions C03_conformity.
(** the triangles 0-1-2 and 3-2-1 (cells 9 and 10) share the edge opposite to their first vertex *)
Example C03_example : exists c1 c2 j, cell_at ex2 9 c1 /\ cell_at ex2 10 c2 /\
  select (c_nodes c1) [1; 2] = [1; 2] /\ select (c_nodes c2) [1; 2] = [2; 1] /\
  nth_error (nth 1 (c_sub c1) []) 0 = Some j /\ nth_error (nth 1 (c_sub c2) []) 0 = Some j.
Proof. do 3 eexists. repeat split; reflexivity. Qed.

(** ** C04 *)
Theorem C04_incidence_lists : forall np blocks physical cs,
  well_shaped blocks -> build_conformal_mesh np blocks physical = Ok cs ->
  forall i c, cell_at cs i c ->
    c_dim c <= 3 /\ List.length (c_nodes c) = c_dim c + 1 /\ List.length (c_sub c) = c_dim c + 1 /\
    nth (c_dim c) (c_sub c) [] = [i] /\
    forall d, d <= c_dim c ->
      Forall2 (fun ix j => exists c', cell_at cs j c' /\ c_dim c' = d /\
                                      Permutation (c_nodes c') (select (c_nodes c) ix))
              (ref_sub (c_dim c) d) (nth d (c_sub c) []).
Proof. exact C04_lemma. Qed.
Print Assumptions C04_incidence_lists.
Example C04_example : exists c, cell_at ex3 22 c /\ c_dim c = 3 /\ c_nodes c = [4; 3; 2; 1] /\
  map (@List.length nat) (c_sub c) = [4; 6; 4; 1].
Proof. eexists. repeat split; reflexivity. Qed.

(** ** C05 *)
Theorem C05_last_tag_wins : forall np blocks physical cs,
  well_shaped blocks -> build_conformal_mesh np blocks physical = Ok cs ->
  forall i c, cell_at cs i c ->
    last_tag (input_rows blocks physical) (c_dim c) (c_nodes c) (c_mat c).
Proof. exact C05_lemma. Qed.
Print Assumptions C05_last_tag_wins.
(** the line 0-1 is tagged 5 and later (as 1-0) 7; its cell has tag 7; the inner edge has none *)
Example C05_example :
  (exists i c, cell_at ex2 i c /\ c_nodes c = [0; 1] /\ c_mat c = Some 7%Z) /\
  (exists i c, cell_at ex2 i c /\ c_nodes c = [1; 2] /\ c_mat c = None).
Proof. split; [exists 6|exists 4]; eexists; repeat split; reflexivity. Qed.

(** ** C06 *)
(** The English claim is false: a point that no cell uses leaves an empty slot, and then
    every graph query raises AttributeError. *)
Theorem C06_every_slot_filled_refuted : exists np blocks physical cs i,
  well_shaped blocks /\ fully_tagged blocks physical /\
  build_conformal_mesh np blocks physical = Ok cs /\
  i < List.length cs /\ ~ (exists c, cell_at cs i c) /\
  forall fuel d co, build_graph fuel cs d co = Err AttributeError.
Proof.
  exists 4, exh_blocks, exh_phys.
  eexists; exists 3. split; [exact exh_shaped|split; [exact exh_tagged|split; [vm_compute; reflexivity|]]].
  split; [simpl; lia|]. split; [intros (c & Hc); discriminate|]. intros; reflexivity.
Qed.
Print Assumptions C06_every_slot_filled_refuted.

(** What does hold: the empty slots are exactly the unused points. *)
Theorem C06_empty_slots_are_unused_points : forall np blocks physical cs,
  well_shaped blocks -> build_conformal_mesh np blocks physical = Ok cs ->
  fully_tagged blocks physical -> forall i, i < List.length cs ->
    (nth_error cs i = Some None <->
     i < np /\ forall d row t, In (d, row, t) (input_rows blocks physical) -> d <= 3 -> ~ In i row).
Proof. exact C06_lemma. Qed.
Print Assumptions C06_empty_slots_are_unused_points.
Example C06_example : exists cs, build_conformal_mesh 4 exh_blocks exh_phys = Ok cs /\
  nth_error cs 3 = Some None /\ fully_tagged exh_blocks exh_phys.
Proof. eexists; split; [vm_compute; reflexivity|split; [reflexivity|exact exh_tagged]]. Qed.

(** Consequently a file in which every point is used and no cell repeats a node gives a
    mesh with all the structure the other modules rely on. *)
Theorem C06_built_mesh_is_good : forall np blocks physical cs,
  well_shaped blocks -> build_conformal_mesh np blocks physical = Ok cs ->
  fully_tagged blocks physical -> all_points_used np blocks physical -> distinct_nodes blocks ->
  good_mesh cs.
Proof. exact good_lemma. Qed.
Print Assumptions C06_built_mesh_is_good.
Example C06_good_example : good_mesh ex2 /\ good_mesh ex3.
Proof. split; [exact ex2_good|exact ex3_good]. Qed.

(** ** C07 *)
(** Refuted: the cells with node tags (1,12) and (11,2) get one key, so the second call
    returns the first cell. *)
Theorem C07_registry_refuted : exists r1 r2 g,
  run_inserts empty_registry [r1; r2] = Ok (g, [0; 0]) /\
  r_sign r1 = r_sign r2 /\ r_type r1 = r_type r2 /\ r_tags r1 <> r_tags r2.
Proof.
  exists (mk_request 0 2 [1; 12]%Z), (mk_request 0 2 [11; 2]%Z). eexists.
  split; [vm_compute; reflexivity|]. repeat split; simpl; congruence.
Qed.
Print Assumptions C07_registry_refuted.

(** Part that holds: in a history of calls in which the integers at the same place are
    always printed with the same number of digits, two calls return the same cell exactly
    when they were given the same data, and the returned cell is registered under that
    data.  Missing from the full statement: node tags of different widths. *)
Theorem C07_registry_partial : forall rs g ids,
  run_inserts empty_registry rs = Ok (g, ids) ->
  (forall r r', In r rs -> In r' rs ->
     Forall2 (fun a b => String.length (str_int a) = String.length (str_int b))
          (r_sign r :: r_type r :: r_tags r) (r_sign r' :: r_type r' :: r_tags r')) ->
  forall i j r r' a b, nth_error rs i = Some r -> nth_error rs j = Some r' ->
    nth_error ids i = Some a -> nth_error ids j = Some b ->
    (a = b <-> r = r') /\ nth_error (g_cells g) a = Some r.
Proof. exact C07_lemma. Qed.
Print Assumptions C07_registry_partial.
Example C07_example :
  let rs := [mk_request 0 2 [11; 42]; mk_request 0 2 [42; 11]; mk_request 0 2 [11; 42]]%Z in
  (exists g, run_inserts empty_registry rs = Ok (g, [0; 1; 0])) /\
  (forall r r', In r rs -> In r' rs ->
     Forall2 (fun a b => String.length (str_int a) = String.length (str_int b))
          (r_sign r :: r_type r :: r_tags r) (r_sign r' :: r_type r' :: r_tags r')).
Proof.
  split; [eexists; vm_compute; reflexivity|].
  intros r r' [<-|[<-|[<-|[]]]] [<-|[<-|[<-|[]]]]; repeat constructor.
Qed.

(** ** C08 *)
(** A successful call keeps the old cells and appends; the id = index invariant survives
    exactly when the new ids are consecutive from the old length on; a call in which some
    new id is already in use (or the list is empty) is rejected. *)
Theorem C08_append_cells : forall cs new,
  (forall cs', append_cells cs new = Ok cs' ->
     (forall i, i < List.length cs -> nth_error cs' i = nth_error cs i) /\
     List.length cs' = List.length cs + List.length new /\
     (id_is_index cs -> (id_is_index cs' <-> map c_id new = seq (List.length cs) (List.length new)))) /\
  ((exists c, In c new /\ c_id c < List.length cs) -> append_cells cs new = Err ValueError) /\
  (new <> [] -> (forall c, In c new -> List.length cs <= c_id c) ->
     append_cells cs new = Ok (cs ++ map Some new)).
Proof. exact C08_lemma. Qed.
Print Assumptions C08_append_cells.
Example C08_example : exists cs', append_cells ex2 [mk_cell 0 11 [4] None [[11]]; mk_cell 0 12 [5] None [[12]]] = Ok cs'
  /\ List.length ex2 = 11 /\ id_is_index ex2.
Proof. eexists; split; [reflexivity|split; [reflexivity|]]. exact (C08_ex2_ids). Qed.

(** The full English statement (the invariant holds after every successful call) is
    false: new ids may leave a gap or repeat. *)
Theorem C08_append_cells_refuted :
  (exists cs new cs', id_is_index cs /\ append_cells cs new = Ok cs' /\ ~ id_is_index cs' /\
     NoDup (map c_id new)) /\
  (exists cs new cs', id_is_index cs /\ append_cells cs new = Ok cs' /\ ~ NoDup (map c_id new)).
Proof. exact C08_refuted_lemma. Qed.
Print Assumptions C08_append_cells_refuted.

(** ** C62 *)
Theorem C62_construction_succeeds_iff : forall np blocks physical, well_shaped blocks ->
  ((exists cs, build_conformal_mesh np blocks physical = Ok cs) <->
   0 < np /\
   (exists b k row, In b blocks /\ simplex_dim (b_kind b) = Some k /\ 1 <= k /\ In row (b_rows b)) /\
   (forall d row t, In (d, row, t) (input_rows blocks physical) -> d <= 3 ->
      (forall n, In n row -> n < np) /\
      (d = 0 \/ exists key, Permutation key row /\ occurs blocks d key))).
Proof. exact C62_lemma. Qed.
Print Assumptions C62_construction_succeeds_iff.
(** a triangle and a vertex are accepted, a quadrilateral block or a node without point is not *)
Example C62_example :
  (exists cs, build_conformal_mesh 3 [mk_block KVertex [[2]]; mk_block KTriangle [[0; 1; 2]]] [[None]; [Some 1%Z]] = Ok cs) /\ build_conformal_mesh 4 [mk_block KTriangle [[0; 1; 2]]; mk_block (KOther 2) [[0; 1; 2; 3]]] [[None]; [None]] = Err KeyError /\ build_conformal_mesh 3 [mk_block KTriangle [[0; 1; 3]]] [[None]] = Err KeyError /\ build_conformal_mesh 3 [mk_block KVertex [[0]]] [[None]] = Err ValueError.
Proof. split; [eexists; vm_compute; reflexivity|]. repeat split; vm_compute; reflexivity. Qed.
