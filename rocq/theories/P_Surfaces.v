(** * Property theorems C95: networks of fractures in space *)
From Coq Require Import List Arith ZArith Bool QArith Permutation Lia.
From Verif Require Import Base FracModel FracSpec SegModel SegProof TriModel SurfModel SurfSpec SurfProof3 SurfExamples.
Import ListNotations.
Local Open Scope nat_scope.

(** ** C95 *)
(** For every list of fractures with corners, every test of two polygons that answers with
    [data], every test of lines and every sorting: if in each fracture the segments shared with
    later ones cross each other (or there is only one), the network is built: the fractures, then
    the network of lines of each fracture, and the lines immersed in both surfaces. *)
Theorem C95_network : forall (P X : Type) (pp : list P -> list P -> res (option (P * P))) (pos : P -> P -> P -> X)
  (isect : X -> P -> P -> P -> P -> option P) (near : P -> P -> bool) (argsort : list P -> P -> list nat),
  (forall x, near x x = true) -> (forall xs x, Permutation (argsort xs x) (seq 0 (length xs))) ->
  forall (fs : list (list P)) (data : nat -> nat -> option (P * P)),
  (forall i j f g, i < j -> nth_error fs i = Some f -> nth_error fs j = Some g -> pp f g = Ok (data i j)) ->
  (forall i f, nth_error fs i = Some f -> f <> [] /\ (partners P data i (length fs) <> [] -> 4 <= length f)) ->
  (forall i f, nth_error fs i = Some f -> all_cross P (test_of P pos isect f) (segments P data (length fs) i)) ->
  exists cs ps nets dc dp, intersect_2D_fractures P X pp pos isect near argsort fs = Ok (cs, ps) /\
    assembled P data (length fs) (fun f sg n => intersect_1D_fractures P (test_of P pos isect f) near argsort (map (fun e => [fst e; snd e]) sg) 1 = Ok n)
      fs cs ps nets dc dp.
Proof. exact C95_lemma. Qed.
Print Assumptions C95_network.
(** three mutually crossing squares *)
Example C95_network_example : exists cs ps nets dc dp, intersect_surfaces_q three_squares = Ok (cs, ps) /\
  assembled point (found_q three_squares) 3 (fun f sg n => intersect_1D_fractures point (test_q f) (near_q eps_12) argsort_q (map (fun e => [fst e; snd e]) sg) 1 = Ok n)
    three_squares cs ps nets dc dp /\
  partners point (found_q three_squares) 0 3 = [1; 2] /\ partners point (found_q three_squares) 1 3 = [2] /\ dc 0 = 27.
Proof.
  destruct (C95_network point (nat * nat) pp_q pos_q (fun ij => line_line eps_12 (fst ij) (snd ij)) (near_q eps_12) argsort_q
    (fun x => near_q_refl eps_12 x eq_refl) argsort_q_perm three_squares (found_q three_squares) found_q_three corners_three cross_three) as (cs & ps & nets & dc & dp & E & A).
  exists cs, ps, nets, dc, dp. split; [exact E|]. split; [exact A|]. split; [vm_compute; reflexivity|]. split; [vm_compute; reflexivity|]. exact (proj1 (as_start _ _ _ _ _ _ _ _ _ _ A)).
Qed.

(** A fracture with two or more segments of which one meets no other one makes the run fail. *)
Theorem C95_uncrossed_fails : forall (P X : Type) (pp : list P -> list P -> res (option (P * P))) (pos : P -> P -> P -> X)
  (isect : X -> P -> P -> P -> P -> option P) (near : P -> P -> bool) (argsort : list P -> P -> list nat),
  (forall x, near x x = true) -> (forall xs x, Permutation (argsort xs x) (seq 0 (length xs))) ->
  forall (fs : list (list P)) (data : nat -> nat -> option (P * P)),
  (forall i j f g, i < j -> nth_error fs i = Some f -> nth_error fs j = Some g -> pp f g = Ok (data i j)) ->
  (forall i f, nth_error fs i = Some f -> f <> [] /\ (partners P data i (length fs) <> [] -> 4 <= length f)) ->
  (exists i f, nth_error fs i = Some f /\ ~ all_cross P (test_of P pos isect f) (segments P data (length fs) i)) ->
  intersect_2D_fractures P X pp pos isect near argsort fs = Err IndexError.
Proof. exact C95_fails_lemma. Qed.
Print Assumptions C95_uncrossed_fails.
(** a square crossed by two parallel ones *)
Example C95_uncrossed_fails_example : intersect_surfaces_q parallel_squares = Err IndexError.
Proof.
  exact (C95_uncrossed_fails point (nat * nat) pp_q pos_q (fun ij => line_line eps_12 (fst ij) (snd ij)) (near_q eps_12) argsort_q
    (fun x => near_q_refl eps_12 x eq_refl) argsort_q_perm parallel_squares (found_q parallel_squares) found_q_parallel corners_parallel uncrossed_parallel).
Qed.

(** The point id of a corner of the second fracture is not the number of its point. *)
Theorem C95_point_ids_refuted : exists cs ps, intersect_surfaces_q [square_x; square_y] = Ok (cs, ps) /\
  exists c x, nth_error cs 9 = Some c /\ sc_dim c = 0 /\ sc_pid c = Some 9 /\ hd_error square_y = Some x /\
    nth_error ps 4 = Some x /\ exists y, nth_error ps 9 = Some y /\ near_q eps_12 x y = false.
Proof. exact point_ids_lemma. Qed.
Print Assumptions C95_point_ids_refuted.
(** The common point of three fractures is a vertex, but the line of the last two is not split. *)
Theorem C95_triple_point_refuted : exists cs ps, intersect_surfaces_q three_squares = Ok (cs, ps) /\
  (exists v t c x, nth_error cs v = Some c /\ sc_dim c = 0 /\ sc_pid c = Some t /\ nth_error ps t = Some x /\ near_q eps_12 x (mk_point 0 0 0) = true) /\
  found_q three_squares 1 2 <> None /\
  (forall a b, found_q three_squares 1 2 = Some (a, b) -> near_q eps_12 (mk_point ((px a + px b) / 2) ((py a + py b) / 2) ((pz a + pz b) / 2)) (mk_point 0 0 0) = true) /\
  exists c, nth_error cs 40 = Some c /\ sc_dim c = 1 /\ sc_imm c = [] /\
    exists s1 s2, nth_error cs 17 = Some s1 /\ sc_imm s1 = [29; 40] /\ nth_error cs 26 = Some s2 /\ sc_imm s2 = [32; 40].
Proof. exact triple_point_lemma. Qed.
Print Assumptions C95_triple_point_refuted.
