(** * Concrete networks of fractures in space *)
From Coq Require Import List Arith ZArith Bool QArith Permutation Lia.
From Verif Require Import Base FracModel FracSpec SegModel SegProof TriModel SurfModel SurfSpec SurfProof2 SurfProof3.
Import ListNotations.
Local Open Scope nat_scope.

(** squares in the planes x = 0, y = 0, z = 0 *)
Definition square_x : list point := [mk_point 0 (-1) (-1); mk_point 0 1 (-1); mk_point 0 1 1; mk_point 0 (-1) 1].
Definition square_y : list point := [mk_point (-1) 0 (-1); mk_point 1 0 (-1); mk_point 1 0 1; mk_point (-1) 0 1].
Definition square_z (z : Q) : list point := [mk_point (-1) (-1) z; mk_point 1 (-1) z; mk_point 1 1 z; mk_point (-1) 1 z].
Definition three_squares : list (list point) := [square_x; square_y; square_z 0].
Definition parallel_squares : list (list point) := [square_x; square_z (1 # 3); square_z (-1 # 3)].
(** the segments found by the code *)
Definition found_q (fs : list (list point)) (i j : nat) : option (point * point) :=
  match nth_error fs i, nth_error fs j with
  | Some f, Some g => match pp_q f g with Ok o => o | Err _ => None end
  | _, _ => None
  end.
Definition test_q : list point -> point -> point -> point -> point -> option point :=
  test_of point pos_q (fun ij => line_line eps_12 (fst ij) (snd ij)).

Lemma found_q_three : forall i j f g, i < j -> nth_error three_squares i = Some f -> nth_error three_squares j = Some g -> pp_q f g = Ok (found_q three_squares i j).
Proof.
  intros [|[|[|i]]] [|[|[|j]]] f g L F G; try lia; try (destruct i; discriminate); try (destruct j; discriminate); injection F as <-; injection G as <-; vm_compute; reflexivity.
Qed.
Lemma found_q_parallel : forall i j f g, i < j -> nth_error parallel_squares i = Some f -> nth_error parallel_squares j = Some g -> pp_q f g = Ok (found_q parallel_squares i j).
Proof.
  intros [|[|[|i]]] [|[|[|j]]] f g L F G; try lia; try (destruct i; discriminate); try (destruct j; discriminate); injection F as <-; injection G as <-; vm_compute; reflexivity.
Qed.
Lemma corners_three : forall i f, nth_error three_squares i = Some f -> f <> [] /\ (partners point (found_q three_squares) i 3 <> [] -> 4 <= length f).
Proof. intros [|[|[|i]]] f F; [injection F as <-..|destruct i; discriminate]; (split; [discriminate|intros _; cbn; lia]). Qed.
Lemma corners_parallel : forall i f, nth_error parallel_squares i = Some f -> f <> [] /\ (partners point (found_q parallel_squares) i 3 <> [] -> 4 <= length f).
Proof. intros [|[|[|i]]] f F; [injection F as <-..|destruct i; discriminate]; (split; [discriminate|intros _; cbn; lia]). Qed.
Lemma cross_three : forall i f, nth_error three_squares i = Some f -> all_cross point (test_q f) (segments point (found_q three_squares) 3 i).
Proof. intros [|[|[|i]]] f F; [injection F as <-..|destruct i; discriminate]; apply crossing_spec; vm_compute; reflexivity. Qed.
Lemma uncrossed_parallel : exists i f, nth_error parallel_squares i = Some f /\ ~ all_cross point (test_q f) (segments point (found_q parallel_squares) 3 i).
Proof.
  exists 0, square_x. split; [reflexivity|]. intros H. apply crossing_spec in H. vm_compute in H. discriminate.
Qed.

(** The point of the first corner of the second square is the fifth one, number 4; its vertex
    has point id 9, which is a point of the intersection. *)
Lemma point_ids_lemma : exists cs ps, intersect_surfaces_q [square_x; square_y] = Ok (cs, ps) /\
  exists c x, nth_error cs 9 = Some c /\ sc_dim c = 0 /\ sc_pid c = Some 9 /\ hd_error square_y = Some x /\
    nth_error ps 4 = Some x /\ exists y, nth_error ps 9 = Some y /\ near_q eps_12 x y = false.
Proof.
  do 2 eexists. split; [vm_compute; reflexivity|]. do 2 eexists. do 5 (split; [vm_compute; reflexivity|]). eexists. split; vm_compute; reflexivity.
Qed.
(** The lines of the first square are split at the common point of the squares; the line
    shared by the second and third square (cell 40) contains it and is not. *)
Lemma triple_point_lemma : exists cs ps, intersect_surfaces_q three_squares = Ok (cs, ps) /\
  (exists v t c x, nth_error cs v = Some c /\ sc_dim c = 0 /\ sc_pid c = Some t /\ nth_error ps t = Some x /\ near_q eps_12 x (mk_point 0 0 0) = true) /\
  found_q three_squares 1 2 <> None /\
  (forall a b, found_q three_squares 1 2 = Some (a, b) -> near_q eps_12 (mk_point ((px a + px b) / 2) ((py a + py b) / 2) ((pz a + pz b) / 2)) (mk_point 0 0 0) = true) /\
  exists c, nth_error cs 40 = Some c /\ sc_dim c = 1 /\ sc_imm c = [] /\
    exists s1 s2, nth_error cs 17 = Some s1 /\ sc_imm s1 = [29; 40] /\ nth_error cs 26 = Some s2 /\ sc_imm s2 = [32; 40].
Proof.
  do 2 eexists. split; [vm_compute; reflexivity|]. split; [|split; [|split]].
  - exists 33, 16. do 2 eexists. repeat (split; [vm_compute; reflexivity|]). vm_compute; reflexivity.
  - vm_compute. discriminate.
  - intros a b E. vm_compute in E. injection E as <- <-. vm_compute. reflexivity.
  - eexists. repeat (split; [vm_compute; reflexivity|]). do 2 eexists. repeat (split; [vm_compute; reflexivity|]). vm_compute; reflexivity.
Qed.
