(** * Concrete data for the solids *)
From Coq Require Import String List Arith Bool ZArith QArith Qcanon Lia.
From Verif Require Import Base FormModel FormSpec FormExamples AdModel AdModel2 AdSpec AdExamples SolidSpec.
Import ListNotations.
Open Scope nat_scope.
Open Scope list_scope.

(** the triangle of AdExamples with a stress to reach *)
Definition sx_target (c dir i : nat) : Qc := qat (look [] [[7; 0]; [0; 3]]%Z c) dir.
Lemma sx_reads : sc_reads ee_space ee_fn 0 ee_data.
Proof. repeat split. Qed.
(** the stress of [ee_alpha] *)
Lemma sx_target_met : forall i c dir, i < length (le_w ee_data) -> c < le_dim ee_data -> dir < le_dim ee_data ->
  sx_target c dir i = le_stress (F := Qs) ee_data ee_alpha i c dir.
Proof.
  intros i c dir Hi Hc Hd. simpl in Hi. assert (i = 0%nat) as -> by lia. change (le_dim ee_data) with 2%nat in *.
  assert (C : c = 0%nat \/ c = 1%nat) by lia. assert (D : dir = 0%nat \/ dir = 1%nat) by lia.
  destruct C as [->| ->]; destruct D as [->| ->]; apply Qc_is_canon; vm_compute; reflexivity.
Qed.
Definition sx_other (c dir i : nat) : Qc := qat (look [] [[1; 2]; [3; 4]]%Z c) dir.

(** Taylor-Hood with one pressure function *)
Definition tx_pe : element Qs := mk_element (F := Qs) 2 (mk_tab (F := Qs) 2 0 1 (qgrid [[[[1]; [2]]]]%Z)) (qat [1]%Z) ee_inv.
Definition tx_p : fe_field Qs := mk_fe_field (F := Qs) 1 true [tx_pe].
Definition tx_space : fe_space Qs := mk_fe_space (F := Qs) [("u"%string, ee_u); ("p"%string, tx_p)] [None; None; Some ee_w; None].
Definition tx_data : th_data Qs := mk_th (F := Qs) ee_data tx_p tx_pe.
Lemma tx_reads : th_reads tx_space ee_fn 0 tx_data.
Proof. repeat split; simpl; auto with arith. Qed.
Lemma tx_fits : th_fits tx_data.
Proof. repeat split. Qed.
(** div u = 1, lambda + mu = 5, p = 1 * 1 + 2 * 2 *)
Definition tx_alpha (a : nat) : Qc := qat [0; 0; 1; 0; 0; 0; 1; 2]%Z a.
Lemma tx_consistent : forall i, i < length (le_w (th_le tx_data)) ->
  @kadd Qs (le_lambda (th_le tx_data) i) (le_mu (th_le tx_data) i) <> k0 /\
  th_press tx_data tx_alpha i = @kmul Qs (kadd (le_lambda (th_le tx_data) i) (le_mu (th_le tx_data) i)) (le_trace (th_le tx_data) tx_alpha i).
Proof.
  intros i Hi. simpl in Hi. assert (i = 0%nat) as -> by lia. split; [discriminate|apply Qc_is_canon; vm_compute; reflexivity].
Qed.

(** Cosserat on the triangle *)
Definition cx_te : element Qs := mk_element (F := Qs) 2 (mk_tab (F := Qs) 3 2 1 (qgrid
  [[[[1]; [1]; [-1]]]; [[[-1]; [1]; [0]]]; [[[-1]; [0]; [1]]]]%Z)) (qat [1]%Z) ee_inv.
Definition cx_t : fe_field Qs := mk_fe_field (F := Qs) 1 true [cx_te].
Definition cx_space : fe_space Qs := mk_fe_space (F := Qs) [("u"%string, ee_u); ("t"%string, cx_t)] [None; None; Some ee_w; None].
Definition cx_f : list (nat -> Qc) := [qat [5]%Z; qat [7]%Z; qat [11]%Z].
Definition cx_fn : user_functions Qs := mk_user (F := Qs) [("rhs"%string, cx_f)]
  [("lambda"%string, qat [3]%Z); ("mu"%string, qat [2]%Z); ("kappa"%string, qat [1]%Z); ("gamma"%string, qat [4]%Z)].
Definition cx_le : le_data Qs := mk_le (F := Qs) ee_u ee_e ee_w cx_f (qat [3]%Z) (qat [2]%Z).
Definition cx_data : lce_data Qs := mk_lce (F := Qs) cx_le cx_t cx_te (qat [1]%Z) (qat [4]%Z).
Lemma cx_reads : lce_reads cx_space cx_fn 0 cx_data.
Proof. repeat split; simpl; auto with arith. Qed.
Lemma cx_fits : lce_fits cx_data.
Proof. repeat split. left. reflexivity. Qed.
Definition cx_alpha (a : nat) : Qc := qat [0; 0; 1; 0; 0; 0; 0; 1; 0]%Z a.
(** the rotation (x, y) -> (-y, x) with the angle -1 *)
Definition cx_motion (a : nat) : Qc := qat [0; 0; 0; 1; -1; 0; -1; -1; -1]%Z a.
Lemma cx_motion_rigid : lce_rigid cx_data cx_motion.
Proof.
  intros i Hi. simpl in Hi. assert (i = 0%nat) as -> by lia. change (le_dim (lc_le cx_data)) with 2%nat. change (lc_rot cx_data) with 1%nat. split.
  - intros c dir Hc Hd. assert (C : c = 0%nat \/ c = 1%nat) by lia. assert (D : dir = 0%nat \/ dir = 1%nat) by lia.
    destruct C as [->| ->]; destruct D as [->| ->]; apply Qc_is_canon; vm_compute; reflexivity.
  - intros m dir Hm Hd. assert (m = 0%nat) as -> by lia. assert (D : dir = 0%nat \/ dir = 1%nat) by lia.
    destruct D as [->| ->]; apply Qc_is_canon; vm_compute; reflexivity.
Qed.
(** the same without kappa *)
Definition cz_fn : user_functions Qs := mk_user (F := Qs) [("rhs"%string, cx_f)]
  [("lambda"%string, qat [3]%Z); ("mu"%string, qat [2]%Z); ("kappa"%string, qat [0]%Z); ("gamma"%string, qat [4]%Z)].
Definition cz_data : lce_data Qs := mk_lce (F := Qs) cx_le cx_t cx_te (qat [0]%Z) (qat [4]%Z).
Lemma cz_reads : lce_reads cx_space cz_fn 0 cz_data.
Proof. repeat split; simpl; auto with arith. Qed.
Lemma cz_fits : lce_fits cz_data.
Proof. repeat split. left. reflexivity. Qed.
Lemma cz_kappa : forall i, i < length (le_w (lc_le cz_data)) -> lc_kappa cz_data i = @k0 Qs.
Proof. intros i Hi. simpl in Hi. assert (i = 0%nat) as -> by lia. reflexivity. Qed.

(** Cosserat on a tetrahedron *)
Definition cy_tab : tab Qs := mk_tab (F := Qs) 4 3 1 (qgrid
  [[[[1]; [1]; [-2]; [1]]]; [[[-1]; [1]; [0]; [0]]]; [[[-1]; [0]; [1]; [0]]]; [[[-1]; [0]; [0]; [1]]]]%Z).
Definition cy_e : element Qs := mk_element (F := Qs) 3 cy_tab (qat [1]%Z) ee_inv.
Definition cy_u : fe_field Qs := mk_fe_field (F := Qs) 3 true [cy_e].
Definition cy_w : list Qc := [q 1].
Definition cy_space : fe_space Qs := mk_fe_space (F := Qs) [("u"%string, cy_u); ("t"%string, cy_u)] [None; None; None; Some cy_w].
Definition cy_f : list (nat -> Qc) := [qat [1]%Z; qat [2]%Z; qat [3]%Z; qat [4]%Z; qat [5]%Z; qat [6]%Z].
Definition cy_fn : user_functions Qs := mk_user (F := Qs) [("rhs"%string, cy_f)]
  [("lambda"%string, qat [3]%Z); ("mu"%string, qat [2]%Z); ("kappa"%string, qat [1]%Z); ("gamma"%string, qat [4]%Z)].
Definition cy_data : lce_data Qs := mk_lce (F := Qs) (mk_le (F := Qs) cy_u cy_e cy_w cy_f (qat [3]%Z) (qat [2]%Z)) cy_u cy_e (qat [1]%Z) (qat [4]%Z).
Lemma cy_reads : lce_reads cy_space cy_fn 0 cy_data.
Proof. repeat split; simpl; auto with arith. Qed.
Lemma cy_fits : lce_fits cy_data.
Proof. repeat split. right. reflexivity. Qed.
(** the rotation about (1, 2, 3) *)
Definition cy_motion (a : nat) : Qc :=
  qat [0; 0; 0; 0; 3; -2; -3; 0; 1; 2; -1; 0; -1; -2; -3; -1; -2; -3; -1; -2; -3; -1; -2; -3]%Z a.
Lemma cy_motion_rigid : lce_rigid cy_data cy_motion.
Proof.
  intros i Hi. simpl in Hi. assert (i = 0%nat) as -> by lia. change (le_dim (lc_le cy_data)) with 3%nat. change (lc_rot cy_data) with 3%nat. split.
  - intros c dir Hc Hd. assert (C : c = 0%nat \/ c = 1%nat \/ c = 2%nat) by lia. assert (D : dir = 0%nat \/ dir = 1%nat \/ dir = 2%nat) by lia.
    destruct C as [->|[->| ->]]; destruct D as [->|[->| ->]]; apply Qc_is_canon; vm_compute; reflexivity.
  - intros m dir Hm Hd. assert (C : m = 0%nat \/ m = 1%nat \/ m = 2%nat) by lia. assert (D : dir = 0%nat \/ dir = 1%nat \/ dir = 2%nat) by lia.
    destruct C as [->|[->| ->]]; destruct D as [->|[->| ->]]; apply Qc_is_canon; vm_compute; reflexivity.
Qed.
