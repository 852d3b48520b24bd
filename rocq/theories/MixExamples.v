(** * Concrete data for the mixed elliptic forms *)
From Coq Require Import String List Arith Bool ZArith QArith Qcanon Lia.
From Verif Require Import Base FormModel FormSpec FormExamples AdModel AdModel2 AdSpec AdExamples MixSpec.
Import ListNotations.
Open Scope nat_scope.
Open Scope list_scope.

(** square roots of 0, 1, 4, 9 *)
Definition mx_sqrt (x : Qc) : Qc :=
  if Qeq_bool (this x) 4 then q 2 else if Qeq_bool (this x) 9 then q 3 else if Qeq_bool (this x) 0 then q 0 else q 1.
Definition mx_positive (x : Qc) : bool := negb (Qle_bool (this x) 0).
Definition mx_small (x : Qc) : bool := Qle_bool (this x) 0.
Definition mx_space : fe_space Qs := mk_fe_space (F := Qs)
  [("u"%string, lx_u); ("p"%string, lx_p); ("v"%string, lx_u); ("q"%string, lx_p)] [None; None; Some lx_w; None].

(** a porosity that vanishes at the first point *)
Definition mx_grad : list (nat -> Qc) := [qat [1; 2]%Z; qat [0; 3]%Z].
Definition mx_fn : user_functions Qs := mk_user (F := Qs)
  [("rhs"%string, [qat [5; 7]%Z]); ("grad_d_phi"%string, mx_grad)]
  [("porosity"%string, qat [0; 4]%Z); ("d_phi"%string, qat [2; 3]%Z)].
Definition mx_data : por_data Qs := mk_por (F := Qs) lx_u lx_p lx_ue lx_pe lx_w [qat [5; 7]%Z] (qat [0; 4]%Z) (qat [2; 3]%Z) mx_grad.
Lemma mx_reads_v : por_reads "v" "q" mx_space mx_fn 0 mx_data.
Proof. repeat split; simpl; auto with arith. Qed.
Lemma mx_reads_u : por_reads "u" "p" mx_space mx_fn 0 mx_data.
Proof. repeat split; simpl; auto with arith. Qed.
Lemma mx_fits : por_fits mx_data.
Proof. repeat split; simpl; auto with arith. Qed.
Definition mx_phy : phy_data Qs := mk_phy (F := Qs) lx_u lx_p lx_ue lx_pe lx_w (qat [0; 4]%Z) (qat [2; 3]%Z).
Lemma mx_phy_reads : phy_reads mx_space mx_fn 0 mx_phy.
Proof. repeat split. Qed.
Lemma mx_phy_fits : phy_fits mx_phy.
Proof. repeat split; simpl; auto with arith. Qed.

(** a constant medium *)
Definition my_grad : list (nat -> Qc) := [qat [0; 0]%Z; qat [0; 0]%Z].
Definition my_fn : user_functions Qs := mk_user (F := Qs)
  [("rhs"%string, [qat [5; 7]%Z]); ("grad_d_phi"%string, my_grad)]
  [("porosity"%string, qat [4; 4]%Z); ("d_phi"%string, qat [3; 3]%Z)].
Definition my_data : por_data Qs := mk_por (F := Qs) lx_u lx_p lx_ue lx_pe lx_w [qat [5; 7]%Z] (qat [4; 4]%Z) (qat [3; 3]%Z) my_grad.
Lemma my_reads_v : por_reads "v" "q" mx_space my_fn 0 my_data.
Proof. repeat split; simpl; auto with arith. Qed.
Lemma my_reads_u : por_reads "u" "p" mx_space my_fn 0 my_data.
Proof. repeat split; simpl; auto with arith. Qed.
Lemma my_fits : por_fits my_data.
Proof. repeat split; simpl; auto with arith. Qed.
Lemma my_constant : constant_medium (F := Qs) mx_sqrt mx_positive mx_small my_data (q 4) (q 3).
Proof.
  split.
  - intros i Hi. change (length (po_w my_data)) with 2%nat in Hi. change (po_dim my_data) with 2%nat.
    assert (D : i = 0%nat \/ i = 1%nat) by lia.
    assert (E : forall dir, dir < 2 -> dir = 0%nat \/ dir = 1%nat) by (intros; lia).
    destruct D as [->| ->]; (split; [reflexivity|split; [reflexivity|]]); intros dir Hd; destruct (E dir Hd) as [->| ->]; reflexivity.
  - repeat split; discriminate.
Qed.
Definition my_phy : phy_data Qs := mk_phy (F := Qs) lx_u lx_p lx_ue lx_pe lx_w (qat [4; 4]%Z) (qat [3; 3]%Z).
Lemma my_phy_reads : phy_reads mx_space my_fn 0 my_phy.
Proof. repeat split. Qed.
Lemma my_phy_constant : forall i, i < length (ph_w my_phy) -> ph_phi my_phy i = q 4 /\ ph_delta my_phy i = q 3.
Proof. intros i Hi. simpl in Hi. assert (D : i = 0%nat \/ i = 1%nat) by lia. destruct D as [->| ->]; split; reflexivity. Qed.
Definition mx_state (a : nat) : Qc := qat [1; 2; -1; 3]%Z a.
Definition qline (r : res (local_system Qs)) : res (list Q) :=
  do L <- r; Ok (map (fun a => this (l_r L a)) (seq 0 (l_n L))).
