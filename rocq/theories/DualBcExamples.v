(** * Concrete cases for the boundary forms of the dual problems *)
From Coq Require Import String List ZArith Bool Lia.
From Verif Require Import Base FormModel FormSpec FormExamples AdModel AdModel2 AdSpec AdExamples BcSpec DualBcModel DualBcSpec DualBcProof2.
Import ListNotations.
Open Scope list_scope.
Open Scope nat_scope.

(** the facet of a triangle with two functions of the flux family, numbers 1 and 2 of the
    triangle for the stress, 0 and 2 for the couple stress; the stress has two rows, the couple
    stress one *)
Definition dx_tab : tab Zs := mk_tab (F := Zs) 3 2 2 (grid [[[[1; 0]; [2; 5]; [0; 1]]; [[1; 1]; [3; 4]; [0; 2]]]]%Z).
Definition dx_ts : trace_data Zs := mk_trace (F := Zs) 2 [1; 2] dx_tab [3; 4; 0]%Z.
Definition dx_tm : trace_data Zs := mk_trace (F := Zs) 2 [0; 2] dx_tab [3; 4; 0]%Z.
Definition dx_e : element Zs := mk_element (F := Zs) 1 (mk_tab (F := Zs) 2 0 1 (grid [[[[1]; [1]]; [[1]; [1]]]]%Z)) (look 0%Z [2; 3]%Z) no_inv.
Definition dx_s : fe_field Zs := mk_fe_field (F := Zs) 2 false [dx_e].
Definition dx_m : fe_field Zs := mk_fe_field (F := Zs) 1 false [dx_e].
Definition dx_space : fe_space Zs := mk_fe_space (F := Zs) [("s"%string, dx_s); ("m"%string, dx_m)] [None; Some be_w; None; None].
Definition dx_fn : user_functions Zs := mk_user (F := Zs)
  [("u"%string, be_g); ("t"%string, be_g); ("s"%string, be_g); ("m"%string, be_g); ("grad_l"%string, be_g)]
  [("l"%string, look 0%Z [2; 3]%Z)].
Definition dx_ds : bc_data Zs := mk_bc (F := Zs) dx_s dx_e be_w be_g.
Definition dx_dm : bc_data Zs := mk_bc (F := Zs) dx_m dx_e be_w be_g.
Lemma dx_reads_s : bc_reads dx_space dx_fn "s" "u" 0 dx_ds.
Proof. repeat split. Qed.
Lemma dx_reads_m : bc_reads dx_space dx_fn "m" "t" 0 dx_dm.
Proof. repeat split. Qed.
Lemma dx_reads_ss : bc_reads dx_space dx_fn "s" "s" 0 dx_ds.
Proof. repeat split. Qed.
Lemma dx_reads_mm : bc_reads dx_space dx_fn "m" "m" 0 dx_dm.
Proof. repeat split. Qed.
Lemma dx_fits_s : flux_fits (flux_of dx_ds dx_ts).
Proof. repeat split; simpl; auto with arith. Qed.
Lemma dx_fits_m : flux_fits (flux_of dx_dm dx_tm).
Proof. repeat split; simpl; auto with arith. Qed.
Lemma dx_same : same_facet dx_ds dx_dm dx_ts dx_tm.
Proof. repeat split. Qed.
