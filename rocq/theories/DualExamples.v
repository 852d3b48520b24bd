(** * Concrete data for the dual forms *)
From Coq Require Import String List Arith Bool ZArith QArith Qcanon Lia.
From Verif Require Import Base FormModel FormSpec FormExamples AdModel AdModel2 AdSpec AdExamples SolidSpec DualModel DualSpec.
Import ListNotations.
Open Scope nat_scope.
Open Scope list_scope.

(** two stress functions, one of each other field, on a triangle; two points *)
Definition dx_inv (_ _ _ : nat) : Qc := q 0.
Definition dx_st : tab Qs := mk_tab (F := Qs) 2 2 2 (qgrid
  [[[[1; 0]; [2; 1]]; [[1; 1]; [0; 3]]]; [[[2; 0]; [1; 1]]; [[2; 0]; [1; 1]]]; [[[0; 1]; [0; -3]]; [[0; 1]; [0; -3]]]]%Z).
Definition dx_mt : tab Qs := mk_tab (F := Qs) 1 2 2 (qgrid
  [[[[1; 2]]; [[3; -1]]]; [[[1; 0]]; [[1; 0]]]; [[[0; 4]]; [[0; 4]]]]%Z).
Definition dx_ut : tab Qs := mk_tab (F := Qs) 1 0 1 (qgrid [[[[1]]; [[2]]]]%Z).
Definition dx_tt : tab Qs := mk_tab (F := Qs) 1 0 1 (qgrid [[[[3]]; [[1]]]]%Z).
Definition dx_det : nat -> Qc := qat [2; 2]%Z.
Definition dx_se : element Qs := mk_element (F := Qs) 2 dx_st dx_det dx_inv.
Definition dx_me : element Qs := mk_element (F := Qs) 2 dx_mt dx_det dx_inv.
Definition dx_ue : element Qs := mk_element (F := Qs) 2 dx_ut dx_det dx_inv.
Definition dx_te : element Qs := mk_element (F := Qs) 2 dx_tt dx_det dx_inv.
Definition dx_s : fe_field Qs := mk_fe_field (F := Qs) 2 false [dx_se].
Definition dx_m : fe_field Qs := mk_fe_field (F := Qs) 1 false [dx_me].
Definition dx_u : fe_field Qs := mk_fe_field (F := Qs) 2 true [dx_ue].
Definition dx_t : fe_field Qs := mk_fe_field (F := Qs) 1 true [dx_te].
Definition dx_w : list Qc := [q 1; q 3].
Definition dx_space : fe_space Qs := mk_fe_space (F := Qs)
  [("s"%string, dx_s); ("m"%string, dx_m); ("u"%string, dx_u); ("t"%string, dx_t)] [None; None; Some dx_w; None].
Definition dx_rhs : list (nat -> Qc) := [qat [5; 1]%Z; qat [7; 2]%Z; qat [11; 3]%Z].
Definition dx_scal (l : nat -> Qc) : list (string * (nat -> Qc)) :=
  [("lambda_s"%string, qat [3; 3]%Z); ("mu_s"%string, qat [2; 2]%Z); ("kappa_s"%string, qat [1; 1]%Z);
   ("lambda_o"%string, qat [1; 1]%Z); ("mu_o"%string, qat [3; 3]%Z); ("kappa_o"%string, qat [1; 1]%Z); ("l"%string, l)].
Definition dx_grad : list (nat -> Qc) := [qat [1; 1]%Z; qat [-2; -2]%Z].
Definition dx_fn : user_functions Qs := mk_user (F := Qs) [("rhs"%string, dx_rhs); ("grad_l"%string, dx_grad)] (dx_scal (qat [2; 4]%Z)).
Definition dx_with (rhs grad : list (nat -> Qc)) (l : nat -> Qc) : lce_input Qs :=
  mk_lce_input (F := Qs) dx_s dx_m dx_u dx_t dx_se dx_me dx_ue dx_te
    (qat [3; 3]%Z) (qat [2; 2]%Z) (qat [1; 1]%Z) (qat [1; 1]%Z) (qat [3; 3]%Z) (qat [1; 1]%Z) l rhs grad dx_w.
Definition dx_alpha : nat -> Qc := qat [1; -1; 2; 1; 1; 1; 0; 2]%Z.
Lemma dx_gets : forall r g, lce_gets (F := Qs) r g dx_space dx_fn 0 (dx_with (if r then dx_rhs else []) (if g then dx_grad else []) (qat [2; 4]%Z)).
Proof. intros [|] [|]; repeat split. Qed.
Lemma dx_fits : forall r g l, lce_dual_fits (F := Qs) (dx_with r g l).
Proof. intros. repeat split. left. reflexivity. Qed.
Lemma dx_load : forall g l, has_load (F := Qs) (dx_with dx_rhs g l).
Proof. intros. unfold has_load. simpl. auto. Qed.
Lemma dx_has_grad : forall r l, has_grad (F := Qs) (dx_with r dx_grad l).
Proof. intros. unfold has_grad. simpl. auto. Qed.
Lemma dx_regular : regular (F := Qs) dx_se dx_w.
Proof. intros i Hi. simpl in Hi. assert (C : i = 0 \/ i = 1) by lia. destruct C as [->| ->]; discriminate. Qed.

(** the same without a couple stress *)
Definition dy_space : fe_space Qs := mk_fe_space (F := Qs)
  [("s"%string, dx_s); ("u"%string, dx_u); ("t"%string, dx_t)] [None; None; Some dx_w; None].
Definition dy_fn : user_functions Qs := mk_user (F := Qs) [("rhs"%string, dx_rhs)] [("lambda"%string, qat [3; 3]%Z); ("mu"%string, qat [2; 2]%Z)].
Definition dy_data : ld_data Qs := mk_ld (F := Qs) dx_s dx_u dx_t dx_se dx_ue dx_te (qat [3; 3]%Z) (qat [2; 2]%Z) dx_rhs dx_w.
Definition dy_alpha : nat -> Qc := qat [1; -1; 2; 1; 1; 0; 2]%Z.
Lemma dy_gets : ld_gets dy_space dy_fn 0 dy_data.
Proof. repeat split. Qed.
Lemma dy_fits : ld_fits dy_data.
Proof. repeat split. left. reflexivity. Qed.
Lemma dy_load : ld_has_load dy_data.
Proof. unfold ld_has_load. simpl. auto. Qed.

(** a tetrahedron *)
Definition dz_st : tab Qs := mk_tab (F := Qs) 1 3 3 (qgrid
  [[[[1; 2; -1]]]; [[[1; 0; 0]]]; [[[0; 2; 0]]]; [[[0; 0; -1]]]]%Z).
Definition dz_mt : tab Qs := mk_tab (F := Qs) 1 3 3 (qgrid
  [[[[2; 0; 1]]]; [[[0; 1; 0]]]; [[[1; 1; 0]]]; [[[0; 0; 3]]]]%Z).
Definition dz_ut : tab Qs := mk_tab (F := Qs) 1 0 1 (qgrid [[[[1]]]]%Z).
Definition dz_det : nat -> Qc := qat [2]%Z.
Definition dz_se : element Qs := mk_element (F := Qs) 3 dz_st dz_det dx_inv.
Definition dz_me : element Qs := mk_element (F := Qs) 3 dz_mt dz_det dx_inv.
Definition dz_ue : element Qs := mk_element (F := Qs) 3 dz_ut dz_det dx_inv.
Definition dz_s : fe_field Qs := mk_fe_field (F := Qs) 3 false [dz_se].
Definition dz_m : fe_field Qs := mk_fe_field (F := Qs) 3 false [dz_me].
Definition dz_u : fe_field Qs := mk_fe_field (F := Qs) 3 true [dz_ue].
Definition dz_w : list Qc := [q 1].
Definition dz_space : fe_space Qs := mk_fe_space (F := Qs)
  [("s"%string, dz_s); ("m"%string, dz_m); ("u"%string, dz_u); ("t"%string, dz_u)] [None; None; None; Some dz_w].
Definition dz_rhs : list (nat -> Qc) := [qat [1]%Z; qat [2]%Z; qat [3]%Z; qat [4]%Z; qat [5]%Z; qat [6]%Z].
Definition dz_grad : list (nat -> Qc) := [qat [1]%Z; qat [-1]%Z; qat [2]%Z].
Definition dz_fn : user_functions Qs := mk_user (F := Qs) [("rhs"%string, dz_rhs); ("grad_l"%string, dz_grad)] (dx_scal (qat [2]%Z)).
Definition dz_with (rhs grad : list (nat -> Qc)) : lce_input Qs :=
  mk_lce_input (F := Qs) dz_s dz_m dz_u dz_u dz_se dz_me dz_ue dz_ue
    (qat [3; 3]%Z) (qat [2; 2]%Z) (qat [1; 1]%Z) (qat [1; 1]%Z) (qat [3; 3]%Z) (qat [1; 1]%Z) (qat [2]%Z) rhs grad dz_w.
Lemma dz_gets : forall r g, lce_gets (F := Qs) r g dz_space dz_fn 0 (dz_with (if r then dz_rhs else []) (if g then dz_grad else [])).
Proof. intros [|] [|]; repeat split. Qed.
Lemma dz_fits : forall r g, lce_dual_fits (F := Qs) (dz_with r g).
Proof. intros. repeat split. right. reflexivity. Qed.
Lemma dz_load : forall g, has_load (F := Qs) (dz_with dz_rhs g).
Proof. intros. unfold has_load. simpl. auto. Qed.
Lemma dz_has_grad : forall r, has_grad (F := Qs) (dz_with r dz_grad).
Proof. intros. unfold has_grad. simpl. auto. Qed.
Lemma dz_regular : regular (F := Qs) dz_se dz_w.
Proof. intros i Hi. simpl in Hi. assert (i = 0) as -> by lia. discriminate. Qed.
(** constant length 3 *)
Definition dl_data : lce_input Qs := dx_with dx_rhs [qat [0]%Z; qat [0]%Z] (fun _ => q 3).
Lemma dl_grad : forall g i, In g (li_grad_l dl_data) -> g i = @k0 Qs.
Proof. intros g i [<-|[<-|[]]]; destruct i as [|[|i]]; reflexivity. Qed.
