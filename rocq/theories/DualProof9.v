(** * The vectorized dual forms do not depend on the state *)
From Coq Require Import String List Arith Bool ZArith QArith Qcanon.
From Verif Require Import Base FormModel FormSpec FormExamples AdModel AdModel2 AdSpec AdExamples SolidSpec DualModel DualSpec DualExamples.
Import ListNotations.
Open Scope nat_scope.
Open Scope list_scope.

Lemma dual_state : ~ (forall (sp : fe_space Qs) fn iel alpha d, lce_gets true false sp fn iel d -> lce_dual_fits d -> has_load d -> regular (li_se d) (li_w d) ->
  exists L, lce_dual_vectorized (Some sp) (Some fn) iel alpha = Ok L /\
    system_of (du_size (plain_data d)) (dual_form (plain_data d)) (dual_load (plain_data d)) alpha L).
Proof.
  intros H. destruct (H dx_space dx_fn 0 dx_alpha _ (dx_gets true false) (dx_fits _ _ _) (dx_load _ _) dx_regular) as (L & E & S).
  destruct S as (_ & S & _). assert (E0 := S 0 (Nat.lt_0_succ 7)). clear S.
  assert (X : Ok (this (l_r L 0)) = Ok (0%Q)) by (transitivity (do L0 <- lce_dual_vectorized (F := Qs) (Some dx_space) (Some dx_fn) 0 dx_alpha; Ok (this (l_r L0 0))); [rewrite E|vm_compute]; reflexivity).
  rewrite E0 in X. vm_compute in X. discriminate X.
Qed.
Lemma le_dual_state : ~ (forall (sp : fe_space Qs) fn iel alpha d, ld_gets sp fn iel d -> ld_fits d -> ld_has_load d -> regular (ld_se d) (ld_w d) ->
  exists L, le_dual_vectorized (Some sp) (Some fn) iel alpha = Ok L /\
    system_of (du_size (elastic_data d)) (dual_form (elastic_data d)) (dual_load (elastic_data d)) alpha L).
Proof.
  intros H. destruct (H dy_space dy_fn 0 dy_alpha _ dy_gets dy_fits dy_load dx_regular) as (L & E & S).
  destruct S as (_ & S & _). assert (E0 := S 0 (Nat.lt_0_succ 6)). clear S.
  assert (X : Ok (this (l_r L 0)) = Ok (0%Q)) by (transitivity (do L0 <- le_dual_vectorized (F := Qs) (Some dy_space) (Some dy_fn) 0 dy_alpha; Ok (this (l_r L0 0))); [rewrite E|vm_compute]; reflexivity).
  rewrite E0 in X. vm_compute in X. discriminate X.
Qed.
Lemma scaled_dual_state : ~ (forall (sp : fe_space Qs) fn iel alpha d, lce_gets true true sp fn iel d -> lce_dual_fits d -> has_load d -> has_grad d -> regular (li_se d) (li_w d) ->
  exists L, lce_scaled_dual_vectorized (Some sp) (Some fn) iel alpha = Ok L /\
    system_of (du_size (scaled_data d)) (dual_form (scaled_data d)) (dual_load (scaled_data d)) alpha L).
Proof.
  intros H. destruct (H dx_space dx_fn 0 dx_alpha _ (dx_gets true true) (dx_fits _ _ _) (dx_load _ _) (dx_has_grad _ _) dx_regular) as (L & E & S).
  destruct S as (_ & S & _). assert (E0 := S 0 (Nat.lt_0_succ 7)). clear S.
  assert (X : Ok (this (l_r L 0)) = Ok (0%Q)) by (transitivity (do L0 <- lce_scaled_dual_vectorized (F := Qs) (Some dx_space) (Some dx_fn) 0 dx_alpha; Ok (this (l_r L0 0))); [rewrite E|vm_compute]; reflexivity).
  rewrite E0 in X. vm_compute in X. discriminate X.
Qed.
Lemma riesz_state : ~ (forall (sp : fe_space Qs) fn iel alpha d, lce_gets false false sp fn iel d -> lce_dual_fits d ->
  exists L, lce_riesz_vectorized (Some sp) (Some fn) iel alpha = Ok L /\
    system_of (du_size (plain_data d)) (riesz_form (plain_data d)) (fun _ => k0) alpha L).
Proof.
  intros H. destruct (H dx_space dx_fn 0 dx_alpha _ (dx_gets false false) (dx_fits _ _ _)) as (L & E & S).
  destruct S as (_ & S & _). assert (E0 := S 0 (Nat.lt_0_succ 7)). clear S.
  assert (X : Ok (this (l_r L 0)) = Ok (0%Q)) by (transitivity (do L0 <- lce_riesz_vectorized (F := Qs) (Some dx_space) (Some dx_fn) 0 dx_alpha; Ok (this (l_r L0 0))); [rewrite E|vm_compute]; reflexivity).
  rewrite E0 in X. vm_compute in X. discriminate X.
Qed.
