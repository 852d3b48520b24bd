(** * C70: the local system of the L2 projection *)
From Coq Require Import String List Arith Bool ZArith.
From Verif Require Import Base FormModel FormSpec FormProof FormProof2 FormExamples.
Import ListNotations.
Open Scope list_scope.

(** Every entry of the local system: -(f_c, phi_k) and (phi_k, phi_l); fields and components do
    not couple; the given state is not used *)
Theorem C70_entries : forall F, is_ring F ->
  forall (sp : fe_space F) fn iel alpha ds, Forall2 (reads sp fn iel) (fs_fields sp) ds ->
    exists L, l2_form (Some sp) (Some fn) iel alpha = Ok L /\
      l_n L = list_sum (map d_size ds) /\
      forall p d k c, nth_error ds p = Some d -> k < d_phi d -> c < d_comp d ->
        l2_dof ds p k c < l_n L /\
        l_r L (l2_dof ds p k c) = kopp (l2_load d c k) /\
        forall p' d' l c', nth_error ds p' = Some d' -> l < d_phi d' -> c' < d_comp d' ->
          l_j L (l2_dof ds p k c) (l2_dof ds p' l c') =
          if (p =? p') && (c =? c') then l2_mass d k l else k0.
Proof. exact @l2_system. Qed.
Print Assumptions C70_entries.

(** and these are all the entries *)
Theorem C70_all_numbers : forall F (ds : list (l2_data F)) a, a < list_sum (map d_size ds) ->
  exists p d k c, nth_error ds p = Some d /\ k < d_phi d /\ c < d_comp d /\ a = l2_dof ds p k c.
Proof. exact @l2_dof_onto. Qed.
Print Assumptions C70_all_numbers.

(** The form succeeds exactly when every field finds its function, its element and a rule *)
Theorem C70_succeeds_iff : forall F, is_ring F -> forall (sp : fe_space F) fn iel alpha,
  (exists L, l2_form (Some sp) (Some fn) iel alpha = Ok L) <->
  (exists ds, Forall2 (reads sp fn iel) (fs_fields sp) ds).
Proof. exact @l2_succeeds. Qed.
Print Assumptions C70_succeeds_iff.

(** The matrix is symmetric *)
Theorem C70_symmetric : forall F, is_ring F ->
  forall (sp : fe_space F) fn iel alpha L, l2_form (Some sp) (Some fn) iel alpha = Ok L ->
  forall a b, a < l_n L -> b < l_n L -> l_j L a b = l_j L b a.
Proof. exact @l2_form_symmetric. Qed.
Print Assumptions C70_symmetric.

(** Its quadratic form is the squared norm of the function with these coefficients *)
Theorem C70_norm : forall F, is_ring F ->
  forall (sp : fe_space F) fn iel alpha ds L x, Forall2 (reads sp fn iel) (fs_fields sp) ds ->
    l2_form (Some sp) (Some fn) iel alpha = Ok L ->
    Sum (l_n L) (fun a => kmul (x a) (Sum (l_n L) (fun b => kmul (l_j L a b) (x b)))) =
    Sum (length ds) (fun p => match nth_error ds p with
      | Some d => Sum (d_comp d) (fun c => integral (d_elem d) (d_w d) (fun i =>
          Sum (d_dirs d) (fun dir => kmul (l2_state ds p d x c dir i) (l2_state ds p d x c dir i))))
      | None => k0 end).
Proof. exact @l2_form_norm. Qed.
Print Assumptions C70_norm.

(** A function of the space is its own projection: its coefficients solve the local system *)
Theorem C70_reproduces : forall F, is_ring F ->
  forall (sp : fe_space F) fn iel alpha ds L x, Forall2 (reads sp fn iel) (fs_fields sp) ds ->
    l2_form (Some sp) (Some fn) iel alpha = Ok L ->
    (forall p d c dir i, nth_error ds p = Some d -> c < d_comp d -> dir < d_dirs d -> i < length (d_w d) ->
       d_rhs d c dir i = l2_state ds p d x c dir i) ->
    forall a, a < l_n L -> kadd (l_r L a) (Sum (l_n L) (fun b => kmul (l_j L a b) (x b))) = k0.
Proof. exact @l2_form_reproduces. Qed.
Print Assumptions C70_reproduces.

Example C70_case :
  entries_of (l2_form (Some l2_space) (Some l2_funs) 0 zero_state) =
  Ok (7%nat,
      [-47; -70; -84; -120; -246; -51; -117]%Z,
      [[11; 0; 12; 0; 0; 0; 0]; [0; 11; 0; 12; 0; 0; 0]; [12; 0; 24; 0; 0; 0; 0]; [0; 12; 0; 24; 0; 0; 0];
       [0; 0; 0; 0; 45; 0; 3]; [0; 0; 0; 0; 0; 5; 3]; [0; 0; 0; 0; 3; 3; 12]]%Z) /\
  Forall2 (reads l2_space l2_funs 0) (fs_fields l2_space) l2_ds.
Proof. split; [vm_compute; reflexivity|exact l2_ds_read]. Qed.
Example C70_reproduces_case : forall p d c dir i, nth_error l2_ds p = Some d -> c < d_comp d -> dir < d_dirs d -> i < length (d_w d) ->
   d_rhs d c dir i = l2_state (F := Zs) l2_ds p d l2_x c dir i.
Proof. exact l2_case_reproduces. Qed.
