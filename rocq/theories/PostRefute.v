(** * Wrong errors: components and columns that are cut off *)
From Coq Require Import String List ZArith Bool Lia.
From Verif Require Import Base FormModel FormSpec FormExamples PostModel PostSpec PostExamples.
Import ListNotations.
Open Scope list_scope.
Open Scope nat_scope.

(** an edge with a field of two components; the second component is wrong *)
Definition pz_tab : tab Zs := mk_tab (F := Zs) 1 1 1 (fun _ _ _ _ => 1%Z).
Definition pz_u : post_field Zs := mk_pf (F := Zs) FLagrange 2
  [mk_pe (F := Zs) 0 (mk_element (F := Zs) 1 pz_tab (fun _ => 1%Z) no_inv) (Ok [0; 1])].
Definition pz_space : post_space Zs := mk_ps (F := Zs) [("u"%string, pz_u)] [None; Some [1%Z]; None; None].
Definition pz_f : exact_fun Zs := mk_exact (F := Zs) 2 1 (fun _ c _ _ => if c =? 0 then 4%Z else 0%Z).
Definition pz_alpha : list Zs := [4%Z; 9%Z].
Lemma pz_readable : readable pz_space pz_alpha 0 1 pz_u.
Proof.
  intros i pe HE HD. destruct i as [|i]; [|destruct i; discriminate]. injection HE as <-.
  split; [simpl; lia|]. split; [reflexivity|]. split; [intros d Hd; simpl in Hd |- *; lia|].
  intros nf [<-|[]]. do 2 eexists. split; reflexivity.
Qed.

Theorem components_cut : exists (sp : post_space Zs) name fld f alpha w,
  ps_fields sp = [(name, fld)] /\ nth_error (ps_quadrature sp) 1 = Some (Some w) /\
  readable sp alpha 0 1 fld /\ lagrange fld = true /\ x_rows f = pf_comp fld /\
  l2_error (F := Zs) px_id 1 sp [(name, f)] alpha [] = Ok [0%Z] /\
  norm2 1 w fld (pf_comp fld) 1 (fun pe i c d => ksub (x_val f (pe_cell pe) c d i) (discrete alpha 0 (pf_comp fld) pe i c d)) = 81%Z.
Proof.
  exists pz_space, "u"%string, pz_u, pz_f, pz_alpha, [1%Z]. split; [reflexivity|]. split; [reflexivity|]. split; [exact pz_readable|].
  repeat split.
Qed.

(** the stress of the triangles above given with three columns *)
Theorem columns_kept : exists (sp : post_space Zs) functions alpha,
  (forall x, In x alpha -> x = 0%Z) /\
  (exists e, l2_error (F := Zs) px_id 2 sp functions alpha ["u"%string] = Ok [e] /\ e = 62%Z) /\
  l2_norm (F := Zs) px_id 2 sp functions ["u"%string] = Ok [65%Z].
Proof.
  exists px_space, [("s"%string, px_fun 1 3 1%Z)], (repeat 0%Z 9). split; [intros x H; apply repeat_spec in H; exact H|].
  split; [eexists; split; [vm_compute; reflexivity|reflexivity]|vm_compute; reflexivity].
Qed.

(** on an edge, div_error reports the Lagrange field and div_norm does not *)
Theorem div_norm_missing : exists (sp : post_space Zs) functions alpha e,
  div_error (F := Zs) px_id 1 sp functions alpha [] = Ok [e] /\ div_norm (F := Zs) px_id 1 sp functions [] = Ok [].
Proof.
  exists pz_space, [("div_u"%string, pz_f)], pz_alpha. eexists. split; vm_compute; reflexivity.
Qed.
