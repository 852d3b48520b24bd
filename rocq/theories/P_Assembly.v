(** * Properties of the assembly (assembly/ScatterFormData.py,
    assembly/SequentialAssembler.py, postprocess/projectors.py): C24-C30 *)
From Coq Require Import List Arith ZArith Bool String Permutation.
From Verif Require Import Base AssemblyModel AssemblySpec AssemblyProof ProjectorModel ProjectorSpec ProjectorProof AssemblyExamples.
Import ListNotations.
Open Scope list_scope.

(** ** C24 *)
Theorem C24_residual : forall V add zero, exact add zero -> forall res_g n s forms ws,
  well_posed V res_g n s forms ws ->
  exists s', scatter_forms V add res_g (Z.of_nat n) forms s = (s', Ok tt) /\
    List.length (vec V s' res_g) = n /\
    forall g x, nth_error (vec V s res_g) g = Some x ->
      nth_error (vec V s' res_g) g = Some (add x (vsum V add zero (map (res_contrib V add zero (Z.of_nat g)) ws))).
Proof. exact assembly_residual. Qed.
Print Assumptions C24_residual.
Example C24_example : well_posed Z 0 3 ex_sys ex_forms ex_ws /\
  vec Z (fst (scatter_forms Z Z.add 0 3 ex_forms ex_sys)) 0 = [72; 58; 53]%Z /\
  map (fun g => vsum Z Z.add 0%Z (map (res_contrib Z Z.add 0%Z g) ex_ws)) [0; 1; 2]%Z = [71; 57; 52]%Z.
Proof. split; [exact ex_well_posed|]. split; vm_compute; reflexivity. Qed.

(** ** C25 *)
Theorem C25_jacobian : forall V add zero, exact add zero -> forall res_g n s forms ws,
  well_posed V res_g n s forms ws ->
  exists s', scatter_forms V add res_g (Z.of_nat n) forms s = (s', Ok tt) /\
    forall g h, jac V s' g h = add (jac V s g h) (vsum V add zero (map (jac_contrib V add zero g h) ws)).
Proof. exact assembly_jacobian. Qed.
Print Assumptions C25_jacobian.
Example C25_example : well_posed Z 0 3 ex_sys ex_forms ex_ws /\
  map (fun p => jac Z (fst (scatter_forms Z Z.add 0 3 ex_forms ex_sys)) (fst p) (snd p)) [(0, 0); (1, 1); (1, 2); (2, 1)]%Z
    = [104; 35; 7; 8]%Z /\
  map (fun p => vsum Z Z.add 0%Z (map (jac_contrib Z Z.add 0%Z (fst p) (snd p)) ex_ws)) [(0, 0); (1, 1); (1, 2); (2, 1)]%Z
    = [104; 35; 7; 8]%Z.
Proof. split; [exact ex_well_posed|]. split; vm_compute; reflexivity. Qed.

(** ** C26 *)
Theorem C26_order_independent : forall V add zero, exact add zero -> forall res_g n s forms forms' ws,
  well_posed V res_g n s forms ws -> reordered V forms forms' ->
  exists s1 s2, scatter_forms V add res_g (Z.of_nat n) forms s = (s1, Ok tt) /\
    scatter_forms V add res_g (Z.of_nat n) forms' s = (s2, Ok tt) /\
    vecs V s1 = vecs V s2 /\ forall r c, jac V s1 r c = jac V s2 r c.
Proof. exact assembly_reordered. Qed.
Print Assumptions C26_order_independent.
Example C26_example : reordered Z ex_forms1 ex_forms' /\
  vecs Z (fst (scatter_forms Z Z.add 0 3 ex_forms1 ex_sys)) = vecs Z (fst (scatter_forms Z Z.add 0 3 ex_forms' ex_sys)).
Proof.
  split; [|vm_compute; reflexivity].
  exists [mk_input Z "time_dependent_form" [Idx 1] ex_form [ATuple Z [2; 1]; ANum Z 9%Z];
     mk_input Z "form" [Idx 0; Idx 1] ex_form [AVec Z 1]].
  split; [apply perm_swap|]. constructor; [|constructor; [|constructor]].
  - repeat (split; [reflexivity|]). apply Permutation_refl.
  - repeat (split; [reflexivity|]). apply perm_swap.
Qed.

(** ** C27: whatever the outcome, also when an exception is raised on the way *)
Theorem C27_frame : forall V add res_g n forms s s' r,
  scatter_forms V add res_g n forms s = (s', r) ->
  (forall v, v <> res_g -> vec V s' v = vec V s v) /\
  List.length (vecs V s') = List.length (vecs V s) /\
  List.length (vec V s' res_g) = List.length (vec V s res_g) /\
  (forall k, (forall d, dest_of V forms d ->
       ~ In (Z.of_nat k) d /\ ~ In (Z.of_nat k - Z.of_nat (List.length (vec V s res_g)))%Z d) ->
     nth_error (vec V s' res_g) k = nth_error (vec V s res_g) k) /\
  (forall g h, (forall d, dest_of V forms d -> ~ (In g d /\ In h d)) -> jac V s' g h = jac V s g h) /\
  (exists cl, calls V s' = calls V s ++ cl).
Proof. exact assembly_frame. Qed.
Print Assumptions C27_frame.
Example C27_example : let f := [mk_input Z "form" [Idx 0; Idx 5] ex_form [AVec Z 1]] in
  exists s', scatter_forms Z Z.add 0 3 f ex_sys = (s', Err KeyError) /\
    vecs Z s' = [[6; 7; 1]; [5; 6; 7]; [2; 3; 4]]%Z /\ dest_of Z f [0; 1]%Z /\
    (forall d, dest_of Z f d -> ~ In 2%Z d /\ ~ In (-1)%Z d).
Proof.
  intros f. eexists. split; [vm_compute; reflexivity|]. split; [vm_compute; reflexivity|]. split.
  - exists (mk_input Z "form" [Idx 0; Idx 5] ex_form [AVec Z 1]), (Idx 0).
    split; [left; reflexivity|]. split; [left; reflexivity|]. constructor. reflexivity.
  - intros d (f' & x & [<-|[]] & Hx & Hd). cbn [fi_seq fi_form fi_type] in *.
    destruct Hx as [<-|[<-|[]]]; inversion Hd; subst; match goal with E : wf_dest _ _ _ = Ok _ |- _ => vm_compute in E; inversion E end.
    split; simpl; intros [Q|[Q|[]]]; discriminate Q.
Qed.

(** ** C28: which arguments the forms receive.  The relation [local_call] says it per type;
    for time-dependent boundary forms the code passes the previous solution (see below). *)
Theorem C28_local_states_partial : forall V add zero, exact add zero -> forall res_g n s forms ws,
  well_posed V res_g n s forms ws ->
  exists s', scatter_forms V add res_g (Z.of_nat n) forms s = (s', Ok tt) /\
    calls V s' = calls V s ++ combine (map (tk_form V) (tasks V forms)) (map (lo_call V) ws).
Proof. exact assembly_calls. Qed.
Print Assumptions C28_local_states_partial.
Example C28_example : well_posed Z 0 3 ex_sys ex_forms ex_ws /\
  map snd (calls Z (fst (scatter_forms Z Z.add 0 3 ex_forms ex_sys))) =
  [Call2 Z 0 [5; 6]; Call2 Z 1 [6; 7]; Call2 Z 0 [5]; CallPair Z 0 0 1 [5; 6] [6; 7]; Call3p Z 0 1 [6; 7];
   Call4 Z 1 [3; 4] [6; 7] 9; Call3t Z 0 [2] 9]%Z.
Proof. split; [exact ex_well_posed|vm_compute; reflexivity]. Qed.
Theorem C28_time_dependent_bc_refuted : exists (s s' : sys Z) w alpha_n alpha t d,
  wf_bc_dest Z w 0 = Ok d /\
  scatter_forms Z Z.add 0 3 [mk_input Z "time_dependent_bc_form" [Idx 0] w [ATuple Z [alpha_n; alpha]; ANum Z t]] s = (s', Ok tt) /\
  restriction Z (vec Z s alpha) d [5%Z] /\ calls Z s' = [(w, Call3t Z 0 [2%Z] t)].
Proof.
  exists ex_sys, (mk_sys Z [[12; 1; 1]; [5; 6; 7]; [2; 3; 4]]%Z
     (fun r c => if ((r =? 0) && (c =? 0))%Z then (0 + 1)%Z else 0%Z) [(ex_form, Call3t Z 0 [2%Z] 9%Z)]), ex_form, 2, 1, 9%Z, [0%Z].
  split; [reflexivity|]. split; [vm_compute; reflexivity|]. split; [repeat constructor; discriminate|reflexivity].
Qed.
Print Assumptions C28_time_dependent_bc_refuted.

(** ** C29 *)
Theorem C29_rejects : forall V add res_g n pre f post e s s1,
  scatter_forms V add res_g n pre s = (s1, Ok tt) -> rejected V f e ->
  scatter_forms V add res_g n (pre ++ f :: post) s = (s1, Err e).
Proof. exact rejected_forms. Qed.
Print Assumptions C29_rejects.
Theorem C29_dispatch : forall V add zero, exact add zero -> forall res_g n s pre ws f e post,
  well_posed V res_g n s pre ws -> rejected V f e ->
  exists s', scatter_forms V add res_g (Z.of_nat n) (pre ++ f :: post) s = (s', Err e) /\
    calls V s' = calls V s ++ combine (map (tk_form V) (tasks V pre)) (map (lo_call V) ws) /\
    (forall g x, nth_error (vec V s res_g) g = Some x ->
      nth_error (vec V s' res_g) g = Some (add x (vsum V add zero (map (res_contrib V add zero (Z.of_nat g)) ws)))) /\
    (forall g h, jac V s' g h = add (jac V s g h) (vsum V add zero (map (jac_contrib V add zero g h) ws))).
Proof. exact dispatch_lemma. Qed.
Print Assumptions C29_dispatch.
Example C29_example :
  rejected Z (mk_input Z "bulk" [Idx 0] ex_form [AVec Z 1]) KeyError /\
  rejected Z (mk_input Z "form" [Idx 0] ex_form [AVec Z 1; ANum Z 0%Z]) ValueError /\
  rejected Z (mk_input Z "my_time_dependent_x" [Idx 0] ex_form [ATuple Z [2; 1]; ANum Z 0%Z]) KeyError /\
  snd (scatter_forms Z Z.add 0 3 (ex_forms ++ mk_input Z "bulk" [Idx 0] ex_form [AVec Z 1] :: ex_forms) ex_sys) = Err KeyError /\
  vec Z (fst (scatter_forms Z Z.add 0 3 (ex_forms ++ mk_input Z "bulk" [Idx 0] ex_form [AVec Z 1] :: ex_forms) ex_sys)) 0 = [72; 58; 53]%Z.
Proof.
  split; [|split; [|split; [|split; vm_compute; reflexivity]]].
  - apply RPlainType; [|reflexivity|simpl; intuition discriminate].
    intros H. apply contains_occurs in H; [|discriminate]. vm_compute in H. discriminate.
  - apply RPlainCount; [|discriminate].
    intros H. apply contains_occurs in H; [|discriminate]. vm_compute in H. discriminate.
  - eapply RTimedType; [exists 3; reflexivity|reflexivity|simpl; intuition discriminate].
Qed.

(** ** C30 *)
Theorem C30_projection_system_partial : forall V add zero, exact add zero -> forall close n sp eval shift sym ws,
  fs_n_dof sp = n ->
  Forall2 (element_ok zero n (fs_dest sp 0) eval shift) (seq 0 (fs_elements sp)) ws ->
  Forall (nothing_lost zero close) ws ->
  (sym = true -> Forall (fun w => symmetric_matrix (lo_jac V w)) ws) ->
  exists s, l2_assemble V add zero close sp eval shift sym = (s, fs_shift sp, Ok tt) /\
    (forall g h, represented V sym s g h = vsum V add zero (map (jac_contrib V add zero g h) ws)) /\
    List.length (vec V s rg_ref) = n /\
    (forall g, g < n -> nth_error (vec V s rg_ref) g = Some (vsum V add zero (map (res_contrib V add zero (Z.of_nat g)) ws))).
Proof. exact l2_lemma. Qed.
Print Assumptions C30_projection_system_partial.
Example C30_example :
  Forall2 (element_ok 0%Z 4 (fs_dest ex_space 0) ex_mass 1) (seq 0 (fs_elements ex_space)) ex_mass_ws /\
  Forall (nothing_lost 0%Z np_isclose_24) ex_mass_ws /\ Forall (fun w => symmetric_matrix (lo_jac Z w)) ex_mass_ws /\
  (let '(s, shift, r) := l2_assemble Z Z.add 0%Z np_isclose_24 ex_space ex_mass 1 true in
   shift = 17%Z /\ r = Ok tt /\ vec Z s rg_ref = [0; 3; 7; 4]%Z /\
   represented Z true s 2 2 = (4 * big)%Z /\ represented Z true s 2 1 = big /\ jac Z s 2 1 = 0%Z).
Proof.
  split; [apply ex_elements; reflexivity|]. split; [|split].
  - repeat constructor; intros row v Hr Hv C; simpl in Hr;
      repeat (destruct Hr as [<-|Hr]; [simpl in Hv; repeat (destruct Hv as [<-|Hv]; [vm_compute in C; discriminate C|]); destruct Hv|]); destruct Hr.
  - repeat constructor; apply ex_symmetric.
  - vm_compute. repeat split.
Qed.
(** Entries of size up to 1e-8 are dropped: on a mesh of small elements the matrix is zero *)
Theorem C30_small_entries_refuted : exists sp eval ws,
  Forall2 (element_ok 0%Z 4 (fs_dest sp 0) eval 1) (seq 0 (fs_elements sp)) ws /\
  Forall (fun w => symmetric_matrix (lo_jac Z w)) ws /\
  vsum Z Z.add 0%Z (map (jac_contrib Z Z.add 0%Z 2%Z 2%Z) ws) = (4 * 10 ^ 15)%Z /\
  forall sym, snd (l2_assemble Z Z.add 0%Z np_isclose_24 sp eval 1 sym) = Ok tt /\
    forall g h, represented Z sym (fst (fst (l2_assemble Z Z.add 0%Z np_isclose_24 sp eval 1 sym))) g h = 0%Z.
Proof.
  exists ex_space, ex_small_mass, ex_small_ws.
  split; [apply ex_elements; reflexivity|]. split; [repeat constructor; apply ex_symmetric|].
  split; [vm_compute; reflexivity|]. intros [|]; split; vm_compute; auto.
Qed.
Print Assumptions C30_small_entries_refuted.
