(** * Relations between errors and norms, and calls that fail *)
From Coq Require Import String List Arith Bool Lia Ring.
From Verif Require Import Base BaseProof FormModel FormSpec FormProof FormProof2 AdProof2 BcProof2 DualModel PostModel PostSpec PostProof.
Import ListNotations.
Open Scope list_scope.

Section Post2.
  Context {F : scalar} (HF : is_ring F) (ksqrt : F -> F).
  Let HR : ring_theory (@k0 F) k1 kadd kmul ksub kopp eq := HF.
  Add Ring KringV : HR.

  Lemma norm2_ext : forall dim w (fld : post_field F) m dirs u v,
    (forall pe i c d, In pe (on_dim dim fld) -> i < length w -> c < m -> d < dirs -> kmul (u pe i c d) (u pe i c d) = kmul (v pe i c d) (v pe i c d)) ->
    norm2 dim w fld m dirs u = norm2 dim w fld m dirs v.
  Proof.
    intros dim w fld m dirs u v H. unfold norm2. f_equal. apply map_ext_in. intros pe Hpe. unfold integral. rewrite !(Sum_ksum HF).
    apply ksum_ext. intros i Hi. f_equal. apply (Sum_ext HF). intros c Hc. apply (Sum_ext HF). intros d Hd. apply H; assumption.
  Qed.

  Lemma discrete_zero : forall alpha shift m pe i c d, (forall x, In x alpha -> x = @k0 F) -> discrete alpha shift m pe i c d = k0.
  Proof.
    intros alpha shift m pe i c d H. unfold discrete. rewrite (Sum_ksum HF). apply (ksum_zero HF). intros k Hk.
    unfold coefficient. destruct (nth_in_or_default (nth (k * m + c) (dofs_of pe) 0 + shift) alpha k0) as [E|E].
    - rewrite (H _ E). ring.
    - rewrite E. ring.
  Qed.

  (** the error of the zero solution is the norm of the exact function *)
  Theorem error_of_zero : forall dim (sp : post_space F) functions alpha skip w (f : string -> exact_fun F),
    NoDup (dkeys (ps_fields sp)) -> nth_error (ps_quadrature sp) dim = Some (Some w) ->
    (forall name fld, In (name, fld) (kept skip (ps_fields sp)) ->
       readable sp alpha 0 dim fld /\ dget functions name = Some (f name) /\ shape_fits dim fld (f name) /\
       (lagrange fld = false -> x_cols (f name) = dim)) ->
    (forall x, In x alpha -> x = k0) ->
    l2_error ksqrt dim sp functions alpha skip = l2_norm ksqrt dim sp functions skip.
  Proof.
    intros dim sp functions alpha skip w f ND HQ H Z.
    rewrite (l2_error_ok HF ksqrt dim sp functions alpha skip w f ND HQ).
    2:{ intros name fld I. destruct (H name fld I) as (H1 & H2 & H3 & _). exact (conj H1 (conj H2 H3)). }
    rewrite (l2_norm_ok HF ksqrt dim sp functions skip w f HQ).
    2:{ intros name fld I. destruct (H name fld I) as (_ & H2 & (H3 & H4) & H5). split; [exact H2|]. split; [exact H3|].
        change (is_lagrange (pf_family fld)) with (lagrange fld) in *; destruct (lagrange fld); [exact H4|apply H5; reflexivity]. }
    f_equal. apply map_ext_in. intros [name fld] I. cbn [fst snd]. f_equal. apply norm2_ext. intros pe i c d _ _ _ _.
    rewrite discrete_zero by exact Z. ring.
  Qed.

  (** the error with respect to the zero function is the norm of the discrete function *)
  Theorem error_to_zero : forall dim (sp : post_space F) functions alpha skip w (f : string -> exact_fun F),
    NoDup (dkeys (ps_fields sp)) -> nth_error (ps_quadrature sp) dim = Some (Some w) ->
    (forall name fld, In (name, fld) (kept skip (ps_fields sp)) ->
       readable sp alpha 0 dim fld /\ dget functions name = Some (f name) /\ shape_fits dim fld (f name) /\
       forall cell c d i, x_val (f name) cell c d i = k0) ->
    l2_error ksqrt dim sp functions alpha skip = l2_error_projected ksqrt dim sp alpha skip 0.
  Proof.
    intros dim sp functions alpha skip w f ND HQ H.
    rewrite (l2_error_ok HF ksqrt dim sp functions alpha skip w f ND HQ).
    2:{ intros name fld I. destruct (H name fld I) as (H1 & H2 & H3 & _). exact (conj H1 (conj H2 H3)). }
    rewrite (l2_projected_ok HF ksqrt dim sp alpha skip 0 w ND HQ).
    2:{ intros name fld I. destruct (H name fld I) as (H1 & _ & (H3 & H4) & _). split; [exact H1|].
        change (is_lagrange (pf_family fld)) with (lagrange fld) in *; destruct (lagrange fld); [exact H4|tauto]. }
    f_equal. apply map_ext_in. intros [name fld] I. destruct (H name fld I) as (_ & _ & _ & Z). cbn [fst snd]. f_equal.
    apply norm2_ext. intros pe i c d _ _ _ _. rewrite Z. ring.
  Qed.

  (** on cells of dimension 0 every error of a Lagrange field is that of the exact solution *)
  Theorem error_at_points : forall (sp : post_space F) functions alpha skip w,
    NoDup (dkeys (ps_fields sp)) -> nth_error (ps_quadrature sp) 0 = Some (Some w) ->
    (forall name fld, In (name, fld) (kept skip (ps_fields sp)) ->
       readable sp alpha 0 0 fld /\ (exists f, dget functions name = Some f) /\ lagrange fld = true) ->
    l2_error ksqrt 0 sp functions alpha skip = Ok (map (fun _ => ksqrt k0) (kept skip (ps_fields sp))).
  Proof.
    intros sp functions alpha skip w ND HQ H. unfold l2_error, rule_of, get_at. rewrite HQ. cbn [bind].
    rewrite (over_fields_ok sp _ _ (fun _ _ => ksqrt k0)).
    - rewrite kept_filter. reflexivity.
    - intros name fld I K. assert (I' : In (name, fld) (kept skip (ps_fields sp))).
      { rewrite <- kept_filter. apply filter_In. split; assumption. }
      destruct (H name fld I') as (R & (f & E) & L).
      rewrite (over_elements_ok HF 0 fld _ (fun _ => k0)).
      { cbn [bind]. f_equal. f_equal. generalize (on_dim 0 fld). induction l as [|x l IH]; [reflexivity|]. simpl. rewrite IH. ring. }
      intros i pe HE HD. destruct (local_ok sp alpha 0 0 name fld i pe ND I R HE HD) as (a & A1 & A2).
      unfold l2_error_term. rewrite A1. cbn [bind fst snd]. unfold dindex. rewrite E. cbn [bind]. change (is_lagrange (pf_family fld)) with (lagrange fld). rewrite L. reflexivity.
  Qed.

  Lemma mapM_fails : forall {A B} (f : A -> res B) l x, In x l -> (forall y, f x <> Ok y) -> forall r, mapM f l <> Ok r.
  Proof.
    intros A B f l x. induction l as [|a l IH]; intros I H r E; [destruct I|]. simpl in E. destruct I as [->|I].
    - destruct (f x) eqn:X; [|discriminate]. exact (H _ eq_refl).
    - destruct (f a); [|discriminate]. simpl in E. destruct (mapM f l) eqn:X; [|discriminate]. exact (IH I H _ eq_refl).
  Qed.
  Lemma over_elements_fails : forall dim (fld : post_field F) term i pe,
    nth_error (pf_elements fld) i = Some pe -> e_dim (pe_el pe) = dim -> (forall y, term i pe <> Ok y) -> forall r, over_elements dim fld term <> Ok r.
  Proof.
    intros dim fld term i pe HE HD H. unfold over_elements.
    assert (I : In (i, pe) (indexes dim fld)) by (apply indexes_In; split; assumption).
    generalize (@k0 F). induction (indexes dim fld) as [|x l IH]; intros s r E; [destruct I|]. simpl in E. destruct I as [->|I].
    - simpl in E. destruct (term i pe) eqn:X; [|discriminate]. exact (H _ eq_refl).
    - destruct (term (fst x) (snd x)); [|discriminate]. simpl in E. exact (IH I _ _ E).
  Qed.
  Lemma destinations_fails : forall (sp : post_space F) i nf, In nf (ps_fields sp) -> length (pf_elements (snd nf)) <= i ->
    forall r, destinations sp i <> Ok r.
  Proof.
    intros sp i nf I L. apply (mapM_fails _ _ nf I). intros y E. unfold get_at in E. rewrite (proj2 (nth_error_None _ _) L) in E. discriminate.
  Qed.
  Lemma local_fails : forall (sp : post_space F) i nf, In nf (ps_fields sp) -> length (pf_elements (snd nf)) <= i ->
    forall alpha shift name n r, local_coefficients sp alpha shift name i n <> Ok r.
  Proof.
    intros sp i nf I L alpha shift name n r E. unfold local_coefficients in E. destruct (destinations sp i) eqn:X; [|discriminate].
    exact (destinations_fails sp i nf I L _ X).
  Qed.

  (** an element of a field whose index does not exist in another field, skipped or not *)
  Theorem uneven_fails : forall dim (sp : post_space F) alpha skip name fld i pe other,
    In (name, fld) (kept skip (ps_fields sp)) -> nth_error (pf_elements fld) i = Some pe -> e_dim (pe_el pe) = dim ->
    In other (ps_fields sp) -> length (pf_elements (snd other)) <= i ->
    (forall functions r, l2_error ksqrt dim sp functions alpha skip <> Ok r) /\
    (forall shift r, l2_error_projected ksqrt dim sp alpha skip shift <> Ok r).
  Proof.
    intros dim sp alpha skip name fld i pe other I HE HD IO L.
    split; intros x r E; unfold l2_error, l2_error_projected in E; (destruct (rule_of sp dim) as [w|]; [|discriminate]); cbn [bind] in E;
      (revert E; apply (mapM_fails _ _ (name, fld)); [rewrite kept_filter; exact I|]); intros y E; cbn [fst snd] in E.
    - destruct (over_elements dim fld (l2_error_term dim sp w x alpha name fld)) eqn:X; [|discriminate].
      revert X. apply (over_elements_fails dim fld _ i pe HE HD). intros z X. unfold l2_error_term in X.
      destruct (local_coefficients sp alpha 0 name i (t_nphi (e_tab (pe_el pe)))) eqn:Y; [|discriminate].
      exact (local_fails sp i other IO L _ _ _ _ _ Y).
    - destruct (over_elements dim fld (l2_projected_term dim sp w alpha x name fld)) eqn:X; [|discriminate].
      revert X. apply (over_elements_fails dim fld _ i pe HE HD). intros z X. unfold l2_projected_term in X.
      destruct (local_coefficients sp alpha x name i (t_nphi (e_tab (pe_el pe)))) eqn:Y; [|discriminate].
      exact (local_fails sp i other IO L _ _ _ _ _ Y).
  Qed.

  (** in one dimension the divergence of every Lagrange field that is not skipped must be given *)
  Theorem div_error_needs : forall (sp : post_space F) functions alpha skip name fld,
    In (name, fld) (kept skip (ps_fields sp)) -> lagrange fld = true ->
    dget functions (String.append "div_" name) = None -> forall r, div_error ksqrt 1 sp functions alpha skip <> Ok r.
  Proof.
    intros sp functions alpha skip name fld I L N r E. unfold div_error in E. destruct (rule_of sp 1) as [w|]; [|discriminate]. cbn [bind] in E.
    revert E. apply (mapM_fails _ _ (name, fld)).
    - apply filter_In. apply kept_In in I as (I1 & I2). split; [exact I1|]. unfold div_keep. cbn [fst snd Nat.eqb]. change (is_lagrange (pf_family fld)) with (lagrange fld). rewrite L. cbn [andb].
      unfold skipped. destruct (memb name skip) eqn:M; [|reflexivity]. exfalso. apply I2. apply (proj1 (memb_In name skip)). exact M.
    - intros y E. cbn [fst snd] in E. unfold dindex in E. rewrite N in E. discriminate.
  Qed.
  (** a scaled error is silently left out when l or its gradient is not given *)
  Theorem div_scaled_nothing : forall dim (sp : post_space F) functions alpha skip r,
    dget functions "l"%string = None \/ dget functions "grad_l"%string = None ->
    div_scaled_error ksqrt dim sp functions alpha skip = Ok r -> r = [].
  Proof.
    intros dim sp functions alpha skip r N E. unfold div_scaled_error in E. destruct (rule_of sp dim) as [w|]; [|discriminate]. cbn [bind] in E.
    match type of E with (bind ?m _) = _ => destruct m as [l|] eqn:M; [|discriminate] end. cbn [bind] in E. injection E as <-.
    unfold over_fields in M. revert l M.
    match goal with |- forall l, mapM _ ?L = _ -> _ => induction L as [|nf fs IH]; intros l M end.
    - injection M as <-. reflexivity.
    - cbn [mapM] in M. destruct (dindex functions ("div_" ++ fst nf)%string); [|discriminate]. cbn [bind] in M.
      destruct (dget functions "l"%string) as [a|] eqn:E1; [destruct (dget functions "grad_l"%string) as [b|] eqn:E2|].
      { destruct N; discriminate. }
      all: cbn [bind] in M; match type of M with (bind ?m _) = _ => destruct m as [l'|] eqn:M'; [|discriminate] end;
           injection M as <-; simpl; exact (IH _ eq_refl).
  Qed.
End Post2.
