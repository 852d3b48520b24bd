(** * Errors and norms of solutions *)
From Coq Require Import String List Arith Bool Lia Ring Field.
From Verif Require Import Base BaseProof FormModel FormSpec FormProof FormProof2 AdProof2 DualModel PostModel PostSpec.
Import ListNotations.
Open Scope list_scope.

Lemma broadcast_same : forall n, broadcast n n = Ok n.
Proof. intros. unfold broadcast. rewrite Nat.eqb_refl. reflexivity. Qed.
Lemma axis_index_lt : forall n i, i < n -> axis_index n i = i.
Proof. intros. unfold axis_index. destruct (Nat.eqb_spec n 1); lia. Qed.
Lemma mapM_ok : forall {A B} (f : A -> res B) (g : A -> B) l, (forall x, In x l -> f x = Ok (g x)) -> mapM f l = Ok (map g l).
Proof.
  intros A B f g l. induction l as [|x l IH]; intros H; [reflexivity|]. simpl. rewrite H by (left; reflexivity). simpl.
  rewrite IH by (intros; apply H; right; assumption). reflexivity.
Qed.

Lemma filter_both : forall {A} (p q : A -> bool) l, filter (fun x => p x && q x) l = filter p (filter q l).
Proof.
  intros. induction l as [|x l IH]; [reflexivity|]. simpl. destruct (q x); simpl.
  - rewrite andb_true_r. destruct (p x); rewrite IH; reflexivity.
  - rewrite andb_false_r. exact IH.
Qed.

Section Post.
  Context {F : scalar} (HF : is_ring F).
  Let HR : ring_theory (@k0 F) k1 kadd kmul ksub kopp eq := HF.
  Add Ring KringU : HR.

  Lemma kept_filter : forall skip (fields : dict string (post_field F)),
    filter (fun nf => negb (skipped skip (fst nf))) fields = kept skip fields.
  Proof.
    intros. unfold kept. apply filter_ext. intros [n f]. cbn [fst]. unfold skipped.
    destruct (in_dec string_dec n skip) as [H|H].
    - apply (proj2 (memb_In n skip)) in H. rewrite H. reflexivity.
    - destruct (memb n skip) eqn:E; [|reflexivity]. exfalso. apply H. apply (proj1 (memb_In n skip)). exact E.
  Qed.

  (** the elements by index *)
  Lemma indexes_In : forall dim (fld : post_field F) i pe, In (i, pe) (indexes dim fld) <->
    nth_error (pf_elements fld) i = Some pe /\ e_dim (pe_el pe) = dim.
  Proof.
    intros dim fld i pe. unfold indexes. rewrite filter_In. simpl. rewrite Nat.eqb_eq. split; intros (H1 & H2); (split; [|exact H2]).
    - apply In_nth_error in H1 as (n & Hn).
      assert (L : n < length (pf_elements fld)).
      { assert (n < length (combine (seq 0 (length (pf_elements fld))) (pf_elements fld))) by (apply nth_error_Some; congruence).
        rewrite combine_length, seq_length in H. lia. }
      pose proof (nth_error_nth _ _ (0, pe) Hn) as E. rewrite combine_nth in E by apply seq_length.
      rewrite seq_nth in E by exact L. injection E as <- E. simpl. rewrite <- E. apply nth_error_nth'. exact L.
    - assert (L : i < length (pf_elements fld)) by (apply nth_error_Some; congruence).
      replace (i, pe) with (nth i (combine (seq 0 (length (pf_elements fld))) (pf_elements fld)) (0, pe)).
      + apply nth_In. rewrite combine_length, seq_length. lia.
      + rewrite combine_nth by apply seq_length. rewrite seq_nth by exact L. simpl. f_equal. apply nth_error_nth. exact H1.
  Qed.
  Lemma indexes_on_dim : forall dim (fld : post_field F), map snd (indexes dim fld) = on_dim dim fld.
  Proof.
    intros. unfold indexes, on_dim. generalize 0. induction (pf_elements fld) as [|e l IH]; intros s; [reflexivity|]. simpl.
    destruct (e_dim (pe_el e) =? dim); simpl; rewrite IH; reflexivity.
  Qed.
  Lemma on_dim_index : forall dim (fld : post_field F) pe, In pe (on_dim dim fld) -> exists i, nth_error (pf_elements fld) i = Some pe /\ e_dim (pe_el pe) = dim.
  Proof.
    intros dim fld pe H. rewrite <- indexes_on_dim in H. apply in_map_iff in H as ((i & pe') & <- & H). exists i. apply indexes_In. exact H.
  Qed.

  Lemma over_elements_ok : forall dim (fld : post_field F) term (g : post_element F -> F),
    (forall i pe, nth_error (pf_elements fld) i = Some pe -> e_dim (pe_el pe) = dim -> term i pe = Ok (g pe)) ->
    over_elements dim fld term = Ok (total (map g (on_dim dim fld))).
  Proof.
    intros dim fld term g H. unfold over_elements. rewrite <- indexes_on_dim, map_map.
    assert (X : forall l s, (forall ie, In ie l -> In ie (indexes dim fld)) ->
      foldM (fun s ie => do x <- term (fst ie) (snd ie); Ok (kadd s x)) l s = Ok (kadd s (total (map (fun ie => g (snd ie)) l)))).
    { induction l as [|[i pe] l IH]; intros s Hl; simpl; [f_equal; ring|].
      assert (I : In (i, pe) (indexes dim fld)) by (apply Hl; left; reflexivity). apply indexes_In in I as (I1 & I2).
      rewrite (H i pe I1 I2). simpl. rewrite IH by (intros; apply Hl; right; assumption). f_equal. ring. }
    rewrite X by trivial. f_equal. ring.
  Qed.

  Lemma kept_In : forall skip (fields : dict string (post_field F)) nf, In nf (kept skip fields) <-> In nf fields /\ ~ In (fst nf) skip.
  Proof. intros. unfold kept. rewrite filter_In. destruct (in_dec string_dec (fst nf) skip); intuition discriminate. Qed.

  Lemma over_fields_ok : forall {A} (sp : post_space F) keep body (g : string -> post_field F -> A),
    (forall name fld, In (name, fld) (ps_fields sp) -> keep name fld = true -> body name fld = Ok (g name fld)) ->
    over_fields sp keep body = Ok (map (fun nf => g (fst nf) (snd nf)) (filter (fun nf => keep (fst nf) (snd nf)) (ps_fields sp))).
  Proof.
    intros A sp keep body g H. unfold over_fields. apply mapM_ok. intros [name fld] I. apply filter_In in I as (I1 & I2). apply H; assumption.
  Qed.

  (** the coefficients *)
  Lemma destinations_ok : forall (sp : post_space F) i name fld pe,
    NoDup (dkeys (ps_fields sp)) -> In (name, fld) (ps_fields sp) -> nth_error (pf_elements fld) i = Some pe ->
    (forall nf, In nf (ps_fields sp) -> exists e d, nth_error (pf_elements (snd nf)) i = Some e /\ pe_dest e = Ok d) ->
    exists dests, destinations sp i = Ok dests /\ dindex dests name = Ok (dofs_of pe).
  Proof.
    intros sp i name fld pe ND I HE H. unfold destinations.
    set (dofs := fun nf : string * post_field F => match nth_error (pf_elements (snd nf)) i with Some e => dofs_of e | None => [] end).
    rewrite (mapM_ok _ (fun nf => (fst nf, dofs nf))).
    2:{ intros nf Hnf. destruct (H nf Hnf) as (e & d & H1 & H2). unfold get_at, dofs. rewrite H1. simpl. unfold dofs_of. rewrite H2. reflexivity. }
    eexists. split; [reflexivity|]. unfold dindex.
    assert (G : dget (map (fun nf => (fst nf, dofs nf)) (ps_fields sp)) name = Some (dofs_of pe)).
    { apply dget_NoDup.
      - unfold dkeys. rewrite map_map. exact ND.
      - apply in_map_iff. exists (name, fld). split; [|exact I]. unfold dofs. simpl. rewrite HE. reflexivity. }
    rewrite G. reflexivity.
  Qed.

  Lemma local_ok : forall (sp : post_space F) alpha shift dim name fld i pe,
    NoDup (dkeys (ps_fields sp)) -> In (name, fld) (ps_fields sp) -> readable sp alpha shift dim fld ->
    nth_error (pf_elements fld) i = Some pe -> e_dim (pe_el pe) = dim ->
    exists a, local_coefficients sp alpha shift name i (t_nphi (e_tab (pe_el pe))) = Ok (pf_comp fld, a) /\
      forall k c, k < t_nphi (e_tab (pe_el pe)) -> c < pf_comp fld -> a k c = coefficient alpha shift (pf_comp fld) pe k c.
  Proof.
    intros sp alpha shift dim name fld i pe ND I HR' HE HD. destruct (HR' i pe HE HD) as (P1 & P2 & P3 & P4).
    destruct (destinations_ok sp i name fld pe ND I HE P4) as (dests & D1 & D2).
    unfold local_coefficients. rewrite D1. cbn [bind]. rewrite D2. cbn [bind].
    rewrite (mapM_ok _ (fun d => nth (d + shift) alpha k0)).
    2:{ intros d Hd. unfold get_at. rewrite (nth_error_nth' alpha k0) by (apply P3; exact Hd). reflexivity. }
    cbn [bind]. rewrite map_length, P2.
    replace (t_nphi (e_tab (pe_el pe)) * pf_comp fld) with (pf_comp fld * t_nphi (e_tab (pe_el pe))) by lia.
    rewrite Nat.mod_mul, Nat.eqb_refl, Nat.div_mul by lia.
    eexists. split; [reflexivity|]. intros k c Hk Hc. unfold coefficient.
    rewrite (nth_indep _ k0 (nth (0 + shift) alpha k0)).
    - exact (map_nth (fun d => nth (d + shift) alpha k0) (dofs_of pe) 0 (k * pf_comp fld + c)).
    - rewrite map_length, P2. nia.
  Qed.

  Lemma scalar_h_ok : forall (pe : post_element F) a alpha shift m c i,
    (forall k, k < t_nphi (e_tab (pe_el pe)) -> a k c = coefficient alpha shift m pe k c) ->
    scalar_h (e_tab (pe_el pe)) a c i = discrete alpha shift m pe i c 0.
  Proof. intros. unfold scalar_h, discrete. rewrite (Sum_ksum HF). apply ksum_ext. intros k Hk. rewrite H by exact Hk. ring. Qed.
  Lemma vector_h_ok : forall (pe : post_element F) a alpha shift m c d i,
    (forall k, k < t_nphi (e_tab (pe_el pe)) -> a k c = coefficient alpha shift m pe k c) ->
    vector_h (e_tab (pe_el pe)) a i c d = discrete alpha shift m pe i c d.
  Proof. intros. unfold vector_h, discrete. rewrite (Sum_ksum HF). apply ksum_ext. intros k Hk. rewrite H by exact Hk. ring. Qed.

  (** the two ways of summing squares *)
  Lemma sum_rows_ok : forall (e : element F) w rows (d : nat -> nat -> F) (v : nat -> nat -> nat -> F),
    (forall i c, i < length w -> c < rows -> d c i = v i c 0) ->
    sum_rows e w rows d = integral e w (fun i => Sum rows (fun c => Sum 1 (fun dir => kmul (v i c dir) (v i c dir)))).
  Proof.
    intros e w rows d v H. unfold sum_rows, integral. rewrite (Sum_ksum HF), (ksum_swap HF). apply ksum_ext. intros i Hi.
    rewrite (Sum_ksum HF), <- (ksum_mul_l HF). apply ksum_ext. intros c Hc. rewrite H by assumption. unfold dw, weight, Sum. simpl. ring.
  Qed.
  Lemma sum_trace_ok : forall (e : element F) w rows cs (d v : nat -> nat -> nat -> F),
    (forall i c dir, i < length w -> c < rows -> dir < cs -> d i c dir = v i c dir) ->
    sum_trace e w rows cs d = integral e w (fun i => Sum rows (fun c => Sum cs (fun dir => kmul (v i c dir) (v i c dir)))).
  Proof.
    intros e w rows cs d v H. unfold sum_trace, integral. rewrite (Sum_ksum HF). apply ksum_ext. intros i Hi. unfold dw, weight.
    rewrite (ksum_swap HF), (Sum_ksum HF). rewrite (ksum_ext rows _ (fun c => Sum cs (fun dir => kmul (v i c dir) (v i c dir)))); [ring|].
    intros c Hc. rewrite (Sum_ksum HF). apply ksum_ext. intros dir Hd. rewrite H by assumption. reflexivity.
  Qed.
  Lemma sum_points_ok : forall (e : element F) w rows (d v : nat -> nat -> F),
    (forall i c, i < length w -> c < rows -> d i c = v i c) ->
    sum_points e w rows d = integral e w (fun i => Sum rows (fun c => Sum 1 (fun _ => kmul (v i c) (v i c)))).
  Proof.
    intros e w rows d v H. unfold sum_points, integral. rewrite (Sum_ksum HF), (ksum_swap HF). apply ksum_ext. intros i Hi.
    rewrite (Sum_ksum HF), <- (ksum_mul_l HF). apply ksum_ext. intros c Hc. rewrite H by assumption. unfold dw, weight, Sum. simpl. ring.
  Qed.

  Section WithRoot.
  Context (ksqrt : F -> F).

  Theorem l2_error_ok : forall dim (sp : post_space F) functions alpha skip w (f : string -> exact_fun F),
    NoDup (dkeys (ps_fields sp)) -> nth_error (ps_quadrature sp) dim = Some (Some w) ->
    (forall name fld, In (name, fld) (kept skip (ps_fields sp)) ->
       readable sp alpha 0 dim fld /\ dget functions name = Some (f name) /\ shape_fits dim fld (f name)) ->
    l2_error ksqrt dim sp functions alpha skip =
    Ok (map (fun nf => ksqrt (norm2 dim w (snd nf) (pf_comp (snd nf)) (dirs_of dim (snd nf)) (fun pe i c d =>
              ksub (x_val (f (fst nf)) (pe_cell pe) c d i) (discrete alpha 0 (pf_comp (snd nf)) pe i c d)))) (kept skip (ps_fields sp))).
  Proof.
    intros dim sp functions alpha skip w f ND HQ H. unfold l2_error, rule_of, get_at. rewrite HQ. cbn [bind].
    rewrite (over_fields_ok sp _ _ (fun name fld => ksqrt (norm2 dim w fld (pf_comp fld) (dirs_of dim fld) (fun pe i c d =>
              ksub (x_val (f name) (pe_cell pe) c d i) (discrete alpha 0 (pf_comp fld) pe i c d))))).
    - rewrite kept_filter. reflexivity.
    - intros name fld I K. assert (I' : In (name, fld) (kept skip (ps_fields sp))).
      { rewrite <- kept_filter. apply filter_In. split; assumption. }
      destruct (H name fld I') as (R & E & S1 & S2).
      rewrite (over_elements_ok dim fld _ (fun pe => integral (pe_el pe) w (fun i => Sum (pf_comp fld) (fun c => Sum (dirs_of dim fld) (fun d =>
        kmul (ksub (x_val (f name) (pe_cell pe) c d i) (discrete alpha 0 (pf_comp fld) pe i c d))
             (ksub (x_val (f name) (pe_cell pe) c d i) (discrete alpha 0 (pf_comp fld) pe i c d))))))).
      { reflexivity. }
      intros i pe HE HD. destruct (local_ok sp alpha 0 dim name fld i pe ND I R HE HD) as (a & A1 & A2).
      unfold l2_error_term. rewrite A1. cbn [bind fst snd]. unfold dindex. rewrite E. cbn [bind]. unfold dirs_of.
      change (is_lagrange (pf_family fld)) with (lagrange fld) in *; destruct (lagrange fld).
      + rewrite S1, (Nat.min_r dim (pf_comp fld)) by exact S2. rewrite broadcast_same. cbn [bind]. f_equal.
        apply sum_rows_ok. intros j c Hj Hc. rewrite axis_index_lt by exact Hc. rewrite (scalar_h_ok pe a alpha 0 (pf_comp fld)); [reflexivity|].
        intros k Hk. apply A2; assumption.
      + destruct S2 as (S2 & S3 & S4). assert (T : dim <= t_vs (e_tab (pe_el pe))).
        { apply S4. apply filter_In. split; [apply (nth_error_In _ _ HE)|apply Nat.eqb_eq; exact HD]. }
        unfold vector_rows. destruct (Nat.eqb_spec (pf_comp fld) 0) as [Z|_]; [lia|]. rewrite Nat.ltb_irrefl. cbn [bind].
        rewrite S1, broadcast_same. cbn [bind]. unfold cols. rewrite !Nat.min_l by assumption. rewrite broadcast_same. cbn [bind]. f_equal.
        apply sum_trace_ok. intros j c d Hj Hc Hd. rewrite !axis_index_lt by assumption.
        rewrite (vector_h_ok pe a alpha 0 (pf_comp fld)); [reflexivity|]. intros k Hk. apply A2; assumption.
  Qed.

  Theorem l2_projected_ok : forall dim (sp : post_space F) alpha skip shift w,
    NoDup (dkeys (ps_fields sp)) -> nth_error (ps_quadrature sp) dim = Some (Some w) ->
    (forall name fld, In (name, fld) (kept skip (ps_fields sp)) ->
       readable sp alpha shift dim fld /\
       if lagrange fld then pf_comp fld <= dim
       else 0 < pf_comp fld /\ forall pe, In pe (on_dim dim fld) -> dim <= t_vs (e_tab (pe_el pe))) ->
    l2_error_projected ksqrt dim sp alpha skip shift =
    Ok (map (fun nf => ksqrt (norm2 dim w (snd nf) (pf_comp (snd nf)) (dirs_of dim (snd nf)) (fun pe i c d =>
              discrete alpha shift (pf_comp (snd nf)) pe i c d))) (kept skip (ps_fields sp))).
  Proof.
    intros dim sp alpha skip shift w ND HQ H. unfold l2_error_projected, rule_of, get_at. rewrite HQ. cbn [bind].
    rewrite (over_fields_ok sp _ _ (fun name fld => ksqrt (norm2 dim w fld (pf_comp fld) (dirs_of dim fld) (fun pe i c d =>
              discrete alpha shift (pf_comp fld) pe i c d)))).
    - rewrite kept_filter. reflexivity.
    - intros name fld I K. assert (I' : In (name, fld) (kept skip (ps_fields sp))).
      { rewrite <- kept_filter. apply filter_In. split; assumption. }
      destruct (H name fld I') as (R & S2).
      rewrite (over_elements_ok dim fld _ (fun pe => integral (pe_el pe) w (fun i => Sum (pf_comp fld) (fun c => Sum (dirs_of dim fld) (fun d =>
        kmul (discrete alpha shift (pf_comp fld) pe i c d) (discrete alpha shift (pf_comp fld) pe i c d)))))).
      { reflexivity. }
      intros i pe HE HD. destruct (local_ok sp alpha shift dim name fld i pe ND I R HE HD) as (a & A1 & A2).
      unfold l2_projected_term. rewrite A1. cbn [bind fst snd]. unfold dirs_of.
      change (is_lagrange (pf_family fld)) with (lagrange fld) in *; destruct (lagrange fld).
      + rewrite Nat.min_r by exact S2. f_equal.
        apply sum_rows_ok. intros j c Hj Hc. apply (scalar_h_ok pe a alpha shift (pf_comp fld)). intros k Hk. apply A2; assumption.
      + destruct S2 as (S2 & S4). assert (T : dim <= t_vs (e_tab (pe_el pe))).
        { apply S4. apply filter_In. split; [apply (nth_error_In _ _ HE)|apply Nat.eqb_eq; exact HD]. }
        unfold vector_rows. destruct (Nat.eqb_spec (pf_comp fld) 0) as [Z|_]; [lia|]. rewrite Nat.ltb_irrefl. cbn [bind].
        unfold cols. rewrite Nat.min_l by assumption. f_equal.
        apply sum_trace_ok. intros j c d Hj Hc Hd. apply (vector_h_ok pe a alpha shift (pf_comp fld)). intros k Hk. apply A2; assumption.
  Qed.

  Theorem l2_norm_ok : forall dim (sp : post_space F) functions skip w (f : string -> exact_fun F),
    nth_error (ps_quadrature sp) dim = Some (Some w) ->
    (forall name fld, In (name, fld) (kept skip (ps_fields sp)) -> dget functions name = Some (f name) /\
       x_rows (f name) = pf_comp fld /\ if lagrange fld then pf_comp fld <= dim else x_cols (f name) = dim) ->
    l2_norm ksqrt dim sp functions skip =
    Ok (map (fun nf => ksqrt (norm2 dim w (snd nf) (pf_comp (snd nf)) (dirs_of dim (snd nf)) (fun pe i c d =>
              x_val (f (fst nf)) (pe_cell pe) c d i))) (kept skip (ps_fields sp))).
  Proof.
    intros dim sp functions skip w f HQ H. unfold l2_norm, rule_of, get_at. rewrite HQ. cbn [bind].
    rewrite (over_fields_ok sp _ _ (fun name fld => ksqrt (norm2 dim w fld (pf_comp fld) (dirs_of dim fld) (fun pe i c d =>
              x_val (f name) (pe_cell pe) c d i)))).
    - rewrite kept_filter. reflexivity.
    - intros name fld I K. assert (I' : In (name, fld) (kept skip (ps_fields sp))).
      { rewrite <- kept_filter. apply filter_In. split; assumption. }
      destruct (H name fld I') as (E & S1 & S2).
      rewrite (over_elements_ok dim fld _ (fun pe => integral (pe_el pe) w (fun i => Sum (pf_comp fld) (fun c => Sum (dirs_of dim fld) (fun d =>
        kmul (x_val (f name) (pe_cell pe) c d i) (x_val (f name) (pe_cell pe) c d i)))))).
      { reflexivity. }
      intros i pe HE HD. unfold l2_norm_term, dindex. rewrite E. cbn [bind]. unfold dirs_of. f_equal.
      change (is_lagrange (pf_family fld)) with (lagrange fld) in *; destruct (lagrange fld).
      + rewrite S1, Nat.min_r by exact S2. apply sum_rows_ok. reflexivity.
      + rewrite S1, S2. apply sum_trace_ok. reflexivity.
  Qed.

  (** divergences *)
  Lemma ref_div_ok : forall (t : tab F) dim i k, dim <= t_vs t -> dim <= t_nder t ->
    ref_div t (t_nder t) dim i k = Sum dim (fun d => t_val t (S d) i k d).
  Proof. intros. unfold ref_div, cols. replace (Nat.min (Nat.min (t_nder t) (t_nder t)) (Nat.min dim (t_vs t))) with dim by lia. rewrite (Sum_ksum HF). reflexivity. Qed.

  Lemma div_term_ok : forall dim (sp : post_space F) w exact alpha dv name fld i pe (v : nat -> nat -> F),
    NoDup (dkeys (ps_fields sp)) -> In (name, fld) (ps_fields sp) -> readable sp alpha 0 dim fld -> x_rows exact = pf_comp fld ->
    nth_error (pf_elements fld) i = Some pe -> e_dim (pe_el pe) = dim ->
    (forall j c, c < pf_comp fld -> Sum (t_nphi (e_tab (pe_el pe))) (fun k => kmul (coefficient alpha 0 (pf_comp fld) pe k c) (dv pe j k)) = v j c) ->
    div_term sp w exact alpha dv name i pe =
    Ok (integral (pe_el pe) w (fun j => Sum (pf_comp fld) (fun c => Sum 1 (fun _ =>
      kmul (ksub (x_val exact (pe_cell pe) c 0 j) (v j c)) (ksub (x_val exact (pe_cell pe) c 0 j) (v j c)))))).
  Proof.
    intros dim sp w exact alpha dv name fld i pe v ND I R S1 HE HD HV.
    destruct (local_ok sp alpha 0 dim name fld i pe ND I R HE HD) as (a & A1 & A2).
    unfold div_term. rewrite A1. cbn [bind fst snd]. rewrite S1, broadcast_same. cbn [bind]. f_equal.
    apply sum_points_ok. intros j c Hj Hc. rewrite axis_index_lt by exact Hc. f_equal. rewrite <- HV, (Sum_ksum HF) by exact Hc.
    apply ksum_ext. intros k Hk. rewrite A2 by assumption. ring.
  Qed.

  Theorem div_error_ok : forall dim (sp : post_space F) functions alpha skip w (f : string -> exact_fun F),
    NoDup (dkeys (ps_fields sp)) -> nth_error (ps_quadrature sp) dim = Some (Some w) ->
    let fields := div_fields dim (kept skip (ps_fields sp)) in
    (forall name fld, In (name, fld) fields ->
       readable sp alpha 0 dim fld /\ dget functions (String.append "div_" name) = Some (f name) /\
       x_rows (f name) = pf_comp fld /\ div_fits dim fld) ->
    div_error ksqrt dim sp functions alpha skip =
    Ok (map (fun nf => ksqrt (norm2 dim w (snd nf) (pf_comp (snd nf)) 1 (fun pe i c _ =>
              ksub (x_val (f (fst nf)) (pe_cell pe) c 0 i) (discrete_div alpha (pf_comp (snd nf)) dim pe i c)))) fields).
  Proof.
    intros dim sp functions alpha skip w f ND HQ fields H. unfold div_error, rule_of, get_at. rewrite HQ. cbn [bind].
    assert (K : filter (fun nf => div_keep dim skip (fst nf) (snd nf)) (ps_fields sp) = fields).
    { unfold fields. rewrite <- kept_filter. exact (filter_both _ _ (ps_fields sp)). }
    rewrite (over_fields_ok sp _ _ (fun name fld => ksqrt (norm2 dim w fld (pf_comp fld) 1 (fun pe i c _ =>
              ksub (x_val (f name) (pe_cell pe) c 0 i) (discrete_div alpha (pf_comp fld) dim pe i c))))).
    - rewrite K. reflexivity.
    - intros name fld I HK. assert (I' : In (name, fld) fields) by (rewrite <- K; apply filter_In; split; assumption).
      destruct (H name fld I') as (R & E & S1 & S2). unfold dindex. rewrite E. cbn [bind].
      rewrite (over_elements_ok dim fld _ (fun pe => integral (pe_el pe) w (fun i => Sum (pf_comp fld) (fun c => Sum 1 (fun _ =>
        kmul (ksub (x_val (f name) (pe_cell pe) c 0 i) (discrete_div alpha (pf_comp fld) dim pe i c))
             (ksub (x_val (f name) (pe_cell pe) c 0 i) (discrete_div alpha (pf_comp fld) dim pe i c))))))).
      { reflexivity. }
      intros i pe HE HD. apply (div_term_ok dim sp w (f name) alpha (div_v_star dim) name fld i pe (fun j c => discrete_div alpha (pf_comp fld) dim pe j c)); try assumption.
      intros j c Hc. unfold discrete_div. apply (Sum_ext HF). intros k Hk. f_equal. unfold div_v_star.
      destruct (S2 pe) as (T1 & T2). { apply filter_In. split; [apply (nth_error_In _ _ HE)|apply Nat.eqb_eq; exact HD]. }
      rewrite ref_div_ok by assumption. unfold kdiv. ring.
  Qed.

  Lemma concat_singletons : forall {A B} (g : A -> B) l, concat (map (fun x => [g x]) l) = map g l.
  Proof. intros. induction l; simpl; congruence. Qed.
  Lemma kept_vector : forall skip (sp : post_space F),
    filter (fun nf => is_vector (pf_family (snd nf)) && negb (skipped skip (fst nf))) (ps_fields sp) =
    filter (fun nf => is_vector (pf_family (snd nf))) (kept skip (ps_fields sp)).
  Proof.
    intros. rewrite <- kept_filter. exact (filter_both _ _ (ps_fields sp)).
  Qed.

  Theorem div_scaled_error_ok : forall dim (sp : post_space F) functions alpha skip w (f : string -> exact_fun F) l g,
    NoDup (dkeys (ps_fields sp)) -> nth_error (ps_quadrature sp) dim = Some (Some w) ->
    dget functions "l"%string = Some l -> dget functions "grad_l"%string = Some g -> dim <= x_rows g ->
    let fields := filter (fun nf => is_vector (pf_family (snd nf))) (kept skip (ps_fields sp)) in
    (forall name fld, In (name, fld) fields ->
       readable sp alpha 0 dim fld /\ dget functions (String.append "div_" name) = Some (f name) /\
       x_rows (f name) = pf_comp fld /\ div_fits dim fld) ->
    div_scaled_error ksqrt dim sp functions alpha skip =
    Ok (map (fun nf => ksqrt (norm2 dim w (snd nf) (pf_comp (snd nf)) 1 (fun pe i c _ =>
              ksub (x_val (f (fst nf)) (pe_cell pe) c 0 i)
                   (discrete_div_l (fun cell => x_val l cell 0 0) (fun cell d => x_val g cell d 0) alpha (pf_comp (snd nf)) dim pe i c)))) fields).
  Proof.
    intros dim sp functions alpha skip w f l g ND HQ HL HG Hg fields H. unfold div_scaled_error, rule_of, get_at. rewrite HQ. cbn [bind].
    rewrite HL, HG.
    rewrite (over_fields_ok sp _ _ (fun name fld => [ksqrt (norm2 dim w fld (pf_comp fld) 1 (fun pe i c _ =>
              ksub (x_val (f name) (pe_cell pe) c 0 i)
                   (discrete_div_l (fun cell => x_val l cell 0 0) (fun cell d => x_val g cell d 0) alpha (pf_comp fld) dim pe i c)))])).
    - cbn [bind]. rewrite kept_vector. fold fields. f_equal.
      exact (concat_singletons (fun nf => ksqrt (norm2 dim w (snd nf) (pf_comp (snd nf)) 1 (fun pe i c _ =>
              ksub (x_val (f (fst nf)) (pe_cell pe) c 0 i)
                   (discrete_div_l (fun cell => x_val l cell 0 0) (fun cell d => x_val g cell d 0) alpha (pf_comp (snd nf)) dim pe i c)))) fields).
    - intros name fld I HK. assert (I' : In (name, fld) fields) by (unfold fields; rewrite <- kept_vector; apply filter_In; split; assumption).
      destruct (H name fld I') as (R & E & S1 & S2). unfold dindex. rewrite E. cbn [bind].
      rewrite (over_elements_ok dim fld _ (fun pe => integral (pe_el pe) w (fun i => Sum (pf_comp fld) (fun c => Sum 1 (fun _ =>
        kmul (ksub (x_val (f name) (pe_cell pe) c 0 i) (discrete_div_l (fun cell => x_val l cell 0 0) (fun cell d => x_val g cell d 0) alpha (pf_comp fld) dim pe i c))
             (ksub (x_val (f name) (pe_cell pe) c 0 i) (discrete_div_l (fun cell => x_val l cell 0 0) (fun cell d => x_val g cell d 0) alpha (pf_comp fld) dim pe i c))))))).
      { reflexivity. }
      intros i pe HE HD. apply (div_term_ok dim sp w (f name) alpha (div_v_scaled dim l g) name fld i pe
        (fun j c => discrete_div_l (fun cell => x_val l cell 0 0) (fun cell d => x_val g cell d 0) alpha (pf_comp fld) dim pe j c)); try assumption.
      intros j c Hc. unfold discrete_div_l, discrete_div, discrete, div_v_scaled.
      destruct (S2 pe) as (T1 & T2). { apply filter_In. split; [apply (nth_error_In _ _ HE)|apply Nat.eqb_eq; exact HD]. }
      unfold cols. rewrite (Nat.min_l dim) by exact T1. rewrite Nat.min_r by exact Hg.
      rewrite !(Sum_ksum HF). rewrite <- (ksum_mul_l HF).
      rewrite (ksum_ext dim (fun d => kmul (x_val g (pe_cell pe) d 0 j) (Sum (t_nphi (e_tab (pe_el pe))) (fun k => kmul (coefficient alpha 0 (pf_comp fld) pe k c) (t_val (e_tab (pe_el pe)) 0 j k d))))
        (fun d => ksum (t_nphi (e_tab (pe_el pe))) (fun k => kmul (x_val g (pe_cell pe) d 0 j) (kmul (coefficient alpha 0 (pf_comp fld) pe k c) (t_val (e_tab (pe_el pe)) 0 j k d))))).
      2:{ intros d Hd. rewrite (Sum_ksum HF), <- (ksum_mul_l HF). reflexivity. }
      rewrite (ksum_swap HF dim), <- (ksum_add HF). apply ksum_ext. intros k Hk.
      rewrite ref_div_ok by assumption. unfold kdiv.
      rewrite (ksum_ext dim (fun i0 => kmul (x_val g (pe_cell pe) i0 0 j) (kmul (coefficient alpha 0 (pf_comp fld) pe k c) (t_val (e_tab (pe_el pe)) 0 j k i0)))
        (fun i0 => kmul (coefficient alpha 0 (pf_comp fld) pe k c) (kmul (x_val g (pe_cell pe) i0 0 j) (t_val (e_tab (pe_el pe)) 0 j k i0)))) by (intros; ring).
      rewrite (ksum_mul_l HF). ring.
  Qed.

  Theorem div_norm_ok : forall dim (sp : post_space F) functions skip w (f : string -> exact_fun F),
    nth_error (ps_quadrature sp) dim = Some (Some w) ->
    let fields := filter (fun nf => is_vector (pf_family (snd nf))) (kept skip (ps_fields sp)) in
    (forall name fld, In (name, fld) fields -> dget functions (String.append "div_" name) = Some (f name)) ->
    div_norm ksqrt dim sp functions skip =
    Ok (map (fun nf => ksqrt (norm2 dim w (snd nf) (x_rows (f (fst nf))) 1 (fun pe i c _ => x_val (f (fst nf)) (pe_cell pe) c 0 i))) fields).
  Proof.
    intros dim sp functions skip w f HQ fields H. unfold div_norm, rule_of, get_at. rewrite HQ. cbn [bind].
    rewrite (over_fields_ok sp _ _ (fun name fld => ksqrt (norm2 dim w fld (x_rows (f name)) 1 (fun pe i c _ => x_val (f name) (pe_cell pe) c 0 i)))).
    - rewrite kept_vector. reflexivity.
    - intros name fld I HK. assert (I' : In (name, fld) fields) by (unfold fields; rewrite <- kept_vector; apply filter_In; split; assumption).
      unfold dindex. rewrite (H name fld I'). cbn [bind].
      rewrite (over_elements_ok dim fld _ (fun pe => integral (pe_el pe) w (fun i => Sum (x_rows (f name)) (fun c => Sum 1 (fun _ =>
        kmul (x_val (f name) (pe_cell pe) c 0 i) (x_val (f name) (pe_cell pe) c 0 i)))))).
      { reflexivity. }
      intros i pe HE HD. f_equal. apply sum_points_ok. reflexivity.
  Qed.

  Theorem grad_error_never : forall dim (sp : post_space F) functions alpha nf pe,
    In nf (ps_fields sp) -> In pe (on_dim dim (snd nf)) -> grad_error ksqrt dim sp functions alpha = Err TypeError.
  Proof.
    intros dim sp functions alpha nf pe I HE. unfold grad_error, over_fields.
    replace (filter (fun _ : string * post_field F => true) (ps_fields sp)) with (ps_fields sp).
    2:{ clear. induction (ps_fields sp) as [|x l IH]; [reflexivity|]. simpl. rewrite <- IH. reflexivity. }
    induction (ps_fields sp) as [|nf' fs IH]; [destruct I|]. simpl. unfold over_elements at 1.
    destruct (indexes dim (snd nf')) as [|x xs] eqn:EI; [|reflexivity]. simpl. destruct I as [->|I].
    - rewrite <- indexes_on_dim, EI in HE. destruct HE.
    - rewrite (IH I). reflexivity.
  Qed.
  End WithRoot.

  Theorem devia_never : forall (sp : post_space F) rest, length (ps_quadrature sp) = 4 -> devia sp rest = Err ValueError.
  Proof. intros sp rest H. unfold devia. rewrite H. reflexivity. Qed.
End Post.
