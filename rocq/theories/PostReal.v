(** * Errors and norms over the real numbers: they are distances *)
From Coq Require Import String List Arith Bool Lia Reals Lra Psatz.
From Verif Require Import Base BaseProof FormModel FormSpec FormProof FormProof2 AdProof2 PostModel PostSpec PostProof PostProof2 PostRealSpec.
Import ListNotations.
Open Scope list_scope.

Lemma Rs_ring : is_ring Rs.
Proof. exact RTheory. Qed.

(** *** Weighted sums *)
Definition wsum {A} (W u v : A -> R) (l : list A) : R := fold_right Rplus 0%R (map (fun q => W q * (u q * v q))%R l).

Section Weighted.
  Context {A : Type} (W : A -> R).
  Local Open Scope R_scope.

  Lemma wsum_nonneg : forall u l, (forall q, In q l -> 0 < W q) -> 0 <= wsum W u u l.
  Proof.
    intros u l. unfold wsum. induction l as [|q l IH]; intros H; simpl; [lra|].
    assert (0 < W q) by (apply H; left; reflexivity). assert (X : forall q, In q l -> 0 < W q) by (intros; apply H; right; assumption).
    specialize (IH X). assert (0 <= u q * u q) by (apply Rle_0_sqr). assert (0 <= W q * (u q * u q)) by (apply Rmult_le_pos; lra). lra.
  Qed.
  Lemma wsum_zero : forall u l, (forall q, In q l -> 0 < W q) -> wsum W u u l = 0 <-> forall q, In q l -> u q = 0.
  Proof.
    intros u l H. induction l as [|q l IH]; [split; [intros _ q []|reflexivity]|].
    assert (Hq : 0 < W q) by (apply H; left; reflexivity). assert (X : forall q, In q l -> 0 < W q) by (intros; apply H; right; assumption).
    specialize (IH X). pose proof (wsum_nonneg u l X) as N. assert (S : 0 <= u q * u q) by (apply Rle_0_sqr).
    assert (P : 0 <= W q * (u q * u q)) by (apply Rmult_le_pos; lra).
    assert (E : wsum W u u (q :: l) = W q * (u q * u q) + wsum W u u l) by reflexivity. rewrite E. split.
    - intros Z q' [<-|I].
      + assert (Z' : W q * (u q * u q) = 0) by lra. apply Rmult_integral in Z' as [Z'|Z']; [lra|]. apply Rmult_integral in Z' as [|]; assumption.
      + apply IH; [lra|exact I].
    - intros Z. rewrite (Z q) by (left; reflexivity). rewrite (proj2 IH) by (intros; apply Z; right; assumption). ring.
  Qed.

  Lemma cauchy_step : forall P A B w u v, 0 <= A -> 0 <= B -> 0 < w -> P * P <= A * B ->
    (P + w * (u * v)) * (P + w * (u * v)) <= (A + w * (u * u)) * (B + w * (v * v)).
  Proof.
    intros P A0 B w u v HA HB Hw H.
    assert (K : 2 * (P * (u * v)) <= A0 * (v * v) + B * (u * u)).
    { assert (N1 : 0 <= A0 * (v * v)) by (apply Rmult_le_pos; [exact HA|apply Rle_0_sqr]).
      assert (N2 : 0 <= B * (u * u)) by (apply Rmult_le_pos; [exact HB|apply Rle_0_sqr]).
      apply Rsqr_incr_0_var; [|lra]. unfold Rsqr.
      assert (S : 4 * ((P * P) * ((u * v) * (u * v))) <= 4 * ((A0 * B) * ((u * v) * (u * v)))).
      { apply Rmult_le_compat_l; [lra|]. apply Rmult_le_compat_r; [apply Rle_0_sqr|exact H]. }
      assert (S2 : 0 <= (A0 * (v * v) - B * (u * u)) * (A0 * (v * v) - B * (u * u))) by apply Rle_0_sqr. nra. }
    assert (K' : w * (2 * (P * (u * v))) <= w * (A0 * (v * v) + B * (u * u))) by (apply Rmult_le_compat_l; lra). nra.
  Qed.
  Lemma cauchy : forall u v l, (forall q, In q l -> 0 < W q) -> wsum W u v l * wsum W u v l <= wsum W u u l * wsum W v v l.
  Proof.
    intros u v l. induction l as [|q l IH]; intros H; [unfold wsum; simpl; lra|].
    assert (Hq : 0 < W q) by (apply H; left; reflexivity). assert (X : forall q, In q l -> 0 < W q) by (intros; apply H; right; assumption).
    specialize (IH X). assert (E : forall a b, wsum W a b (q :: l) = W q * (a q * b q) + wsum W a b l) by reflexivity. rewrite !E.
    pose proof (cauchy_step (wsum W u v l) (wsum W u u l) (wsum W v v l) (W q) (u q) (v q) (wsum_nonneg u l X) (wsum_nonneg v l X) Hq IH). lra.
  Qed.
  Lemma wsum_plus : forall u v l, wsum W (fun q => u q + v q) (fun q => u q + v q) l = wsum W u u l + 2 * wsum W u v l + wsum W v v l.
  Proof. intros. unfold wsum. induction l as [|q l IH]; simpl; [ring|]. rewrite IH. ring. Qed.

  Lemma minkowski : forall u v l, (forall q, In q l -> 0 < W q) ->
    sqrt (wsum W (fun q => u q + v q) (fun q => u q + v q) l) <= sqrt (wsum W u u l) + sqrt (wsum W v v l).
  Proof.
    intros u v l H. pose proof (wsum_nonneg u l H) as HU. pose proof (wsum_nonneg v l H) as HV. pose proof (cauchy u v l H) as C.
    pose proof (sqrt_pos (wsum W u u l)) as SU. pose proof (sqrt_pos (wsum W v v l)) as SV.
    apply Rsqr_incr_0_var; [|lra]. rewrite Rsqr_sqrt by (apply (wsum_nonneg (fun q => u q + v q)); exact H). rewrite wsum_plus.
    assert (EU : sqrt (wsum W u u l) * sqrt (wsum W u u l) = wsum W u u l) by (apply sqrt_sqrt; exact HU).
    assert (EV : sqrt (wsum W v v l) * sqrt (wsum W v v l) = wsum W v v l) by (apply sqrt_sqrt; exact HV).
    assert (K : wsum W u v l <= sqrt (wsum W u u l) * sqrt (wsum W v v l)).
    { apply Rsqr_incr_0_var; [|apply Rmult_le_pos; assumption]. unfold Rsqr.
      replace (sqrt (wsum W u u l) * sqrt (wsum W v v l) * (sqrt (wsum W u u l) * sqrt (wsum W v v l)))
        with ((sqrt (wsum W u u l) * sqrt (wsum W u u l)) * (sqrt (wsum W v v l) * sqrt (wsum W v v l))) by ring.
      rewrite EU, EV. exact C. }
    unfold Rsqr. nra.
  Qed.
End Weighted.

(** *** The norm of a field as a weighted sum *)
Definition spots (dim : nat) (w : list Rs) (fld : post_field Rs) (m dirs : nat) : list (post_element Rs * nat * nat * nat) :=
  flat_map (fun pe => flat_map (fun i => flat_map (fun c => map (fun d => (pe, i, c, d)) (seq 0 dirs)) (seq 0 m)) (seq 0 (length w))) (on_dim dim fld).
Definition spot_weight (w : list Rs) (q : post_element Rs * nat * nat * nat) : R :=
  let '(pe, i, _, _) := q in Rmult (nth i w R0) (e_det (pe_el pe) i).
Definition at_spot (v : post_element Rs -> nat -> nat -> nat -> Rs) (q : post_element Rs * nat * nat * nat) : R :=
  let '(pe, i, c, d) := q in v pe i c d.

Lemma spots_In : forall dim w fld m dirs pe i c d, In (pe, i, c, d) (spots dim w fld m dirs) <->
  In pe (on_dim dim fld) /\ i < length w /\ c < m /\ d < dirs.
Proof.
  intros. unfold spots. split.
  - intros H. apply in_flat_map in H as (pe' & H1 & H). apply in_flat_map in H as (i' & H2 & H). apply in_flat_map in H as (c' & H3 & H).
    apply in_map_iff in H as (d' & E & H4). injection E as <- <- <- <-. apply in_seq in H2, H3, H4. repeat split; try assumption; lia.
  - intros (H1 & H2 & H3 & H4). apply in_flat_map. exists pe. split; [exact H1|]. apply in_flat_map. exists i. split; [apply in_seq; lia|].
    apply in_flat_map. exists c. split; [apply in_seq; lia|]. apply in_map. apply in_seq. lia.
Qed.

Lemma fold_plus_app : forall a b, fold_right Rplus R0 (a ++ b) = (fold_right Rplus R0 a + fold_right Rplus R0 b)%R.
Proof. intros. induction a as [|x a IH]; simpl; [ring|]. rewrite IH. ring. Qed.
Lemma fold_flat : forall {A B} (g : B -> R) (f : A -> list B) l,
  fold_right Rplus R0 (map g (flat_map f l)) = fold_right Rplus R0 (map (fun x => fold_right Rplus R0 (map g (f x))) l).
Proof. intros. induction l as [|x l IH]; [reflexivity|]. simpl. rewrite map_app, fold_plus_app, IH. reflexivity. Qed.
Lemma fold_scale : forall {A} (k : R) (f : A -> R) l, fold_right Rplus R0 (map (fun x => (k * f x)%R) l) = (k * fold_right Rplus R0 (map f l))%R.
Proof. intros. induction l as [|x l IH]; simpl; [ring|]. rewrite IH. ring. Qed.

Lemma norm2_wsum : forall dim w fld m dirs v,
  norm2 dim w fld m dirs v = wsum (spot_weight w) (at_spot v) (at_spot v) (spots dim w fld m dirs).
Proof.
  intros. unfold norm2, wsum, spots. rewrite fold_flat. unfold total. change (@kadd Rs) with Rplus. change (@k0 Rs) with R0.
  f_equal. apply map_ext. intros pe. unfold integral, Sum, total. change (@kadd Rs) with Rplus. change (@k0 Rs) with R0. change (@kmul Rs) with Rmult.
  rewrite fold_flat. f_equal. apply map_ext. intros i. rewrite fold_flat, <- fold_scale. f_equal. apply map_ext. intros c.
  rewrite map_map, <- fold_scale. reflexivity.
Qed.
Lemma spot_positive : forall dim w fld m dirs, positive dim w fld -> forall q, In q (spots dim w fld m dirs) -> (0 < spot_weight w q)%R.
Proof.
  intros dim w fld m dirs (P1 & P2) [[[pe i] c] d] H. apply spots_In in H as (H1 & H2 & _ & _). simpl.
  apply Rmult_lt_0_compat; [apply P1; apply nth_In; exact H2|apply P2; assumption].
Qed.

Lemma norm_zero : forall dim w fld m dirs u v, positive dim w fld ->
  sqrt (norm2 dim w fld m dirs (fun pe i c d => @ksub Rs (u pe i c d) (v pe i c d))) = 0%R <-> agree dim w fld m dirs u v.
Proof.
  intros dim w fld m dirs u v P. rewrite norm2_wsum. pose proof (spot_positive dim w fld m dirs P) as W.
  set (dif := at_spot _). rewrite <- (Rmult_1_r 0) at 1. split.
  - intros Z. assert (Z' : wsum (spot_weight w) dif dif (spots dim w fld m dirs) = 0%R).
    { apply sqrt_eq_0; [apply wsum_nonneg; exact W|]. rewrite Z. ring. }
    pose proof (proj1 (wsum_zero (spot_weight w) dif _ W) Z') as A. intros pe i c d H1 H2 H3 H4.
    specialize (A (pe, i, c, d) (proj2 (spots_In dim w fld m dirs pe i c d) (conj H1 (conj H2 (conj H3 H4))))).
    unfold dif, at_spot in A. change (@ksub Rs) with Rminus in A. apply Rminus_diag_uniq. exact A.
  - intros A. rewrite (proj2 (wsum_zero (spot_weight w) dif _ W)); [rewrite sqrt_0; ring|].
    intros [[[pe i] c] d] H. apply spots_In in H as (H1 & H2 & H3 & H4). unfold dif, at_spot. rewrite (A pe i c d) by assumption.
    change (@ksub Rs) with Rminus. ring.
Qed.

Lemma norm_triangle : forall dim w fld m dirs u v x, positive dim w fld ->
  (forall pe i c d, In pe (on_dim dim fld) -> i < length w -> c < m -> d < dirs -> u pe i c d = (v pe i c d + x pe i c d)%R) ->
  (sqrt (norm2 dim w fld m dirs u) <= sqrt (norm2 dim w fld m dirs v) + sqrt (norm2 dim w fld m dirs x))%R.
Proof.
  intros dim w fld m dirs u v x P E.
  rewrite (norm2_ext Rs_ring dim w fld m dirs u (fun pe i c d => (v pe i c d + x pe i c d)%R)).
  2:{ intros pe i c d H1 H2 H3 H4. rewrite (E pe i c d) by assumption. reflexivity. }
  rewrite !norm2_wsum. pose proof (minkowski (spot_weight w) (at_spot v) (at_spot x) _ (spot_positive dim w fld m dirs P)) as M.
  replace (wsum (spot_weight w) (at_spot (fun pe i c d => (v pe i c d + x pe i c d)%R)) (at_spot (fun pe i c d => (v pe i c d + x pe i c d)%R)) (spots dim w fld m dirs))
    with (wsum (spot_weight w) (fun q => (at_spot v q + at_spot x q)%R) (fun q => (at_spot v q + at_spot x q)%R) (spots dim w fld m dirs)); [exact M|].
  unfold wsum. f_equal. apply map_ext. intros [[[pe i] c] d]. reflexivity.
Qed.

(** *** The calls *)
Lemma Forall2_map_r : forall {A B} (P : A -> B -> Prop) (g : A -> B) l, (forall x, In x l -> P x (g x)) -> Forall2 P l (map g l).
Proof. intros. induction l as [|x l IH]; simpl; constructor; [apply H; left; reflexivity|apply IH; intros; apply H; right; assumption]. Qed.

Theorem l2_error_zero : forall dim (sp : post_space Rs) functions alpha skip w (f : string -> exact_fun Rs),
  NoDup (dkeys (ps_fields sp)) -> nth_error (ps_quadrature sp) dim = Some (Some w) ->
  (forall name fld, In (name, fld) (kept skip (ps_fields sp)) ->
     readable sp alpha 0 dim fld /\ dget functions name = Some (f name) /\ shape_fits dim fld (f name) /\ positive dim w fld) ->
  exists errors, l2_error (F := Rs) sqrt dim sp functions alpha skip = Ok errors /\
    Forall2 (fun nf err => (0 <= err)%R /\ (err = 0%R <->
      agree dim w (snd nf) (pf_comp (snd nf)) (dirs_of dim (snd nf))
        (fun pe i c d => x_val (f (fst nf)) (pe_cell pe) c d i) (fun pe i c d => discrete alpha 0 (pf_comp (snd nf)) pe i c d)))
      (kept skip (ps_fields sp)) errors.
Proof.
  intros dim sp functions alpha skip w f ND HQ H. eexists. split.
  - apply (l2_error_ok Rs_ring sqrt dim sp functions alpha skip w f ND HQ). intros name fld I. destruct (H name fld I) as (H1 & H2 & H3 & _).
    exact (conj H1 (conj H2 H3)).
  - apply Forall2_map_r. intros [name fld] I. cbn [fst snd]. split; [apply sqrt_pos|]. apply norm_zero. apply (H name fld I).
Qed.

Lemma discrete_sub : forall (alpha beta diff : list Rs) m pe i c d,
  (forall j, nth j diff R0 = (nth j alpha R0 - nth j beta R0)%R) ->
  discrete diff 0 m pe i c d = (discrete alpha 0 m pe i c d - discrete beta 0 m pe i c d)%R.
Proof.
  intros alpha beta diff m pe i c d H. unfold discrete. rewrite !(Sum_ksum Rs_ring). rewrite <- (ksum_sub Rs_ring). apply ksum_ext. intros k Hk.
  unfold coefficient. change (@k0 Rs) with R0. rewrite H. apply Rmult_minus_distr_r.
Qed.

Theorem l2_error_triangle : forall dim (sp : post_space Rs) functions (alpha beta diff : list Rs) skip w (f : string -> exact_fun Rs),
  NoDup (dkeys (ps_fields sp)) -> nth_error (ps_quadrature sp) dim = Some (Some w) ->
  (forall name fld, In (name, fld) (kept skip (ps_fields sp)) ->
     readable sp alpha 0 dim fld /\ dget functions name = Some (f name) /\ shape_fits dim fld (f name) /\ positive dim w fld) ->
  length beta = length alpha -> length diff = length alpha -> (forall j, nth j diff R0 = (nth j alpha R0 - nth j beta R0)%R) ->
  exists ea eb ed, l2_error (F := Rs) sqrt dim sp functions alpha skip = Ok ea /\ l2_error (F := Rs) sqrt dim sp functions beta skip = Ok eb /\
    l2_error_projected (F := Rs) sqrt dim sp diff skip 0 = Ok ed /\
    length ea = length (kept skip (ps_fields sp)) /\ length eb = length ea /\ length ed = length ea /\
    forall j, (nth j ea R0 <= nth j eb R0 + nth j ed R0)%R.
Proof.
  intros dim sp functions alpha beta diff skip w f ND HQ H LB LD D.
  assert (RD : forall gamma, length gamma = length alpha -> forall fld, readable sp alpha 0 dim fld -> readable sp gamma 0 dim fld).
  { intros gamma L fld R i pe HE HD. destruct (R i pe HE HD) as (P1 & P2 & P3 & P4). rewrite L. exact (conj P1 (conj P2 (conj P3 P4))). }
  do 3 eexists. split; [|split; [|split]].
  - apply (l2_error_ok Rs_ring sqrt dim sp functions alpha skip w f ND HQ). intros name fld I. destruct (H name fld I) as (H1 & H2 & H3 & _).
    exact (conj H1 (conj H2 H3)).
  - apply (l2_error_ok Rs_ring sqrt dim sp functions beta skip w f ND HQ). intros name fld I. destruct (H name fld I) as (H1 & H2 & H3 & _).
    exact (conj (RD beta LB fld H1) (conj H2 H3)).
  - apply (l2_projected_ok Rs_ring sqrt dim sp diff skip 0 w ND HQ). intros name fld I. destruct (H name fld I) as (H1 & _ & (H3 & H4) & _).
    split; [exact (RD diff LD fld H1)|]. change (is_lagrange (pf_family fld)) with (lagrange fld) in *; destruct (lagrange fld); [exact H4|tauto].
  - rewrite !map_length. split; [reflexivity|]. split; [reflexivity|]. split; [reflexivity|]. intros j.
    assert (G : forall nf, In nf (kept skip (ps_fields sp)) ->
      (sqrt (norm2 dim w (snd nf) (pf_comp (snd nf)) (dirs_of dim (snd nf)) (fun pe i c d =>
              @ksub Rs (x_val (f (fst nf)) (pe_cell pe) c d i) (discrete alpha 0 (pf_comp (snd nf)) pe i c d))) <=
       sqrt (norm2 dim w (snd nf) (pf_comp (snd nf)) (dirs_of dim (snd nf)) (fun pe i c d =>
              @ksub Rs (x_val (f (fst nf)) (pe_cell pe) c d i) (discrete beta 0 (pf_comp (snd nf)) pe i c d))) +
       sqrt (norm2 dim w (snd nf) (pf_comp (snd nf)) (dirs_of dim (snd nf)) (fun pe i c d => discrete diff 0 (pf_comp (snd nf)) pe i c d)))%R).
    { intros [name fld] I. cbn [fst snd]. destruct (H name fld I) as (_ & _ & _ & P).
      rewrite (norm2_ext Rs_ring dim w fld (pf_comp fld) (dirs_of dim fld) (fun pe i c d => discrete diff 0 (pf_comp fld) pe i c d)
        (fun pe i c d => (- discrete diff 0 (pf_comp fld) pe i c d)%R)) by (intros; symmetry; apply Rmult_opp_opp).
      apply norm_triangle; [exact P|]. intros pe i c d _ _ _ _. rewrite (discrete_sub alpha beta diff _ _ _ _ _ D). change (@ksub Rs) with Rminus. ring. }
    revert G. generalize (kept skip (ps_fields sp)). intros l. revert j. induction l as [|nf l IH]; intros j G.
    + destruct j; simpl; lra.
    + destruct j as [|j]; simpl; [apply G; left; reflexivity|]. apply IH. intros nf' I. apply G. right. exact I.
Qed.
