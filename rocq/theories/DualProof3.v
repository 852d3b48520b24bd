(** * The vectorized dual forms *)
From Coq Require Import String List Arith Bool Lia Ring Field.
From Verif Require Import Base BaseProof FormModel FormSpec FormProof FormProof2 AdModel AdModel2 AdSpec AdProof AdProof2 AdProof3 BcProof BcProof2 MixProof MixProof2 SolidSpec SolidProof SolidProof2 SolidProof3 DualModel DualSpec DualProof DualProof2.
Import ListNotations.
Open Scope list_scope.

Section Vec.
  Context {F : scalar} (HK : is_field F) (two : @kadd F k1 k1 <> k0).
  Let HF : is_ring F := field_is_ring F HK.
  Let HFd : field_theory (@k0 F) k1 kadd kmul ksub kopp (fun a b => kmul a (kinv b)) kinv eq := HK.
  Add Field KfieldS : HFd.
  Local Open Scope num_scope.

  (** *** Loads *)
  Definition lf (n : nat) (r y : nat -> F) : F := ksum n (fun a => y a * r a).
  Lemma lf_zero : forall n y, lf n (fun _ => k0) y = k0.
  Proof. intros. unfold lf. apply (ksum_zero HF). intros. ring. Qed.
  Lemma lf_unit : forall n r a, a < n -> lf n r (unit_at a) = r a.
  Proof.
    intros. unfold lf. rewrite (ksum_single HF n a); [rewrite unit_same; ring|assumption|]. intros j Hj Hn. rewrite unit_other by congruence. ring.
  Qed.
  Lemma lf_slice : forall n b n1 m c v r y, c < m -> b + n1 * m <= n ->
    lf n (add_slice (c + b) (c + b + n1 * m) m v r) y = lf n r y + ksum n1 (fun k => y (b + (k * m + c))%nat * v k).
  Proof.
    intros n b n1 m c v r y Hc Hn. unfold lf.
    rewrite (ksum_ext n1 (fun k => y (b + (k * m + c))%nat * v k) (fun k => y (c + b + k * m)%nat * v k)) by (intros; do 2 f_equal; lia).
    rewrite <- (slice_sum HF n (c + b) m n1 (fun k a => y a * v k)) by (try lia; intros; nia).
    rewrite <- (ksum_add HF). apply ksum_ext. intros a Ha. unfold add_slice. destruct (in_slice _ _ _ a); ring.
  Qed.
  Lemma load_loop_ok : forall N off base m t n c (f : list (nat -> F)) r, off + m <= length f -> base + t_nphi t * m <= N ->
    exists r', load_loop off base m t n c f r = Ok r' /\ forall y, lf N r' y = lf N r y
      + - ksum n (fun i => c i * ksum m (fun d => nth (off + d) f (fun _ => k0) i * val base (t_nphi t) m (fun k => t_val t 0 i k 0) y d)).
  Proof.
    intros N off base m t n c f r Hf Hn. unfold load_loop.
    match goal with |- context [foldM ?g (seq 0 m) r] => set (g0 := g) end.
    assert (P : forall p, p <= m -> exists r', foldM g0 (seq 0 p) r = Ok r' /\ forall y, lf N r' y = lf N r y
      + - ksum n (fun i => c i * ksum p (fun d => nth (off + d) f (fun _ => k0) i * val base (t_nphi t) m (fun k => t_val t 0 i k 0) y d))).
    { induction p; intros Hp.
      - exists r. split; [reflexivity|]. intros y. rewrite (ksum_zero HF n) by (intros; simpl; ring). ring.
      - destruct (IHp ltac:(lia)) as (r1 & E1 & E2). rewrite seq_S, foldM_app_res, E1. cbn [bind foldM Nat.add]. unfold g0 at 1.
        unfold get_at. destruct (nth_error f (p + off)) as [fc|] eqn:Ef; [|apply nth_error_None in Ef; lia]. cbn [bind].
        eexists. split; [reflexivity|]. intros y. rewrite lf_slice by lia. rewrite E2.
        transitivity (lf N r y + - (ksum n (fun i => c i * ksum p (fun d => nth (off + d) f (fun _ => k0) i * val base (t_nphi t) m (fun k => t_val t 0 i k 0) y d))
           + ksum n (fun i => c i * (nth (off + p) f (fun _ => k0) i * val base (t_nphi t) m (fun k => t_val t 0 i k 0) y p)))).
        + rewrite (ksum_ext (t_nphi t) _ (fun k => ksum n (fun i => - (c i * (fc i * (y (base + (k * m + p))%nat * t_val t 0 i k 0)))))).
          * rewrite (ksum_swap HF). rewrite (ksum_ext n (fun i => ksum (t_nphi t) _) (fun i => - (c i * (nth (off + p) f (fun _ => k0) i * val base (t_nphi t) m (fun k => t_val t 0 i k 0) y p)))).
            -- rewrite (ksum_opp HF). ring.
            -- intros i Hi. rewrite (ksum_opp HF), !(ksum_mul_l HF). replace (nth (off + p) f (fun _ => k0)) with fc; [reflexivity|].
               symmetry. apply nth_error_nth. rewrite Nat.add_comm. exact Ef.
          * intros k Hk. rewrite <- (ksum_mul_l HF). apply ksum_ext. intros. ring.
        + rewrite <- (ksum_add HF). do 2 f_equal. apply ksum_ext. intros i Hi. simpl ksum. ring. }
    exact (P m (le_n m)).
  Qed.

  (** *** The forms with ordinary sums *)
  Lemma dot_ksum : forall n (a b : nat -> F), dot n a b = ksum n (fun c => a c * b c).
  Proof. intros. apply (Sum_ksum HF). Qed.
  Lemma dot_ext : forall n (a a' b b' : nat -> F), (forall c, c < n -> a c = a' c) -> (forall c, c < n -> b c = b' c) -> dot n a b = dot n a' b'.
  Proof. intros. rewrite !dot_ksum. apply ksum_ext. intros. rewrite H, H0 by assumption. reflexivity. Qed.
  Lemma dot_scale_l : forall n a (u v : nat -> F), dot n (fun c => a * u c) v = a * dot n u v.
  Proof. intros. rewrite !dot_ksum, <- (ksum_mul_l HF). apply ksum_ext. intros. ring. Qed.
  Lemma dot_scale_r : forall n a (u v : nat -> F), dot n u (fun c => a * v c) = a * dot n u v.
  Proof. intros. rewrite !dot_ksum, <- (ksum_mul_l HF). apply ksum_ext. intros. ring. Qed.
  Lemma dot_comm : forall n (u v : nat -> F), dot n u v = dot n v u.
  Proof. intros. rewrite !dot_ksum. apply ksum_ext. intros. ring. Qed.
  Lemma trace_ext : forall n (S S' : nat -> nat -> F), (forall c dir, c < n -> dir < n -> S c dir = S' c dir) -> trace_of n S = trace_of n S'.
  Proof. intros. unfold trace_of. apply (Sum_ext HF). intros. apply H; assumption. Qed.
  Lemma compliance_ext : forall n l m k (S S' T T' : nat -> nat -> F),
    (forall c dir, c < n -> dir < n -> S c dir = S' c dir) -> (forall c dir, c < n -> dir < n -> T c dir = T' c dir) ->
    compliance n l m k S T = compliance n l m k S' T'.
  Proof.
    intros. unfold compliance. rewrite (trace_ext n S S'), (trace_ext n T T') by assumption.
    rewrite (contract_ext HK n n (sym_part S) (sym_part S') (sym_part T) (sym_part T')),
            (contract_ext HK n n (skew_part S) (skew_part S') (skew_part T) (skew_part T')); [reflexivity| | | |];
      intros c dir Hc Hd; unfold sym_part, skew_part; rewrite ?H, ?H0 by assumption; reflexivity.
  Qed.
  Definition rot_dim (n : nat) : nat := if n =? 2 then 1%nat else 3%nat.
  Lemma couple_ext : forall n l m k (S S' T T' : nat -> nat -> F), n = 2%nat \/ n = 3%nat ->
    (forall c dir, c < rot_dim n -> dir < n -> S c dir = S' c dir) -> (forall c dir, c < rot_dim n -> dir < n -> T c dir = T' c dir) ->
    couple n l m k S T = couple n l m k S' T'.
  Proof.
    intros n l m k S S' T T' [-> | ->] H1 H2; unfold couple; cbn [Nat.eqb].
    - rewrite (contract_ext HK 1 2 S S' T T' H1 H2). reflexivity.
    - apply compliance_ext; assumption.
  Qed.

  Section Data.
    Variable D : du_data F.
    Hypothesis Hdim : du_nd D = 2%nat \/ du_nd D = 3%nat.
    Let N := length (du_w D).
    Let nd := du_nd D.
    Let nr := du_nr D.
    Definition vs (x : nat -> F) (i c dir : nat) : F := val 0 (du_ns D) nd (fun k => du_s D i k dir) x c.
    Definition vm (x : nat -> F) (i c dir : nat) : F := val (at_m D) (du_nm D) nr (fun k => du_m D i k dir) x c.
    Definition vu (x : nat -> F) (i : nat) : nat -> F := val (at_u D) (du_nu D) nd (du_u D i) x.
    Definition vt (x : nat -> F) (i : nat) : nat -> F := val (at_t D) (du_nt D) nr (du_t D i) x.
    Definition vds (x : nat -> F) (i : nat) : nat -> F := val 0 (du_ns D) nd (du_ds D i) x.
    Definition vdm (x : nat -> F) (i : nat) : nat -> F := val (at_m D) (du_nm D) nr (du_dm D i) x.
    Definition ven (x y : nat -> F) (i : nat) : F :=
      compliance nd (du_lambda D i) (du_mu D i) (du_kappa D i) (vs x i) (vs y i)
      + du_scale D i * couple nd (du_lambda_o D i) (du_mu_o D i) (du_kappa_o D i) (vm x i) (vm y i).

    Lemma energy_vals : forall x y i, energy D x y i = ven x y i.
    Proof.
      intros. unfold energy, ven. fold nd.
      rewrite (compliance_ext nd _ _ _ (sig D x i) (vs x i) (sig D y i) (vs y i)) by (intros; apply (val_field HK)).
      rewrite (couple_ext nd _ _ _ (mom D x i) (vm x i) (mom D y i) (vm y i)); [reflexivity|exact Hdim| |]; intros; apply (val_field HK).
    Qed.
    Lemma spin_vals : forall x y i, contract nd nd (spin nd (rot D x i)) (sig D y i) = contract nd nd (spin nd (vt x i)) (vs y i).
    Proof.
      intros. apply (contract_ext HK).
      - intros. apply spin_ext; try assumption. intros. apply (val_field HK).
      - intros. apply (val_field HK).
    Qed.

    Definition dual_point (x y : nat -> F) (i : nat) : F :=
      ven x y i + dot nd (vu x i) (vds y i) + dot nd (vds x i) (vu y i) + dot nr (vt x i) (vdm y i) + dot nr (vdm x i) (vt y i)
      - contract nd nd (spin nd (vt x i)) (vs y i) - contract nd nd (vs x i) (spin nd (vt y i)).
    Lemma dual_form_vals : forall x y, dual_form D x y = ksum N (fun i => e_det (du_e D) i * weight (du_w D) i * dual_point x y i).
    Proof.
      intros. unfold dual_form, integral. rewrite (Sum_ksum HF). apply ksum_ext. intros i Hi. unfold weight.
      transitivity (nth i (du_w D) k0 * e_det (du_e D) i * dual_point x y i); [|ring]. f_equal. unfold dual_point.
      rewrite energy_vals. fold nd nr.
      rewrite (contract_comm HK nd nd (sig D x i)), !spin_vals, (contract_comm HK nd nd (vs x i)).
      rewrite (dot_ext nd (disp D x i) (vu x i) (div_sig D y i) (vds y i)) by (intros; apply (val_field HK)).
      rewrite (dot_ext nd (div_sig D x i) (vds x i) (disp D y i) (vu y i)) by (intros; apply (val_field HK)).
      rewrite (dot_ext nr (rot D x i) (vt x i) (div_mom D y i) (vdm y i)) by (intros; apply (val_field HK)).
      rewrite (dot_ext nr (div_mom D x i) (vdm x i) (rot D y i) (vt y i)) by (intros; apply (val_field HK)). reflexivity.
    Qed.
    Definition riesz_point (x y : nat -> F) (i : nat) : F :=
      ven x y i + dot nd (vds x i) (vds y i) + dot nr (vdm x i) (vdm y i) + dot nd (vu x i) (vu y i) + dot nr (vt x i) (vt y i).
    Lemma riesz_form_vals : forall x y, riesz_form D x y = ksum N (fun i => e_det (du_e D) i * weight (du_w D) i * riesz_point x y i).
    Proof.
      intros. unfold riesz_form, integral. rewrite (Sum_ksum HF). apply ksum_ext. intros i Hi. unfold weight.
      transitivity (nth i (du_w D) k0 * e_det (du_e D) i * riesz_point x y i); [|ring]. f_equal. unfold riesz_point.
      rewrite energy_vals. fold nd nr.
      rewrite (dot_ext nd (div_sig D x i) (vds x i) (div_sig D y i) (vds y i)) by (intros; apply (val_field HK)).
      rewrite (dot_ext nr (div_mom D x i) (vdm x i) (div_mom D y i) (vdm y i)) by (intros; apply (val_field HK)).
      rewrite (dot_ext nd (disp D x i) (vu x i) (disp D y i) (vu y i)) by (intros; apply (val_field HK)).
      rewrite (dot_ext nr (rot D x i) (vt x i) (rot D y i) (vt y i)) by (intros; apply (val_field HK)). reflexivity.
    Qed.
    Lemma dual_load_vals : forall y, dual_load D y = - (ksum N (fun i => e_det (du_e D) i * weight (du_w D) i * ksum nd (fun c => nth c (du_f D) (fun _ => k0) i * vu y i c))
      + ksum N (fun i => e_det (du_e D) i * weight (du_w D) i * ksum nr (fun c => nth (nd + c) (du_f D) (fun _ => k0) i * vt y i c))).
    Proof.
      intros. unfold dual_load, integral. rewrite (Sum_ksum HF). fold N nd nr. f_equal. rewrite <- (ksum_add HF). apply ksum_ext. intros i Hi.
      rewrite !(Sum_ksum HF). unfold weight.
      rewrite (ksum_ext nd (fun c => nth c (du_f D) (fun _ => k0) i * disp D y i c) (fun c => nth c (du_f D) (fun _ => k0) i * vu y i c))
        by (intros; f_equal; apply (val_field HK)).
      rewrite (ksum_ext nr (fun m => nth (nd + m) (du_f D) (fun _ => k0) i * rot D y i m) (fun m => nth (nd + m) (du_f D) (fun _ => k0) i * vt y i m))
        by (intros; f_equal; apply (val_field HK)). ring.
    Qed.
  End Data.

  (** the coupling of a field and a divergence that lacks the factor 1/det *)
  Lemma coupling_det : forall ub n1 m sb n2 N (w det : nat -> F) (f g g' : nat -> nat -> F) y x,
    (forall i l, i < N -> g i l = det i * g' i l) ->
    ksum m (fun c => cblk ub n1 m c sb n2 m c (fun k l => ksum N (fun i => (w i * f i k) * g i l)) y x
                     + cblk sb n2 m c ub n1 m c (fun k l => ksum N (fun i => (w i * f i l) * g i k)) y x) =
    ksum N (fun i => det i * w i * (dot m (val ub n1 m (f i) x) (val sb n2 m (g' i) y) + dot m (val sb n2 m (g' i) x) (val ub n1 m (f i) y))).
  Proof.
    intros ub n1 m sb n2 N w det f g g' y x H. rewrite (coupling_sep HK). apply ksum_ext. intros i Hi.
    assert (V : forall z c, val sb n2 m (g i) z c = det i * val sb n2 m (g' i) z c).
    { intros. unfold val. rewrite <- (ksum_mul_l HF). apply ksum_ext. intros. rewrite H by exact Hi. ring. }
    rewrite (dot_ext m (val ub n1 m (f i) x) (val ub n1 m (f i) x) (val sb n2 m (g i) y) (fun c => det i * val sb n2 m (g' i) y c)) by (intros; rewrite ?V; reflexivity).
    rewrite (dot_ext m (val sb n2 m (g i) x) (fun c => det i * val sb n2 m (g' i) x c) (val ub n1 m (f i) y) (val ub n1 m (f i) y)) by (intros; rewrite ?V; reflexivity).
    rewrite dot_scale_l, dot_scale_r. ring.
  Qed.

  Lemma system_bil : forall n B l r J, (forall y, lf n r y = l y) -> (forall y x, bil n J y x = B x y) -> system_of n B l zero_state (mk_local n r J).
  Proof.
    intros n B l r J H1 H2. split; [reflexivity|]. split; cbn [l_r l_j].
    - intros a Ha. rewrite <- H2, <- H1, lf_unit by exact Ha. unfold bil.
      rewrite (ksum_zero HF n); [ring|]. intros b Hb. rewrite (ksum_zero HF n); [ring|]. intros. unfold zero_state. ring.
    - intros a b Ha Hb. rewrite <- H2, (bil_units HF) by assumption. reflexivity.
  Qed.
  Lemma val_zero : forall b n m (g : nat -> F) c, val b n m g zero_state c = k0.
  Proof. intros. unfold val, zero_state. apply (ksum_zero HF). intros. ring. Qed.

  (** *** With couple stress *)
  Section Couple.
    Variable d : lce_input F.
    Hypothesis Hfit : lce_dual_fits d.
    Variables (scale : nat -> F) (dm : nat -> nat -> F).
    Let D := li_data d scale dm.
    Let nd := li_dim d.
    Let nr := li_rot d.
    Let n := du_size D.
    Let w := li_w d.
    Let c i := e_det (li_se d) i * weight w i.

    Lemma ss_block_ok : forall J, exists J', ss_block d J = Ok J' /\ forall y x, bil n J' y x = bil n J y x
      + ksum (length w) (fun i => c i * compliance nd (li_lambda_s d i) (li_mu_s d i) (li_kappa_s d i) (vs D x i) (vs D y i)).
    Proof.
      intros J. destruct Hfit as (E1 & E2 & E3 & E4 & E5 & E6 & E7 & E8 & E9 & E10 & E11).
      assert (C : cols (e_tab (li_se d)) (e_dim (li_se d)) = nd) by (unfold cols; rewrite E6; unfold nd, li_dim; lia).
      unfold ss_block, fits_cols. rewrite C, E2. fold nd. rewrite Nat.eqb_refl. cbn [bind]. eexists. split; [reflexivity|]. intros y x.
      pose proof (bil_full HF n 0 (t_nphi (e_tab (li_se d))) nd
        (tensor_block (e_tab (li_se d)) (e_dim (li_se d)) (length w) c (li_lambda_s d) (li_mu_s d) (li_kappa_s d)) J y x) as B.
      etransitivity; [apply B; unfold n, du_size, at_t, at_u, at_m; simpl; fold nd; lia|]. f_equal. rewrite (fblk_tensor HK two); [reflexivity|exact C].
    Qed.
    Lemma mm_block_ok : forall J, exists J', mm_block d scale J = Ok J' /\ forall y x, bil n J' y x = bil n J y x
      + ksum (length w) (fun i => c i * (scale i * couple nd (li_lambda_o d i) (li_mu_o d i) (li_kappa_o d i) (vm D x i) (vm D y i))).
    Proof.
      intros J. destruct Hfit as (E1 & E2 & E3 & E4 & E5 & E6 & E7 & E8 & E9 & E10 & E11).
      assert (C : cols (e_tab (li_me d)) (e_dim (li_se d)) = nd) by (unfold cols; rewrite E8; unfold nd, li_dim; lia).
      assert (NS : at_m D = (t_nphi (e_tab (li_se d)) * fe_comp (li_s d))%nat) by (rewrite E2; reflexivity).
      assert (NR : du_nr D = fe_comp (li_m d)) by (rewrite E3; reflexivity).
      unfold mm_block. rewrite <- NS, <- NR. fold nd. change (e_dim (li_se d)) with nd. destruct E1 as [E|E]; fold nd in E.
      - replace (nd =? 3) with false by (rewrite E; reflexivity). eexists. split; [reflexivity|]. intros y x.
        rewrite (bil_diag HF) by (unfold n, du_size, at_t, at_u; simpl; lia). f_equal. rewrite (diag_inner HK).
        change (e_dim (li_se d)) with nd in C. rewrite C. apply ksum_ext. intros i Hi. unfold couple. rewrite E. cbn [Nat.eqb].
        replace (du_nr D) with 1%nat by (unfold du_nr; simpl; fold nd; rewrite E; reflexivity).
        transitivity (c i * scale i * kinv (li_mu_o d i + li_kappa_o d i) * contract 1 2 (vm D x i) (vm D y i)); [|unfold kdiv; ring].
        f_equal; [unfold kdiv, c, w; ring|]. unfold vm, tens. replace (du_nr D) with 1%nat by (unfold du_nr; simpl; fold nd; rewrite E; reflexivity). reflexivity.
      - replace (nd =? 3) with true by (rewrite E; reflexivity). unfold fits_cols. change (e_dim (li_se d)) with nd in C. rewrite C.
        assert (R : du_nr D = nd) by (unfold du_nr; simpl; fold nd; rewrite E; reflexivity). rewrite R, Nat.eqb_refl. cbn [bind]. eexists. split; [reflexivity|].
        intros y x. rewrite (bil_full HF) by (unfold n, du_size, at_t, at_u; rewrite R; simpl; lia). f_equal.
        rewrite (fblk_tensor HK two) by exact C. apply ksum_ext. intros i Hi. unfold couple. replace (nd =? 2) with false by (rewrite E; reflexivity).
        unfold vm, tens. rewrite R. simpl. unfold c, w. ring.
    Qed.
    Lemma ref_div_s : forall i k, regular (li_se d) w -> i < length w ->
      ref_div (e_tab (li_se d)) (t_nder (e_tab (li_se d))) (e_dim (li_se d)) i k = e_det (li_se d) i * piola_div (li_se d) (e_tab (li_se d)) nd i k.
    Proof.
      intros i k R Hi. destruct Hfit as (E1 & E2 & E3 & E4 & E5 & E6 & E7 & E8 & E9 & E10 & E11).
      unfold ref_div, piola_div, cols. rewrite E6, E7. unfold nd. change (e_dim (li_se d)) with (li_dim d). rewrite !Nat.min_id, (Sum_ksum HF).
      field. apply R. exact Hi.
    Qed.
    Lemma ref_div_m : forall i k, regular (li_se d) w -> i < length w ->
      ref_div (e_tab (li_me d)) (t_nder (e_tab (li_me d))) (e_dim (li_se d)) i k = e_det (li_se d) i * piola_div (li_se d) (e_tab (li_me d)) nd i k.
    Proof.
      intros i k R Hi. destruct Hfit as (E1 & E2 & E3 & E4 & E5 & E6 & E7 & E8 & E9 & E10 & E11).
      unfold ref_div, piola_div, cols. rewrite E8, E9. unfold nd. change (e_dim (li_se d)) with (li_dim d). rewrite !Nat.min_id, (Sum_ksum HF).
      field. apply R. exact Hi.
    Qed.

  End Couple.
End Vec.
