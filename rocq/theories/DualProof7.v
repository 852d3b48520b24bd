(** * Properties of the dual forms and of their systems *)
From Coq Require Import String List Arith Bool Lia Ring Field.
From Verif Require Import Base BaseProof FormModel FormSpec FormProof FormProof2 AdModel AdModel2 AdSpec AdProof AdProof2 AdProof3 BcProof BcProof2 MixProof MixProof2 SolidSpec SolidProof SolidProof2 SolidProof3 DualModel DualSpec DualProof DualProof2 DualProof3 DualProof4 DualProof5 DualProof6.
Import ListNotations.
Open Scope list_scope.

Section Props.
  Context {F : scalar} (HK : is_field F) (two : @kadd F k1 k1 <> k0).
  Let HF : is_ring F := field_is_ring F HK.
  Let HFd : field_theory (@k0 F) k1 kadd kmul ksub kopp (fun a b => kmul a (kinv b)) kinv eq := HK.
  Add Field KfieldW : HFd.
  Local Open Scope num_scope.

  (** *** Linearity and symmetry *)
  Lemma linear_ksum : forall n m (L : nat -> (nat -> F) -> F), (forall i, i < m -> linear_in n (L i)) -> linear_in n (fun x => ksum m (fun i => L i x)).
  Proof.
    intros n m L H x. pose proof (linear_sum HF n m L H x) as E. cbn beta in E. rewrite (Sum_ksum HF) in E. rewrite E. apply ksum_ext. intros b Hb.
    rewrite (Sum_ksum HF). reflexivity.
  Qed.
  Lemma linear_ext : forall n (L M : (nat -> F) -> F), (forall x, L x = M x) -> linear_in n L -> linear_in n M.
  Proof. intros n L M H HL x. rewrite <- H, HL. apply ksum_ext. intros. rewrite H. reflexivity. Qed.
  Lemma linear_val : forall n b n1 m (g : nat -> F) c, b + n1 * m <= n -> c < m -> linear_in n (fun x => val b n1 m g x c).
  Proof. intros. unfold val. apply linear_ksum. intros k Hk. apply (linear_r HF), (linear_var HF). nia. Qed.
  Lemma linear_dot : forall n m (u : nat -> (nat -> F) -> F) v, (forall c, c < m -> linear_in n (u c)) -> linear_in n (fun x => dot m (fun c => u c x) v).
  Proof.
    intros n m u v H. apply (linear_ext n (fun x => ksum m (fun c => u c x * v c))); [intros; symmetry; apply (dot_ksum HK)|].
    apply linear_ksum. intros. apply (linear_r HF). apply H. assumption.
  Qed.
  Lemma linear_contract : forall n p q (S : nat -> nat -> (nat -> F) -> F) T, (forall c e, c < p -> e < q -> linear_in n (S c e)) ->
    linear_in n (fun x => contract p q (fun c e => S c e x) T).
  Proof.
    intros n p q S T H. apply (linear_ext n (fun x => ksum p (fun c => ksum q (fun e => S c e x * T c e)))); [intros; symmetry; apply (contract_ksum HK)|].
    apply linear_ksum. intros. apply linear_ksum. intros. apply (linear_r HF). apply H; assumption.
  Qed.
  Lemma linear_compliance : forall n m l mu k (S : nat -> nat -> (nat -> F) -> F) T, (forall c e, c < m -> e < m -> linear_in n (S c e)) ->
    linear_in n (fun x => compliance m l mu k (fun c e => S c e x) T).
  Proof.
    intros n m l mu k S T H. apply (linear_ext n (fun x => contract m m (Amap m l mu k (fun c e => S c e x)) T)); [intros; apply (Amap_contract HK two)|].
    apply (linear_contract n m m (fun c e x => Amap m l mu k (fun c e => S c e x) c e)). intros c e Hc He. unfold Amap.
    apply (linear_add HF); [apply (linear_l HF); apply (linear_sub HF)|apply (linear_l HF)].
    - apply (linear_l HF). apply (linear_add HF); apply H; assumption.
    - apply (linear_l HF). apply (linear_l HF). apply linear_ksum. intros. apply H; assumption.
    - apply (linear_l HF). apply (linear_sub HF); apply H; assumption.
  Qed.
  Lemma compliance_comm : forall m l mu k (S T : nat -> nat -> F), compliance m l mu k S T = compliance m l mu k T S.
  Proof. intros. unfold compliance. rewrite (contract_comm HK m m (sym_part S)), (contract_comm HK m m (skew_part S)). ring. Qed.
  Lemma couple_comm : forall m l mu k (S T : nat -> nat -> F), couple m l mu k S T = couple m l mu k T S.
  Proof. intros. unfold couple. destruct (m =? 2); [rewrite (contract_comm HK); reflexivity|apply compliance_comm]. Qed.

  Section Data.
    Variable D : du_data F.
    Hypothesis Hdim : du_nd D = 2%nat \/ du_nd D = 3%nat.
    Let n := du_size D.
    Let nd := du_nd D.
    Let nr := du_nr D.

    Lemma energy_sym : forall x y i, energy D x y i = energy D y x i.
    Proof. intros. unfold energy. rewrite compliance_comm, couple_comm. reflexivity. Qed.
    Lemma dual_sym : forall x y, dual_form D x y = dual_form D y x.
    Proof.
      intros. unfold dual_form. apply (integral_ext HF). intros i Hi. rewrite energy_sym.
      rewrite (dot_comm HK _ (disp D x i)), (dot_comm HK _ (div_sig D x i)), (dot_comm HK _ (rot D x i)), (dot_comm HK _ (div_mom D x i)).
      rewrite (contract_comm HK _ _ (sig D x i)), (contract_comm HK _ _ (spin _ (rot D x i))). ring.
    Qed.
    Lemma riesz_sym : forall x y, riesz_form D x y = riesz_form D y x.
    Proof.
      intros. unfold riesz_form. apply (integral_ext HF). intros i Hi. rewrite energy_sym.
      rewrite (dot_comm HK _ (disp D x i)), (dot_comm HK _ (div_sig D x i)), (dot_comm HK _ (rot D x i)), (dot_comm HK _ (div_mom D x i)). ring.
    Qed.

    Lemma sizes_le : 0 + du_ns D * nd <= n /\ at_m D + du_nm D * nr <= n /\ at_u D + du_nu D * nd <= n /\ at_t D + du_nt D * nr <= n.
    Proof. unfold n, du_size, at_t, at_u, at_m, nr, nd. lia. Qed.
    Lemma lin_vs : forall i c e, c < nd -> linear_in n (fun x => vs D x i c e).
    Proof. intros. apply (linear_val n 0); [apply sizes_le|assumption]. Qed.
    Lemma lin_vm : forall i c e, c < nr -> linear_in n (fun x => vm D x i c e).
    Proof. intros. apply (linear_val n (at_m D)); [apply sizes_le|assumption]. Qed.
    Lemma lin_vu : forall i c, c < nd -> linear_in n (fun x => vu D x i c).
    Proof. intros. apply (linear_val n (at_u D)); [apply sizes_le|assumption]. Qed.
    Lemma lin_vt : forall i c, c < nr -> linear_in n (fun x => vt D x i c).
    Proof. intros. apply (linear_val n (at_t D)); [apply sizes_le|assumption]. Qed.
    Lemma lin_vds : forall i c, c < nd -> linear_in n (fun x => vds D x i c).
    Proof. intros. apply (linear_val n 0); [apply sizes_le|assumption]. Qed.
    Lemma lin_vdm : forall i c, c < nr -> linear_in n (fun x => vdm D x i c).
    Proof. intros. apply (linear_val n (at_m D)); [apply sizes_le|assumption]. Qed.
    Lemma lin_spin : forall i c e, c < nd -> e < nd -> linear_in n (fun x => spin nd (vt D x i) c e).
    Proof.
      intros i c e Hc He.
      assert (T : forall m, m < nr -> linear_in n (fun x => vt D x i m)) by (intros; apply lin_vt; assumption).
      assert (O : forall L, linear_in n L -> linear_in n (fun x : nat -> F => - L x)).
      { intros L HL. apply (linear_ext n (fun x => (- k1) * L x)); [intros; ring|]. apply (linear_l HF). exact HL. }
      assert (NR : nr = n_rot nd) by reflexivity. rewrite NR in T.
      unfold spin. destruct Hdim as [E|E]; fold nd in E; rewrite E in *; cbn [Nat.eqb n_rot] in *.
      - destruct (lt2 c Hc) as [->| ->]; destruct (lt2 e He) as [->| ->]; cbn; first [apply O, T; lia | apply T; lia | apply (linear_zero HF)].
      - destruct (lt3 c Hc) as [->|[->| ->]]; destruct (lt3 e He) as [->|[->| ->]]; cbn; first [apply O, T; lia | apply T; lia | apply (linear_zero HF)].
    Qed.
    Lemma lin_ven : forall y i, linear_in n (fun x => ven D x y i).
    Proof.
      intros. unfold ven. apply (linear_add HF).
      - apply (linear_compliance n _ _ _ _ (fun c e x => vs D x i c e)). intros. apply lin_vs. assumption.
      - apply (linear_l HF). unfold couple. destruct Hdim as [E|E]; fold nd; fold nd in E.
        + replace (nd =? 2) with true by (rewrite E; reflexivity). apply (linear_l HF). apply (linear_contract n _ _ (fun c e x => vm D x i c e)).
          intros. apply lin_vm. unfold nr, du_nr. fold nd. rewrite E. simpl. lia.
        + replace (nd =? 2) with false by (rewrite E; reflexivity). apply (linear_compliance n _ _ _ _ (fun c e x => vm D x i c e)).
          intros. apply lin_vm. unfold nr, du_nr. fold nd. rewrite E in *. simpl. lia.
    Qed.
    Lemma dual_linear_1 : forall y, linear_in n (fun x => dual_form D x y).
    Proof.
      intros y. apply (linear_ext n (fun x => ksum (length (du_w D)) (fun i => e_det (du_e D) i * weight (du_w D) i * dual_point D x y i)));
        [intros; symmetry; apply (dual_form_vals HK D Hdim)|].
      apply linear_ksum. intros i Hi. apply (linear_l HF). unfold dual_point. fold nd nr.
      apply (linear_sub HF); [apply (linear_sub HF); [apply (linear_add HF); [apply (linear_add HF); [apply (linear_add HF); [apply (linear_add HF)|]|]|]|]|].
      - apply lin_ven.
      - apply (linear_dot n nd (fun c x => vu D x i c)). intros. apply lin_vu. assumption.
      - apply (linear_dot n nd (fun c x => vds D x i c)). intros. apply lin_vds. assumption.
      - apply (linear_dot n nr (fun c x => vt D x i c)). intros. apply lin_vt. assumption.
      - apply (linear_dot n nr (fun c x => vdm D x i c)). intros. apply lin_vdm. assumption.
      - apply (linear_contract n nd nd (fun c e x => spin nd (vt D x i) c e)). intros. apply lin_spin; assumption.
      - apply (linear_contract n nd nd (fun c e x => vs D x i c e)). intros. apply lin_vs. assumption.
    Qed.
    Lemma riesz_linear_1 : forall y, linear_in n (fun x => riesz_form D x y).
    Proof.
      intros y. apply (linear_ext n (fun x => ksum (length (du_w D)) (fun i => e_det (du_e D) i * weight (du_w D) i * riesz_point D x y i)));
        [intros; symmetry; apply (riesz_form_vals HK D Hdim)|].
      apply linear_ksum. intros i Hi. apply (linear_l HF). unfold riesz_point. fold nd nr.
      apply (linear_add HF); [apply (linear_add HF); [apply (linear_add HF); [apply (linear_add HF)|]|]|].
      - apply lin_ven.
      - apply (linear_dot n nd (fun c x => vds D x i c)). intros. apply lin_vds. assumption.
      - apply (linear_dot n nr (fun c x => vdm D x i c)). intros. apply lin_vdm. assumption.
      - apply (linear_dot n nd (fun c x => vu D x i c)). intros. apply lin_vu. assumption.
      - apply (linear_dot n nr (fun c x => vt D x i c)). intros. apply lin_vt. assumption.
    Qed.
    Lemma dual_linear_2 : forall x, linear_in n (fun y => dual_form D x y).
    Proof. intros x. apply (linear_ext n (fun y => dual_form D y x)); [intros; apply dual_sym|apply dual_linear_1]. Qed.
    Lemma riesz_linear_2 : forall x, linear_in n (fun y => riesz_form D x y).
    Proof. intros x. apply (linear_ext n (fun y => riesz_form D y x)); [intros; apply riesz_sym|apply riesz_linear_1]. Qed.

    (** *** The energy of a state *)
    Lemma val_keep : forall b n1 m (g : nat -> F) x c, b + n1 * m <= at_u D -> c < m -> val b n1 m g (flip D x) c = val b n1 m g x c.
    Proof. intros. unfold val. apply ksum_ext. intros k Hk. unfold flip. replace (_ <? _) with true; [reflexivity|]. symmetry. apply Nat.ltb_lt. nia. Qed.
    Lemma val_flip : forall b n1 m (g : nat -> F) x c, at_u D <= b -> val b n1 m g (flip D x) c = (- k1) * val b n1 m g x c.
    Proof.
      intros. unfold val. rewrite <- (ksum_mul_l HF). apply ksum_ext. intros k Hk. unfold flip. replace (_ <? _) with false; [ring|].
      symmetry. apply Nat.ltb_ge. lia.
    Qed.
    Lemma dual_flip : forall x, dual_form D x (flip D x) = integral (du_e D) (du_w D) (energy D x x).
    Proof.
      intros x. rewrite (dual_form_vals HK D Hdim). unfold integral. rewrite (Sum_ksum HF). apply ksum_ext. intros i Hi.
      rewrite (energy_vals HK D Hdim). unfold weight. transitivity (nth i (du_w D) k0 * e_det (du_e D) i * dual_point D x (flip D x) i); [ring|]. f_equal.
      unfold dual_point. fold nd nr.
      assert (S0 : forall c e, c < nd -> vs D (flip D x) i c e = vs D x i c e) by (intros; apply val_keep; [unfold at_u, at_m; fold nd; lia|assumption]).
      assert (M0 : forall c e, c < nr -> vm D (flip D x) i c e = vm D x i c e) by (intros; apply val_keep; [unfold at_u; fold nr; lia|assumption]).
      assert (S1 : forall c, c < nd -> vds D (flip D x) i c = vds D x i c) by (intros; apply val_keep; [unfold at_u, at_m; fold nd; lia|assumption]).
      assert (M1 : forall c, c < nr -> vdm D (flip D x) i c = vdm D x i c) by (intros; apply val_keep; [unfold at_u; fold nr; lia|assumption]).
      assert (U0 : forall c, c < nd -> vu D (flip D x) i c = (- k1) * vu D x i c) by (intros; apply val_flip; lia).
      assert (T0 : forall c, c < nr -> vt D (flip D x) i c = (- k1) * vt D x i c) by (intros; apply val_flip; unfold at_t; lia).
      assert (EN : ven D x (flip D x) i = ven D x x i).
      { unfold ven. fold nd. rewrite (compliance_ext HK nd _ _ _ (vs D x i) (vs D x i) (vs D (flip D x) i) (vs D x i)) by (intros; first [reflexivity|apply S0; assumption]).
        rewrite (couple_ext HK nd _ _ _ (vm D x i) (vm D x i) (vm D (flip D x) i) (vm D x i)); [reflexivity|exact Hdim|reflexivity|]. intros. apply M0. assumption. }
      rewrite EN. rewrite (dot_ext HK nd (vu D x i) (vu D x i) (vds D (flip D x) i) (vds D x i)) by (intros; first [reflexivity|apply S1; assumption]).
      rewrite (dot_ext HK nr (vt D x i) (vt D x i) (vdm D (flip D x) i) (vdm D x i)) by (intros; first [reflexivity|apply M1; assumption]).
      rewrite (dot_ext HK nd (vds D x i) (vds D x i) (vu D (flip D x) i) (fun c => (- k1) * vu D x i c)) by (intros; first [reflexivity|apply U0; assumption]).
      rewrite (dot_ext HK nr (vdm D x i) (vdm D x i) (vt D (flip D x) i) (fun c => (- k1) * vt D x i c)) by (intros; first [reflexivity|apply T0; assumption]).
      rewrite !(dot_scale_r HK), (dot_comm HK nd (vds D x i)), (dot_comm HK nr (vdm D x i)).
      rewrite (contract_ext HK nd nd (spin nd (vt D x i)) (spin nd (vt D x i)) (vs D (flip D x) i) (vs D x i)) by (intros; first [reflexivity|apply S0; assumption]).
      rewrite (contract_ext HK nd nd (vs D x i) (vs D x i) (spin nd (vt D (flip D x) i)) (fun c e => (- k1) * spin nd (vt D x i) c e)).
      - rewrite (contract_comm HK nd nd (vs D x i)), (contract_mul_l HK). ring.
      - reflexivity.
      - intros c e Hc He. rewrite (spin_ext nd _ (fun m => (- k1) * vt D x i m) c e Hdim Hc He) by (intros; apply T0; assumption).
        unfold spin. destruct (nd =? 2); destruct (e =? _); [ring| |ring|]; destruct (c =? _); ring.
    Qed.
  End Data.

  (** only the factors at the points matter *)
  Lemma dual_scale_ext : forall (d : lce_input F) s s' dm dm', lce_dual_fits d -> (forall i, s i = s' i) -> (forall i k, dm i k = dm' i k) ->
    (forall x y, dual_form (li_data d s dm) x y = dual_form (li_data d s' dm') x y) /\
    (forall x y, riesz_form (li_data d s dm) x y = riesz_form (li_data d s' dm') x y).
  Proof.
    intros d s s' dm dm' (E1 & _) H1 H2.
    assert (V : forall x i c, vdm (li_data d s dm) x i c = vdm (li_data d s' dm') x i c).
    { intros. unfold vdm, val. apply ksum_ext. intros. simpl. rewrite H2. reflexivity. }
    assert (W : forall x y i, ven (li_data d s dm) x y i = ven (li_data d s' dm') x y i).
    { intros. unfold ven. simpl. rewrite H1. reflexivity. }
    split; intros x y.
    - rewrite !(dual_form_vals HK) by exact E1. apply ksum_ext. intros i Hi. simpl. f_equal. unfold dual_point. rewrite W.
      rewrite (dot_ext HK _ (vt (li_data d s dm) x i) (vt (li_data d s' dm') x i) (vdm (li_data d s dm) y i) (vdm (li_data d s' dm') y i)) by (intros; first [reflexivity|apply V]).
      rewrite (dot_ext HK _ (vdm (li_data d s dm) x i) (vdm (li_data d s' dm') x i) (vt (li_data d s dm) y i) (vt (li_data d s' dm') y i)) by (intros; first [reflexivity|apply V]).
      reflexivity.
    - rewrite !(riesz_form_vals HK) by exact E1. apply ksum_ext. intros i Hi. simpl. f_equal. unfold riesz_point. rewrite W.
      rewrite (dot_ext HK _ (vdm (li_data d s dm) x i) (vdm (li_data d s' dm') x i) (vdm (li_data d s dm) y i) (vdm (li_data d s' dm') y i)) by (intros; apply V).
      reflexivity.
  Qed.
  Lemma system_form_ext : forall n B B' l (alpha : nat -> F) L, (forall x y, B x y = B' x y) -> system_of n B l alpha L -> system_of n B' l alpha L.
  Proof. intros n B B' l alpha L H (H1 & H2 & H3). split; [exact H1|]. split; intros; rewrite <- H; auto. Qed.

  (** *** Change of unknowns: a constant length *)
  Lemma stretch_out : forall D l b n1 m (g : nat -> F) x c, b + n1 * m <= at_m D \/ at_u D <= b -> c < m -> val b n1 m g (stretch D l x) c = val b n1 m g x c.
  Proof.
    intros. unfold val. apply ksum_ext. intros k Hk. unfold stretch. replace (_ && _) with false; [reflexivity|]. symmetry. apply andb_false_iff.
    destruct H as [H|H]; [left; apply Nat.leb_gt; nia|right; apply Nat.ltb_ge; nia].
  Qed.
  Lemma stretch_in : forall D l n1 m (g : nat -> F) x c, at_m D + n1 * m <= at_u D -> c < m -> val (at_m D) n1 m g (stretch D l x) c = l * val (at_m D) n1 m g x c.
  Proof.
    intros. unfold val. rewrite <- (ksum_mul_l HF). apply ksum_ext. intros k Hk. unfold stretch. replace (_ && _) with true; [ring|]. symmetry. apply andb_true_iff.
    split; [apply Nat.leb_le; lia|apply Nat.ltb_lt; nia].
  Qed.
  Lemma compliance_scale : forall m l mu k (S T : nat -> nat -> F) a, compliance m l mu k (fun c e => a * S c e) T = a * compliance m l mu k S T.
  Proof.
    intros. rewrite <- !(Amap_contract HK two), <- (contract_mul_l HK). apply (contract_ext HK); [|reflexivity]. intros. unfold Amap.
    rewrite (ksum_mul_l HF). ring.
  Qed.
  Lemma couple_scale : forall m l mu k (S T : nat -> nat -> F) a, couple m l mu k (fun c e => a * S c e) T = a * couple m l mu k S T.
  Proof. intros. unfold couple. destruct (m =? 2); [rewrite (contract_mul_l HK); ring|apply compliance_scale]. Qed.

  Lemma scaled_change : forall (d : lce_input F) (l : F) s dm dm', lce_dual_fits d -> l <> k0 -> (forall i, s i = kinv (l * l)) -> (forall i k, dm' i k = l * dm i k) ->
    forall x y, dual_form (li_data d (fun _ => k1) dm') x y = dual_form (li_data d s dm) (stretch (li_data d s dm) l x) (stretch (li_data d s dm) l y).
  Proof.
    intros d l s dm dm' (E1 & _) Hl H1 H2 x y. rewrite !(dual_form_vals HK) by exact E1. apply ksum_ext. intros i Hi. simpl. f_equal.
    set (D := li_data d s dm). set (D' := li_data d (fun _ => k1) dm'). set (nd := li_dim d). set (nr := du_nr D).
    assert (S0 : forall z c e, c < nd -> vs D (stretch D l z) i c e = vs D' z i c e) by (intros; apply stretch_out; [left; unfold at_m; lia|assumption]).
    assert (S1 : forall z c, c < nd -> vds D (stretch D l z) i c = vds D' z i c) by (intros; apply stretch_out; [left; unfold at_m; lia|assumption]).
    assert (U0 : forall z c, c < nd -> vu D (stretch D l z) i c = vu D' z i c) by (intros; apply stretch_out; [right; lia|assumption]).
    assert (T0 : forall z c, c < nr -> vt D (stretch D l z) i c = vt D' z i c) by (intros; apply stretch_out; [right; unfold at_t; lia|assumption]).
    assert (M0 : forall z c e, c < nr -> vm D (stretch D l z) i c e = l * vm D' z i c e) by (intros; apply stretch_in; [unfold at_u; lia|assumption]).
    assert (M1 : forall z c, c < nr -> vdm D (stretch D l z) i c = vdm D' z i c).
    { intros z c Hc. etransitivity; [apply stretch_in; [unfold at_u; lia|assumption]|]. unfold vdm, val. rewrite <- (ksum_mul_l HF). apply ksum_ext. intros k Hk.
      change (du_dm D' i k) with (dm' i k). change (du_dm D i k) with (dm i k). change (at_m D') with (at_m D). change (du_nr D') with (du_nr D). rewrite H2. ring. }
    unfold dual_point. change (du_nd D') with nd. change (du_nd D) with nd. change (du_nr D') with nr. fold nr.
    assert (EN : ven D (stretch D l x) (stretch D l y) i = ven D' x y i).
    { unfold ven. change (du_nd D') with nd. change (du_nd D) with nd.
      rewrite (compliance_ext HK nd _ _ _ (vs D (stretch D l x) i) (vs D' x i) (vs D (stretch D l y) i) (vs D' y i)) by (intros; apply S0; assumption).
      rewrite (couple_ext HK nd _ _ _ (vm D (stretch D l x) i) (fun c e => l * vm D' x i c e) (vm D (stretch D l y) i) (fun c e => l * vm D' y i c e)) by (first [exact E1|intros; apply M0; assumption]).
      rewrite couple_scale, couple_comm, couple_scale, couple_comm. simpl. rewrite H1. f_equal. field. exact Hl. }
    rewrite EN.
    rewrite (dot_ext HK nd (vu D (stretch D l x) i) (vu D' x i) (vds D (stretch D l y) i) (vds D' y i)) by (intros; first [apply U0; assumption|apply S1; assumption]).
    rewrite (dot_ext HK nd (vds D (stretch D l x) i) (vds D' x i) (vu D (stretch D l y) i) (vu D' y i)) by (intros; first [apply U0; assumption|apply S1; assumption]).
    rewrite (dot_ext HK nr (vt D (stretch D l x) i) (vt D' x i) (vdm D (stretch D l y) i) (vdm D' y i)) by (intros; first [apply T0; assumption|apply M1; assumption]).
    rewrite (dot_ext HK nr (vdm D (stretch D l x) i) (vdm D' x i) (vt D (stretch D l y) i) (vt D' y i)) by (intros; first [apply T0; assumption|apply M1; assumption]).
    rewrite (contract_ext HK nd nd (spin nd (vt D (stretch D l x) i)) (spin nd (vt D' x i)) (vs D (stretch D l y) i) (vs D' y i)).
    2:{ intros. apply spin_ext; try assumption. intros. apply T0. assumption. }
    2:{ intros. apply S0. assumption. }
    rewrite (contract_ext HK nd nd (vs D (stretch D l x) i) (vs D' x i) (spin nd (vt D (stretch D l y) i)) (spin nd (vt D' y i))).
    2:{ intros. apply S0. assumption. }
    2:{ intros. apply spin_ext; try assumption. intros. apply T0. assumption. }
    reflexivity.
  Qed.

  (** *** The compliance inverts the stiffness *)
  Lemma compliance_inverse : forall n lambda mu kappa (E T : nat -> nat -> F), mu <> k0 -> kappa <> k0 -> (k1 + k1) * mu + of_nat n * lambda <> k0 ->
    compliance n lambda mu kappa (stiffness n lambda mu kappa E) T = contract n n E T.
  Proof.
    intros n lambda mu kappa E T H1 H2 H3.
    assert (TR : trace_of n (stiffness n lambda mu kappa E) = ((k1 + k1) * mu + of_nat n * lambda) * trace_of n E).
    { unfold trace_of, of_nat at 1. rewrite !(Sum_ksum HF).
      rewrite (ksum_ext n _ (fun c => (k1 + k1) * mu * E c c + lambda * ksum n (fun c => E c c))).
      - rewrite (ksum_add HF), (ksum_mul_l HF). rewrite (ksum_ext n (fun _ => lambda * ksum n (fun c => E c c)) (fun _ => k1 * (lambda * ksum n (fun c => E c c)))) by (intros; ring).
        rewrite (ksum_mul_r HF). ring.
      - intros c Hc. unfold stiffness. rewrite Nat.eqb_refl. unfold sym_part, skew_part, trace_of. rewrite (Sum_ksum HF). field. exact two. }
    unfold compliance. rewrite TR. set (tr := trace_of n E) in *.
    rewrite (contract_ext HK n n (sym_part (stiffness n lambda mu kappa E)) (fun c e => (k1 + k1) * mu * sym_part E c e + (if c =? e then lambda * tr else k0)) (sym_part T) (sym_part T)).
    3:{ reflexivity. }
    2:{ intros c e Hc He. unfold sym_part at 1. unfold stiffness. rewrite (Nat.eqb_sym e c). fold tr. unfold sym_part, skew_part. destruct (c =? e); field; exact two. }
    rewrite (contract_ext HK n n (skew_part (stiffness n lambda mu kappa E)) (fun c e => (k1 + k1) * kappa * skew_part E c e) (skew_part T) (skew_part T)).
    3:{ reflexivity. }
    2:{ intros c e Hc He. unfold skew_part at 1. unfold stiffness. rewrite (Nat.eqb_sym e c). fold tr. unfold sym_part, skew_part. destruct (c =? e); field; exact two. }
    rewrite (contract_add_l HK), !(contract_mul_l HK), (contract_diag HK).
    replace (trace_of n (sym_part T)) with (trace_of n T).
    2:{ unfold trace_of. apply (Sum_ext HF). intros. unfold sym_part. field. exact two. }
    transitivity (contract n n (sym_part E) (sym_part T) + contract n n (skew_part E) (skew_part T)).
    - field. repeat split; first [exact two|exact H1|exact H2|exact H3|idtac].
    - rewrite (sym_sym HK two), (skew_skew HK two). unfold khalf, kdiv, k2. field. exact two.
  Qed.
End Props.
