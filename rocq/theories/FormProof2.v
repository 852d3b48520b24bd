(** * L2 projection: the system of all fields *)
From Coq Require Import String List Arith Bool Lia Ring Field.
From Verif Require Import Base BaseProof FormModel FormSpec FormProof.
Import ListNotations.
Open Scope list_scope.

Lemma Forall2_nth_fst {A B} (R : A -> B -> Prop) l l' : Forall2 R l l' -> forall k a, nth_error l k = Some a ->
  exists b, nth_error l' k = Some b /\ R a b.
Proof.
  intros H. induction H; intros [|k] a Hk; try discriminate; simpl in *.
  - injection Hk as <-. eexists; split; [reflexivity|assumption].
  - exact (IHForall2 _ _ Hk).
Qed.

Section L2All.
  Context {F : scalar} (HF : is_ring F).
  Let HR : ring_theory (@k0 F) k1 kadd kmul ksub kopp eq := HF.
  Add Ring Kring4 : HR.

  Definition part : Type := nat * (nat -> F) * (nat -> nat -> F).
  Definition p_size (p : part) : nat := fst (fst p).
  Definition p_r (p : part) : nat -> F := snd (fst p).
  Definition p_j (p : part) : nat -> nat -> F := snd p.

  (** the final loop, l2_projector_weak_form.py:84-91 *)
  Definition join_step (rj : (nat -> F) * (nat -> nat -> F)) (bp : nat * part) : (nat -> F) * (nat -> nat -> F) :=
    let '(b, (n, r, j)) := bp in
    (add_slice b (b + n) 1 r (fst rj), add_block b (b + n) 1 b (b + n) 1 j (snd rj)).
  Definition with_strides (b : nat) (ps : list part) : list (nat * part) :=
    combine (removelast (b :: accumulate_from b (map p_size ps))) ps.

  Lemma with_strides_cons : forall b p ps, with_strides b (p :: ps) = (b, p) :: with_strides (b + p_size p) ps.
  Proof. intros. unfold with_strides. simpl. reflexivity. Qed.

  Lemma accumulate_last : forall l b, last (b :: accumulate_from b l) 0%nat = (b + list_sum l)%nat.
  Proof.
    induction l; intros b.
    - simpl. lia.
    - simpl accumulate_from. change (last (b :: (b + a)%nat :: accumulate_from (b + a) l) 0%nat) with (last ((b + a)%nat :: accumulate_from (b + a) l) 0%nat).
      rewrite IHl. simpl. lia.
  Qed.

  Lemma join_low : forall ps b rj, let out := fold_left join_step (with_strides b ps) rj in
    (forall a, a < b -> fst out a = fst rj a) /\
    (forall a a', a < b \/ a' < b -> snd out a a' = snd rj a a').
  Proof.
    induction ps as [|[[n r] j] ps IH]; intros b rj out; subst out.
    - split; reflexivity.
    - rewrite with_strides_cons. simpl fold_left. unfold p_size; simpl.
      destruct (IH (b + n) (add_slice b (b + n) 1 r (fst rj), add_block b (b + n) 1 b (b + n) 1 j (snd rj))) as [A B].
      split.
      + intros a Ha. rewrite A by lia. simpl. unfold add_slice. rewrite in_slice_unit.
        replace (b <=? a) with false by (symmetry; apply Nat.leb_gt; lia). reflexivity.
      + intros a a' Ha. rewrite B by lia. simpl. unfold add_block. rewrite !in_slice_unit.
        destruct Ha.
        * replace (b <=? a) with false by (symmetry; apply Nat.leb_gt; lia). reflexivity.
        * replace (b <=? a') with false by (symmetry; apply Nat.leb_gt; lia). simpl.
          destruct ((b <=? a) && (a <? b + n)); reflexivity.
  Qed.

  Definition p_off (ps : list part) (p : nat) : nat := list_sum (map p_size (firstn p ps)).

  Lemma slice_in : forall b n x, x < n -> in_slice b (b + n) 1 (b + x) = Some x.
  Proof.
    intros. rewrite in_slice_unit. replace (b <=? b + x) with true by (symmetry; apply Nat.leb_le; lia).
    replace (b + x <? b + n) with true by (symmetry; apply Nat.ltb_lt; lia). simpl. f_equal. lia.
  Qed.
  Lemma slice_out : forall b n a, b + n <= a -> in_slice b (b + n) 1 a = None.
  Proof.
    intros. rewrite in_slice_unit. replace (a <? b + n) with false by (symmetry; apply Nat.ltb_ge; lia).
    rewrite andb_false_r. reflexivity.
  Qed.

  Lemma join_ok : forall ps b rj, let out := fold_left join_step (with_strides b ps) rj in
    forall p q x, nth_error ps p = Some q -> x < p_size q ->
      fst out (b + p_off ps p + x)%nat = (fst rj (b + p_off ps p + x)%nat + p_r q x)%num /\
      forall p' q' x', nth_error ps p' = Some q' -> x' < p_size q' ->
        snd out (b + p_off ps p + x)%nat (b + p_off ps p' + x')%nat =
        if p =? p' then (snd rj (b + p_off ps p + x)%nat (b + p_off ps p' + x')%nat + p_j q x x')%num
        else snd rj (b + p_off ps p + x)%nat (b + p_off ps p' + x')%nat.
  Proof.
    induction ps as [|q0 ps IH]; intros b rj out p q x Hp Hx; [destruct p; discriminate|]. subst out.
    rewrite with_strides_cons. cbn [fold_left].
    assert (O0 : p_off (q0 :: ps) 0 = 0%nat) by reflexivity.
    assert (OS : forall m, p_off (q0 :: ps) (S m) = (p_size q0 + p_off ps m)%nat) by reflexivity.
    revert O0 OS Hp. generalize (p_off (q0 :: ps)) as off. intros off O0 OS Hp. destruct q0 as [[n r] j]. unfold p_size at 1 3. unfold p_size in OS at 1. cbn [fst] in *.
    pose proof (join_low ps (b + n) (join_step rj (b, (n, r, j)))) as [L1 L2].
    pose proof (IH (b + n) (join_step rj (b, (n, r, j)))) as IH'. clear IH.
    destruct p as [|p].
    - simpl in Hp. injection Hp as <-. unfold p_size in Hx; simpl in Hx. rewrite O0, Nat.add_0_r. split.
      + rewrite L1 by lia. simpl. unfold add_slice. rewrite slice_in by assumption. reflexivity.
      + intros [|p'] q' x' Hp' Hx'.
        * simpl in Hp'. injection Hp' as <-. unfold p_size in Hx'; simpl in Hx'. rewrite O0, Nat.add_0_r. cbn [Nat.eqb].
          rewrite L2 by lia. simpl. unfold add_block. rewrite !slice_in by assumption. reflexivity.
        * rewrite OS. cbn [Nat.eqb]. rewrite L2 by lia. simpl. unfold add_block. rewrite slice_in by assumption.
          rewrite slice_out by lia. reflexivity.
    - simpl in Hp. rewrite OS.
      destruct (IH' p q x Hp Hx) as [I1 I2]. rewrite <- !Nat.add_assoc in *. split.
      + etransitivity; [exact I1|]. simpl. unfold add_slice. rewrite slice_out by lia. reflexivity.
      + intros [|p'] q' x' Hp' Hx'.
        * simpl in Hp'. injection Hp' as <-. unfold p_size in Hx'; simpl in Hx'. rewrite O0. cbn [Nat.eqb Nat.add].
          rewrite L2 by lia. simpl. unfold add_block. rewrite slice_out by lia. reflexivity.
        * rewrite OS. cbn [Nat.eqb]. replace (b + (n + p_off ps p') + x') with (b + n + p_off ps p' + x') by lia. etransitivity; [exact (I2 p' q' x' Hp' Hx')|]. simpl. unfold add_block.
          rewrite !slice_out by lia. reflexivity.
  Qed.

  (** ** What each field contributes *)
  Definition part_of (d : l2_data F) (q : part) : Prop :=
    p_size q = d_size d /\
    (forall k c, k < d_phi d -> c < d_comp d -> p_r q (k * d_comp d + c)%nat = (- l2_load d c k)%num) /\
    (forall k c l c', k < d_phi d -> c < d_comp d -> l < d_phi d -> c' < d_comp d ->
       p_j q (k * d_comp d + c)%nat (l * d_comp d + c')%nat = if c =? c' then l2_mass d k l else k0).

  Lemma residual_needs : forall f e (w : list F) fv r, l2_residual f e w fv = Ok r -> fe_comp f <= length fv.
  Proof.
    intros f e w fv r. unfold l2_residual.
    match goal with |- foldM ?g _ _ = _ -> _ => assert (G : forall len s r0, foldM g (seq s len) r0 = Ok r -> s <= length fv -> s + len <= length fv) end.
    { induction len; intros s r0 H Hs; [lia|]. simpl in H. apply bind_Ok in H. destruct H as (r1 & H1 & H2).
      apply bind_Ok in H1. destruct H1 as (fc & H1 & _). unfold get_at in H1.
      destruct (nth_error fv s) eqn:E; [|discriminate]. assert (s < length fv) by (apply nth_error_Some; congruence).
      apply IHlen in H2; lia. }
    intros H. apply G in H; lia.
  Qed.

  Lemma l2_fields_reads : forall (sp : fe_space F) (fn : dict string (values F)) iel parts, l2_fields sp fn iel = Ok parts ->
    exists ds, Forall2 (reads sp fn iel) (fs_fields sp) ds.
  Proof.
    intros sp fn iel parts. unfold l2_fields. generalize (fs_fields sp) as fs. intros fs; revert parts.
    induction fs as [|[nm f] fs IH]; intros parts H.
    - exists []. constructor.
    - simpl in H. apply bind_Ok in H. destruct H as (q & H1 & H2). apply bind_Ok in H2. destruct H2 as (qs & H2 & _).
      destruct (IH _ H2) as (ds & D).
      apply bind_Ok in H1. destruct H1 as (fv & V & H1). apply bind_Ok in H1. destruct H1 as (e & E & H1).
      apply bind_Ok in H1. destruct H1 as (w & W & H1). apply bind_Ok in H1. destruct H1 as (r & R & _).
      exists (mk_l2 f e w fv :: ds). constructor; [|exact D].
      unfold reads; simpl. split; [reflexivity|]. split.
      { unfold dindex in V. simpl in V. destruct (dget fn nm); [injection V as ->; reflexivity|discriminate]. }
      split. { unfold get_at in E. simpl in E. destruct (nth_error (fe_elements f) iel); [injection E as ->; reflexivity|discriminate]. }
      split. { unfold quadrature_of, get_at in W. destruct (nth_error (fs_quadrature sp) (e_dim e)) as [[w'|]|]; simpl in W; try discriminate.
               injection W as ->; reflexivity. }
      exact (residual_needs _ _ _ _ _ R).
  Qed.

  Lemma l2_fields_ok : forall (sp : fe_space F) (fn : dict string (values F)) iel ds, Forall2 (reads sp fn iel) (fs_fields sp) ds ->
    exists parts, l2_fields sp fn iel = Ok parts /\ Forall2 part_of ds parts.
  Proof.
    intros sp fn iel ds. unfold l2_fields. generalize (fs_fields sp) as fs. intros fs H. induction H as [|[nm f] d fs ds Hd H IH].
    - exists []. split; [reflexivity|constructor].
    - destruct IH as (parts & P1 & P2). destruct Hd as (A & B & C & D & E). simpl in *.
      destruct (l2_residual_ok HF f (d_elem d) (d_w d) (d_fun d) E) as (r & R & RV).
      match type of P1 with mapM ?g _ = _ =>
        assert (G : g (nm, f) = Ok ((t_nphi (e_tab (d_elem d)) * fe_comp f)%nat, r, l2_matrix f (d_elem d) (d_w d))) end.
      { unfold dindex. simpl. rewrite B. simpl. unfold get_at. rewrite C. simpl. unfold quadrature_of, get_at. rewrite D. simpl.
        rewrite R. reflexivity. }
      simpl mapM. simpl in G. rewrite G. cbn [bind]. simpl in P1. rewrite P1. simpl. eexists. split; [reflexivity|]. constructor; [|exact P2].
      unfold part_of, p_size, p_r, p_j, d_size, d_comp, d_phi. rewrite A. simpl. split; [reflexivity|]. split.
      + intros k c Hk Hc. rewrite RV by assumption. unfold l2_load, field_load, d_dirs, d_rhs, d_val. rewrite A. reflexivity.
      + intros k c l c' Hk Hc Hl Hc'. rewrite (l2_matrix_ok HF) by assumption.
        unfold l2_mass, field_mass, d_dirs, d_val. rewrite A. reflexivity.
  Qed.

  Lemma part_off : forall ds parts p, Forall2 part_of ds parts -> p_off parts p = list_sum (map d_size (firstn p ds)).
  Proof.
    intros ds parts p H. revert p. induction H as [|d q ds ps Hd H IH]; intros [|p]; try reflexivity.
    unfold p_off in *. simpl. rewrite IH. destruct Hd as (-> & _). reflexivity.
  Qed.
  Lemma part_total : forall ds parts, Forall2 part_of ds parts -> list_sum (map p_size parts) = list_sum (map d_size ds).
  Proof. intros ds parts H. induction H as [|d q ds ps Hd H IH]; [reflexivity|]. simpl. rewrite IH. destruct Hd as (-> & _). reflexivity. Qed.
  Lemma d_index_lt : forall d k c, k < d_phi d -> c < @d_comp F d -> k * d_comp d + c < d_size d.
  Proof. intros. unfold d_size. nia. Qed.

  Theorem l2_system : forall (sp : fe_space F) (fn : dict string (values F)) iel alpha ds, Forall2 (reads sp fn iel) (fs_fields sp) ds ->
    exists L, l2_form (Some sp) (Some fn) iel alpha = Ok L /\
      l_n L = list_sum (map d_size ds) /\
      forall p d k c, nth_error ds p = Some d -> k < d_phi d -> c < d_comp d ->
        l2_dof ds p k c < l_n L /\
        l_r L (l2_dof ds p k c) = (- l2_load d c k)%num /\
        forall p' d' l c', nth_error ds p' = Some d' -> l < d_phi d' -> c' < d_comp d' ->
          l_j L (l2_dof ds p k c) (l2_dof ds p' l c') =
          if (p =? p') && (c =? c') then l2_mass d k l else k0.
  Proof.
    intros sp fn iel alpha ds H. destruct (l2_fields_ok _ _ _ _ H) as (parts & P1 & P2).
    unfold l2_form. rewrite P1. simpl bind. eexists. split; [reflexivity|]. cbn [l_n l_r l_j].
    assert (N : last (accumulate (0%nat :: map (fun p : nat * (nat -> F) * (nat -> nat -> F) => fst (fst p)) parts)) 0%nat = list_sum (map d_size ds)).
    { unfold accumulate. simpl accumulate_from. rewrite (accumulate_last (map (fun p : nat * (nat -> F) * (nat -> nat -> F) => fst (fst p)) parts) 0).
      simpl. exact (part_total _ _ P2). }
    split; [exact N|].
    intros p d k c Hp Hk Hc.
    destruct (Forall2_nth_fst _ _ _ P2 p d Hp) as (q & Hq & Q). 
    pose proof (join_ok parts 0 ((fun _ => k0), (fun _ _ => k0))) as J.
    specialize (J p q (k * d_comp d + c)%nat Hq). destruct Q as (Q1 & Q2 & Q3). rewrite Q1 in J.
    specialize (J (d_index_lt d k c Hk Hc)). destruct J as [J1 J2].
    assert (D : l2_dof ds p k c = (0 + p_off parts p + (k * d_comp d + c))%nat).
    { unfold l2_dof. rewrite Hp. rewrite (part_off _ _ _ P2). lia. }
    split.
    { eapply Nat.lt_le_trans; [|apply Nat.eq_le_incl; symmetry; exact N]. unfold l2_dof. rewrite Hp.
      pose proof (d_index_lt d k c Hk Hc).
      assert (list_sum (map d_size (firstn p ds)) + d_size d <= list_sum (map d_size ds)).
      { clear - Hp. revert p Hp. induction ds as [|d0 ds IH]; intros [|p] Hp; try discriminate; simpl in *.
        - injection Hp as ->. lia.
        - specialize (IH p Hp). lia. }
      lia. }
    split.
    - rewrite D. etransitivity; [exact J1|]. rewrite Q2 by assumption. simpl. ring.
    - intros p' d' l c' Hp' Hl Hc'.
      destruct (Forall2_nth_fst _ _ _ P2 p' d' Hp') as (q' & Hq' & (R1 & R2 & R3)).
      specialize (J2 p' q' (l * d_comp d' + c')%nat Hq'). rewrite R1 in J2. specialize (J2 (d_index_lt d' l c' Hl Hc')).
      assert (D' : l2_dof ds p' l c' = (0 + p_off parts p' + (l * d_comp d' + c'))%nat).
      { unfold l2_dof. rewrite Hp'. rewrite (part_off _ _ _ P2). lia. }
      rewrite D, D'. etransitivity; [exact J2|]. destruct (Nat.eqb_spec p p') as [<-|N']; [|reflexivity].
      assert (d' = d) by congruence. subst d'. assert (q' = q) by congruence. subst q'. rewrite Q3 by assumption. simpl.
      destruct (c =? c'); [ring|ring].
  Qed.

  (** every local number belongs to one DoF *)
  Lemma l2_dof_onto : forall ds a, a < list_sum (map (@d_size F) ds) ->
    exists p d k c, nth_error ds p = Some d /\ k < d_phi d /\ c < d_comp d /\ a = l2_dof ds p k c.
  Proof.
    induction ds as [|d0 ds IH]; intros a Ha; simpl in Ha; [lia|].
    destruct (Nat.lt_ge_cases a (d_size d0)) as [H|H].
    - exists 0%nat, d0, (a / d_comp d0)%nat, (a mod d_comp d0)%nat. unfold d_size in H.
      assert (d_comp d0 <> 0%nat) by nia.
      split; [reflexivity|]. split; [apply Nat.div_lt_upper_bound; lia|]. split; [apply Nat.mod_upper_bound; assumption|].
      unfold l2_dof. simpl. rewrite (Nat.div_mod a (d_comp d0)) at 1 by assumption. lia.
    - destruct (IH (a - d_size d0)) as (p & d & k & c & H1 & H2 & H3 & H4); [lia|].
      exists (S p), d, k, c. split; [exact H1|]. split; [exact H2|]. split; [exact H3|].
      unfold l2_dof in *. simpl. rewrite H1 in *. lia.
  Qed.

  Theorem l2_succeeds : forall (sp : fe_space F) (fn : dict string (values F)) iel alpha,
    (exists L, l2_form (Some sp) (Some fn) iel alpha = Ok L) <-> (exists ds, Forall2 (reads sp fn iel) (fs_fields sp) ds).
  Proof.
    intros. split.
    - intros (L & H). simpl in H. apply bind_Ok in H. destruct H as (parts & H & _). exact (l2_fields_reads _ _ _ _ H).
    - intros (ds & H). destruct (l2_system _ _ _ alpha _ H) as (L & H' & _). exists L. exact H'.
  Qed.

  (** ** Sums over all DoFs *)
  Lemma ksum_shift : forall n (f : nat -> F), ksum (S n) f = (f 0%nat + ksum n (fun i => f (S i)))%num.
  Proof. induction n; intros; [simpl; ring|]. change (ksum (S (S n)) f) with (ksum (S n) f + f (S n))%num. rewrite IHn. simpl. ring. Qed.

  Lemma sum_dofs : forall ds (f : nat -> F),
    ksum (list_sum (map (@d_size F) ds)) f =
    ksum (length ds) (fun p => match nth_error ds p with
      | Some d => ksum (d_phi d) (fun k => ksum (d_comp d) (fun c => f (l2_dof ds p k c))) | None => k0 end).
  Proof.
    induction ds as [|d ds IH]; intros f; [reflexivity|].
    simpl list_sum. rewrite (ksum_app HF). simpl length. rewrite ksum_shift. f_equal.
    - unfold d_size. rewrite (ksum_grid HF). reflexivity.
    - rewrite IH. apply ksum_ext. intros p Hp. simpl nth_error.
      destruct (nth_error ds p) as [d'|] eqn:E; [|reflexivity].
      apply ksum_ext. intros k Hk. apply ksum_ext. intros c Hc. f_equal. unfold l2_dof. simpl. rewrite E. lia.
  Qed.

  Definition entries (ds : list (l2_data F)) (L : local_system F) : Prop :=
    l_n L = list_sum (map d_size ds) /\
    forall p d k c, nth_error ds p = Some d -> k < d_phi d -> c < d_comp d ->
      l_r L (l2_dof ds p k c) = (- l2_load d c k)%num /\
      forall p' d' l c', nth_error ds p' = Some d' -> l < d_phi d' -> c' < d_comp d' ->
        l_j L (l2_dof ds p k c) (l2_dof ds p' l c') = if (p =? p') && (c =? c') then l2_mass d k l else k0.

  Lemma row : forall ds L x p d k c, entries ds L -> nth_error ds p = Some d -> k < d_phi d -> c < d_comp d ->
    Sum (l_n L) (fun b => (l_j L (l2_dof ds p k c) b * x b)%num) =
    integral (d_elem d) (d_w d) (fun i => Sum (d_dirs d) (fun dir => (l2_state ds p d x c dir i * d_val d i k dir)%num)).
  Proof.
    intros ds L x p d k c [N E] Hp Hk Hc. rewrite (Sum_ksum HF), N, sum_dofs.
    assert (Hl : p < length ds) by (apply nth_error_Some; congruence).
    destruct (E p d k c Hp Hk Hc) as [_ J].
    rewrite (ksum_single HF _ p) ; [|exact Hl|].
    2:{ intros p' Hp' Hn. destruct (nth_error ds p') as [d'|] eqn:E'; [|reflexivity].
        apply (ksum_zero HF). intros l Hl'. apply (ksum_zero HF). intros c' Hc'. rewrite (J p' d' l c' E' Hl' Hc').
        replace (p =? p') with false by (symmetry; apply Nat.eqb_neq; congruence). simpl. ring. }
    rewrite Hp. rewrite (ksum_ext _ _ (fun l => (l2_mass d k l * x (l2_dof ds p l c))%num)).
    2:{ intros l Hl'. rewrite (ksum_single HF _ c); [|exact Hc|].
        - rewrite (J p d l c Hp Hl' Hc), !Nat.eqb_refl. reflexivity.
        - intros c' Hc' Hn. rewrite (J p d l c' Hp Hl' Hc'). replace (c =? c') with false by (symmetry; apply Nat.eqb_neq; congruence).
          rewrite andb_false_r. ring. }
    unfold l2_mass, integral, l2_state. rewrite (Sum_ksum HF).
    rewrite (ksum_ext _ _ (fun l => ksum (length (d_w d)) (fun i => (nth i (d_w d) k0 * e_det (d_elem d) i *
       Sum (d_dirs d) (fun dir => d_val d i k dir * d_val d i l dir) * x (l2_dof ds p l c))%num))).
    2:{ intros l Hl'. rewrite (Sum_ksum HF), (ksum_mul_r HF). reflexivity. }
    rewrite (ksum_swap HF). apply ksum_ext. intros i Hi.
    rewrite (Sum_ksum HF).
    rewrite (ksum_ext (d_dirs d) _ (fun dir => ksum (d_phi d) (fun l => (x (l2_dof ds p l c) * d_val d i l dir * d_val d i k dir)%num))).
    2:{ intros dir Hd. rewrite (Sum_ksum HF), (ksum_mul_r HF). reflexivity. }
    rewrite (ksum_swap HF). rewrite <- (ksum_mul_l HF). apply ksum_ext. intros l Hl'.
    rewrite (Sum_ksum HF). rewrite <- !(ksum_mul_l HF), <- (ksum_mul_r HF). apply ksum_ext. intros dir Hd. ring.
  Qed.

  Lemma l2_symmetric : forall ds L a b, entries ds L -> a < l_n L -> b < l_n L -> l_j L a b = l_j L b a.
  Proof.
    intros ds L a b [N E] Ha Hb. rewrite N in *.
    destruct (l2_dof_onto ds a Ha) as (p & d & k & c & P1 & P2 & P3 & ->).
    destruct (l2_dof_onto ds b Hb) as (p' & d' & k' & c' & Q1 & Q2 & Q3 & ->).
    destruct (E _ _ _ _ P1 P2 P3) as [_ J1]. destruct (E _ _ _ _ Q1 Q2 Q3) as [_ J2].
    rewrite (J1 _ _ _ _ Q1 Q2 Q3), (J2 _ _ _ _ P1 P2 P3), (Nat.eqb_sym p' p), (Nat.eqb_sym c' c).
    destruct (Nat.eqb_spec p p') as [<-|]; [|reflexivity]. assert (d' = d) by congruence. subst d'.
    destruct (c =? c'); [|reflexivity]. simpl. unfold l2_mass, integral. rewrite !(Sum_ksum HF). apply ksum_ext. intros i Hi. f_equal.
    rewrite !(Sum_ksum HF). apply ksum_ext. intros. ring.
  Qed.

  Lemma l2_reproduces : forall ds L x, entries ds L ->
    (forall p d c dir i, nth_error ds p = Some d -> c < d_comp d -> dir < d_dirs d -> i < length (d_w d) ->
       d_rhs d c dir i = l2_state ds p d x c dir i) ->
    forall a, a < l_n L -> (l_r L a + Sum (l_n L) (fun b => l_j L a b * x b))%num = k0.
  Proof.
    intros ds L x HE H a Ha. pose proof HE as [N E]. rewrite N in Ha.
    destruct (l2_dof_onto ds a Ha) as (p & d & k & c & P1 & P2 & P3 & ->).
    rewrite (row ds L x p d k c HE P1 P2 P3). destruct (E _ _ _ _ P1 P2 P3) as [-> _].
    match goal with |- (- ?u + ?v)%num = _ => assert (A : u = v) end.
    { unfold l2_load, integral. rewrite !(Sum_ksum HF). apply ksum_ext. intros i Hi. f_equal.
      rewrite !(Sum_ksum HF). apply ksum_ext. intros dir Hd. rewrite (H p d c dir i) by assumption. reflexivity. }
    rewrite A. ring.
  Qed.

  Lemma l2_energy : forall ds L x, entries ds L ->
    Sum (l_n L) (fun a => (x a * Sum (l_n L) (fun b => l_j L a b * x b))%num) =
    Sum (length ds) (fun p => match nth_error ds p with
      | Some d => Sum (d_comp d) (fun c => integral (d_elem d) (d_w d) (fun i =>
          Sum (d_dirs d) (fun dir => (l2_state ds p d x c dir i * l2_state ds p d x c dir i)%num)))
      | None => k0 end).
  Proof.
    intros ds L x HE. pose proof HE as [N E]. rewrite !(Sum_ksum HF). rewrite N at 1. rewrite sum_dofs.
    apply ksum_ext. intros p Hp. destruct (nth_error ds p) as [d|] eqn:P; [|reflexivity].
    rewrite (ksum_swap HF), (Sum_ksum HF). apply ksum_ext. intros c Hc.
    rewrite (ksum_ext _ _ (fun k => ksum (length (d_w d)) (fun i => (x (l2_dof ds p k c) * (nth i (d_w d) k0 * e_det (d_elem d) i *
       Sum (d_dirs d) (fun dir => l2_state ds p d x c dir i * d_val d i k dir)))%num))).
    2:{ intros k Hk. rewrite (row ds L x p d k c HE P Hk Hc). unfold integral. rewrite (Sum_ksum HF), (ksum_mul_l HF). reflexivity. }
    rewrite (ksum_swap HF). unfold integral. rewrite (Sum_ksum HF). apply ksum_ext. intros i Hi.
    rewrite (ksum_ext _ _ (fun k => (nth i (d_w d) k0 * e_det (d_elem d) i *
       ksum (d_dirs d) (fun dir => x (l2_dof ds p k c) * (l2_state ds p d x c dir i * d_val d i k dir)))%num)).
    2:{ intros k Hk. rewrite (ksum_mul_l HF), (Sum_ksum HF). ring. }
    rewrite (ksum_mul_l HF). f_equal. rewrite (ksum_swap HF), (Sum_ksum HF). apply ksum_ext. intros dir Hd.
    unfold l2_state at 3. rewrite (Sum_ksum HF). rewrite <- (ksum_mul_l HF). apply ksum_ext. intros. ring.
  Qed.
End L2All.

Section L2Form.
  Context {F : scalar} (HF : is_ring F).
  Lemma l2_form_entries : forall (sp : fe_space F) fn iel alpha ds L, Forall2 (reads sp fn iel) (fs_fields sp) ds ->
    l2_form (Some sp) (Some fn) iel alpha = Ok L -> entries ds L.
  Proof.
    intros sp fn iel alpha ds L H E. destruct (l2_system HF sp fn iel alpha ds H) as (L' & E' & N & J).
    assert (L' = L) by congruence. subst L'. split; [exact N|]. intros p d k c A B C. destruct (J p d k c A B C) as (_ & U & V).
    split; assumption.
  Qed.
  Lemma l2_form_symmetric : forall (sp : fe_space F) fn iel alpha L, l2_form (Some sp) (Some fn) iel alpha = Ok L ->
    forall a b, a < l_n L -> b < l_n L -> l_j L a b = l_j L b a.
  Proof.
    intros sp fn iel alpha L E a b. pose proof (proj1 (l2_succeeds HF sp fn iel alpha) (ex_intro _ L E)) as (ds & H).
    apply (l2_symmetric HF ds). exact (l2_form_entries _ _ _ _ _ _ H E).
  Qed.
  Lemma l2_form_norm : forall (sp : fe_space F) fn iel alpha ds L x, Forall2 (reads sp fn iel) (fs_fields sp) ds ->
    l2_form (Some sp) (Some fn) iel alpha = Ok L ->
    Sum (l_n L) (fun a => kmul (x a) (Sum (l_n L) (fun b => kmul (l_j L a b) (x b)))) =
    Sum (length ds) (fun p => match nth_error ds p with
      | Some d => Sum (d_comp d) (fun c => integral (d_elem d) (d_w d) (fun i =>
          Sum (d_dirs d) (fun dir => kmul (l2_state ds p d x c dir i) (l2_state ds p d x c dir i))))
      | None => k0 end).
  Proof. intros sp fn iel alpha ds L x H E. apply (l2_energy HF). exact (l2_form_entries _ _ _ _ _ _ H E). Qed.
  Lemma l2_form_reproduces : forall (sp : fe_space F) fn iel alpha ds L x, Forall2 (reads sp fn iel) (fs_fields sp) ds ->
    l2_form (Some sp) (Some fn) iel alpha = Ok L ->
    (forall p d c dir i, nth_error ds p = Some d -> c < d_comp d -> dir < d_dirs d -> i < length (d_w d) ->
       d_rhs d c dir i = l2_state ds p d x c dir i) ->
    forall a, a < l_n L -> kadd (l_r L a) (Sum (l_n L) (fun b => kmul (l_j L a b) (x b))) = k0.
  Proof. intros sp fn iel alpha ds L x H E. apply (l2_reproduces HF). exact (l2_form_entries _ _ _ _ _ _ H E). Qed.
End L2Form.
