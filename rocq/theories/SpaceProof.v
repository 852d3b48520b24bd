(** * Lemmas: discrete and product spaces, C19-C23 *)
From Coq Require Import List Arith ZArith Bool Lia.
From Verif Require Import Base BaseProof MeshModel MeshSpec MeshProof1 GraphModel GraphProof
  DofModel DofSpec DofProof1 DofProof2 SpaceModel SpaceSpec.
Import ListNotations.

(** ** id dictionaries *)
Lemma keys_combine {A B} (l : list A) (l' : list B) : length l = length l' -> map fst (combine l l') = l.
Proof. revert l'; induction l; destruct l'; simpl; intros; try discriminate; auto. rewrite IHl; auto. Qed.
Lemma vals_combine {A B} (l : list A) (l' : list B) : length l = length l' -> map snd (combine l l') = l'.
Proof. revert l'; induction l; destruct l'; simpl; intros; try discriminate; auto. rewrite IHl; auto. Qed.
Lemma In_combine_seq {A} (l : list A) s x k :
  In (x, k) (combine l (seq s (length l))) <-> s <= k /\ nth_error l (k - s) = Some x.
Proof.
  revert s; induction l as [|a l IH]; intros s; simpl.
  - split; [tauto|]. intros [_ E]. destruct (k - s); discriminate.
  - rewrite IH. split.
    + intros [E|[H1 H2]].
      * inversion E; subst. rewrite Nat.sub_diag. auto.
      * split; [lia|]. replace (k - s) with (S (k - S s)) by lia. auto.
    + intros [H1 H2]. destruct (Nat.eq_dec k s) as [->|N].
      * rewrite Nat.sub_diag in H2. inversion H2; auto.
      * right. split; [lia|]. replace (k - s) with (S (k - S s)) in H2 by lia. auto.
Qed.
Lemma id_dict_spec (ids : list nat) x k : NoDup ids ->
  dget (dict_of (combine ids (seq 0 (length ids)))) x = Some k <-> nth_error ids k = Some x.
Proof.
  intros ND. assert (K : map fst (combine ids (seq 0 (length ids))) = ids)
    by (apply keys_combine; rewrite seq_length; auto).
  rewrite dict_of_id by (unfold dkeys; rewrite K; auto).
  rewrite dget_NoDup by (unfold dkeys; rewrite K; auto). rewrite In_combine_seq.
  rewrite Nat.sub_0_r. split; [tauto|]. split; [lia|auto].
Qed.

Lemma filterM_Ok {A} (p : A -> res bool) (f : A -> bool) l :
  (forall x, In x l -> p x = Ok (f x)) -> filterM p l = Ok (filter f l).
Proof.
  induction l; simpl; intros H; auto. rewrite H by auto. cbn [bind]. rewrite IHl by auto. reflexivity.
Qed.

Lemma mapM_cell_of cs l : (forall j, In j l -> exists c, cell_at cs j c) ->
  exists els, mapM (cell_of cs) l = Ok els /\ length els = length l /\
    forall k c, nth_error els k = Some c <-> exists j, nth_error l k = Some j /\ cell_at cs j c.
Proof.
  induction l as [|j l IH]; intros H.
  - exists []. repeat split; auto; simpl.
    + destruct k; discriminate.
    + intros (j & E & _). destruct k; discriminate.
  - destruct (H j) as (c & Hc); [left; auto|]. destruct IH as (els & E & L & N); [intros; apply H; right; auto|].
    exists (c :: els). simpl. rewrite (proj2 (cell_of_at cs j c) Hc). cbn [bind]. rewrite E.
    split; [reflexivity|]. split; [simpl; auto|]. intros [|k] c'; simpl.
    + split.
      * intros Q; inversion Q; subst. eauto.
      * intros (j' & Q & Hj'). inversion Q; subst. unfold cell_at in *. congruence.
    + apply N.
Qed.

Lemma type_ok d : d <= 3 -> exists t, type_by_dimension (Z.of_nat d) = Ok t.
Proof. intros. destruct d as [|[|[|[|d]]]]; try lia; eexists; reflexivity. Qed.

(** ** one space *)
Record built_space (tags : list (option Z)) (s' : space) (m : dofmap) (t : topology) (dofs : list nat)
    (lay : list (list nat)) (ids : nat -> list nat) : Prop := {
  bs_map : sp_map s' = Some m;
  bs_ok : space_ok (sp_cells s') (sp_dim s') tags dofs (sp_comps s') 0 m t lay ids;
  bs_ids : sp_element_ids s' = ids (sp_dim s');
  bs_topo : forall d, d <= sp_dim s' -> entities_by_dimension t d = Ok (ids d);
  bs_len : length (sp_elements s') = length (ids (sp_dim s'));
  bs_el : forall k c, nth_error (sp_elements s') k = Some c <->
            exists j, nth_error (ids (sp_dim s')) k = Some j /\ cell_at (sp_cells s') j c;
  bs_dict : sp_id_to_element s' = dict_of (combine (sp_element_ids s') (seq 0 (length (sp_element_ids s')))) }.

Definition same_statics (s s' : space) : Prop :=
  sp_cells s' = sp_cells s /\ sp_mesh_dim s' = sp_mesh_dim s /\ sp_dim s' = sp_dim s /\
  sp_comps s' = sp_comps s /\ sp_layout s' = sp_layout s /\ sp_disc s' = sp_disc s.

Lemma build_structures_good fuel s tags : good_field s ->
  exists s' m t dofs lay ids, build_structures (S fuel) s tags = Ok s' /\
    same_statics s s' /\ sp_bc_elements s' = sp_bc_elements s /\ sp_bc_ids s' = sp_bc_ids s /\
    sp_id_to_bc s' = sp_id_to_bc s /\ built_space tags s' m t dofs lay ids.
Proof.
  intros (G & Hm & D3 & dofs & L & U).
  destruct (build_topology_ok fuel (sp_cells s) (sp_mesh_dim s) (sp_dim s) tags (proj1 G) Hm) as (t & Et & TO).
  destruct (C13_success_lemma fuel (sp_cells s) (sp_mesh_dim s) (sp_dim s) tags t _ dofs (sp_comps s) 0%Z G Et D3 L U)
    as (m & Em).
  destruct (ids_choice (sp_cells s) (sp_dim s) tags t (proj1 G) (proj1 (proj2 G)) TO) as (ids & HI).
  assert (NS : space_ok (sp_cells s) (sp_dim s) tags dofs (sp_comps s) 0 m t (sp_layout s (sp_disc s)) ids).
  { destruct (build_maps_ok t (sp_dim s) (sp_comps s) 0%Z (sp_layout s (sp_disc s)) dofs ids)
      as (m' & E & A1 & A2 & A3 & A4 & A5); auto.
    1,2: intros d Hd; apply (HI d Hd).
    1: apply uniform_layout_mean; auto.
    rewrite E in Em; inversion Em; subst m'. constructor; auto.
    - intros d Hd; apply (HI d Hd).
    - intros d j Hd; apply (HI d Hd). }
  destruct (type_ok (sp_dim s) D3) as (ct & Ec).
  destruct (mapM_cell_of (sp_cells s) (ids (sp_dim s))) as (els & Ee & Le & Ne).
  { intros j Hj. apply (HI (sp_dim s) (le_n _)) in Hj as (i & c & (H1 & H2 & H3) & Hin).
    rewrite <- H2 in Hin. rewrite (proj1 (proj2 G) i c H1) in Hin. destruct Hin as [<-|[]]. eauto. }
  eexists; exists m, t, dofs, (sp_layout s (sp_disc s)), ids. split.
  - unfold build_structures. rewrite Et. cbn [bind]. rewrite Ec. cbn [bind]. rewrite Em. cbn [bind].
    rewrite (proj1 (HI (sp_dim s) (le_n _))). cbn [bind]. rewrite Ee. cbn [bind]. reflexivity.
  - split; [repeat split|]. do 3 (split; [reflexivity|]). constructor; simpl; auto.
    intros d Hd. apply (HI d Hd).
Qed.

Lemma built_element tags s' m t dofs lay ids k c :
  built_space tags s' m t dofs lay ids -> nth_error (sp_elements s') k = Some c ->
  space_cell (sp_cells s') (sp_dim s') tags (c_id c) c /\ nth_error (ids (sp_dim s')) k = Some (c_id c).
Proof.
  intros B H. apply (bs_el _ _ _ _ _ _ _ B) in H as (j & Hj & Hc).
  pose proof (bs_ok _ _ _ _ _ _ _ B) as S.
  destruct (so_good _ _ _ _ _ _ _ _ _ _ S) as (CL & SI & _).
  assert (E : c_id c = j) by (apply (proj2 CL); auto). rewrite E. split; auto.
  assert (In j (ids (sp_dim s'))) by (eapply nth_error_In; eauto).
  apply (so_in _ _ _ _ _ _ _ _ _ _ S) in H as (i & c0 & (H1 & H2 & H3) & Hin); [|auto].
  rewrite <- H2 in Hin. rewrite (SI i c0 H1) in Hin. destruct Hin as [<-|[]].
  unfold cell_at in *. assert (c0 = c) by congruence. subst. repeat split; auto.
Qed.

Lemma built_elements_iff tags s' m t dofs lay ids c :
  built_space tags s' m t dofs lay ids ->
  (In c (sp_elements s') <-> space_cell (sp_cells s') (sp_dim s') tags (c_id c) c).
Proof.
  intros B. split.
  - intros H. apply In_nth_error in H as (k & Hk). eapply built_element; eauto.
  - intros SC. pose proof (bs_ok _ _ _ _ _ _ _ B) as S.
    destruct (so_good _ _ _ _ _ _ _ _ _ _ S) as (CL & SI & _).
    assert (In (c_id c) (ids (sp_dim s'))).
    { apply (so_in _ _ _ _ _ _ _ _ _ _ S); auto. destruct SC as (H1 & H2 & H3).
      exists (c_id c), c. split; [repeat split; auto|]. rewrite <- H2. rewrite (SI _ _ H1). left; auto. }
    apply In_nth_error in H as (k & Hk). apply (nth_error_In _ k). apply (bs_el _ _ _ _ _ _ _ B).
    exists (c_id c). split; auto. apply SC.
Qed.

Lemma built_dict tags s' m t dofs lay ids id k :
  built_space tags s' m t dofs lay ids ->
  (dget (sp_id_to_element s') id = Some k <-> exists c, nth_error (sp_elements s') k = Some c /\ c_id c = id).
Proof.
  intros B. rewrite (bs_dict _ _ _ _ _ _ _ B), (bs_ids _ _ _ _ _ _ _ B).
  pose proof (bs_ok _ _ _ _ _ _ _ B) as S. rewrite id_dict_spec by (apply (so_nd _ _ _ _ _ _ _ _ _ _ S); auto).
  split.
  - intros H. assert (Hk : k < length (sp_elements s')).
    { rewrite (bs_len _ _ _ _ _ _ _ B). apply nth_error_Some. congruence. }
    destruct (nth_error (sp_elements s') k) as [c|] eqn:E.
    + exists c. split; auto. apply (built_element _ _ _ _ _ _ _ _ _ B) in E as [_ E]. congruence.
    + apply nth_error_None in E. lia.
  - intros (c & E & <-). apply (built_element _ _ _ _ _ _ _ _ _ B) in E as [_ E]. auto.
Qed.

(** boundary *)
Lemma build_boundary_good tags s' m t dofs lay ids btags d :
  built_space tags s' m t dofs lay ids -> btags <> [] -> sp_dim s' = S d ->
  exists s2 bids, build_boundary_structures s' btags = Ok s2 /\
    s2 = mk_space (sp_cells s') (sp_mesh_dim s') (sp_dim s') (sp_comps s') (sp_layout s') (sp_disc s')
            (sp_map s') (sp_elements s') (sp_element_ids s') (sp_id_to_element s')
            (sp_bc_elements s2) bids (dict_of (combine bids (seq 0 (length bids)))) /\
    NoDup bids /\ length (sp_bc_elements s2) = length bids /\
    (forall k c, nth_error (sp_bc_elements s2) k = Some c <->
        exists j, nth_error bids k = Some j /\ cell_at (sp_cells s') j c) /\
    (forall j, In j bids <-> space_entity (sp_cells s') (sp_dim s') tags d j /\
               exists c, cell_at (sp_cells s') j c /\ In (c_mat c) btags).
Proof.
  intros B NE Hd. pose proof (bs_ok _ _ _ _ _ _ _ B) as S.
  destruct (so_good _ _ _ _ _ _ _ _ _ _ S) as (CL & SI & TR & DS & SP).
  set (f := fun j => match cell_of (sp_cells s') j with Ok c => memb (c_mat c) btags | Err _ => false end).
  assert (CA : forall j, In j (ids d) -> exists c, cell_at (sp_cells s') j c /\ c_dim c = d).
  { intros j Hj. apply (so_in _ _ _ _ _ _ _ _ _ _ S) in Hj as (i & c & (H1 & H2 & H3) & Hin); [|lia].
    destruct (proj2 CL i c H1) as (_ & _ & _ & HC).
    destruct (HC d j) as (c' & Hc' & Hd'); auto; [lia|]. eauto. }
  destruct (mapM_cell_of (sp_cells s') (filter f (ids d))) as (els & Ee & Le & Ne).
  { intros j Hj. apply filter_In in Hj as [Hj _]. apply CA in Hj as (c & Hc & _). eauto. }
  eexists; exists (filter f (ids d)). split; [|split; [|split; [|split; [|split]]]].
  - unfold build_boundary_structures. destruct btags as [|b0 bt]; [exfalso; exact (NE eq_refl)|]. rewrite Hd.
    rewrite (bs_map _ _ _ _ _ _ _ B), (so_mt _ _ _ _ _ _ _ _ _ _ S).
    rewrite (bs_topo _ _ _ _ _ _ _ B d) by lia. cbn [bind].
    rewrite (filterM_Ok _ f).
    + cbn [bind]. rewrite Ee. cbn [bind]. rewrite <- (bs_map _ _ _ _ _ _ _ B), <- Hd. reflexivity.
    + intros j Hj. apply CA in Hj as (c & Hc & _). unfold f.
      rewrite (proj2 (cell_of_at (sp_cells s') j c) Hc). reflexivity.
  - reflexivity.
  - apply NoDup_filter. apply (so_nd _ _ _ _ _ _ _ _ _ _ S). lia.
  - simpl. auto.
  - simpl. exact Ne.
  - intros j. rewrite filter_In. rewrite (entity_iff _ _ _ _ _ _ _ _ _ _ S). split.
    + intros [H1 H2]. split; [split; [lia|auto]|]. destruct (CA j H1) as (c & Hc & _). exists c. split; auto.
      unfold f in H2. rewrite (proj2 (cell_of_at (sp_cells s') j c) Hc) in H2. apply memb_In; auto.
    + intros [[_ H1] (c & Hc & Hm)]. split; auto. unfold f.
      rewrite (proj2 (cell_of_at (sp_cells s') j c) Hc). apply memb_In; auto.
Qed.

(** destinations of one space *)
Lemma retrieve_spec tags s' m t dofs lay ids i :
  built_space tags s' m t dofs lay ids ->
  (i < length (sp_elements s') -> exists l, retrieve_destination s' i = Ok l) /\
  (forall l, retrieve_destination s' i = Ok l -> NoDup l /\ forall x, In x l -> (0 <= x < dof_number m)%Z).
Proof.
  intros B. pose proof (bs_ok _ _ _ _ _ _ _ B) as S. unfold retrieve_destination, get_at, dof_map_of.
  rewrite (bs_map _ _ _ _ _ _ _ B).
  destruct (nth_error (sp_elements s') i) as [c|] eqn:E; cbn [bind].
  - apply (built_element _ _ _ _ _ _ _ _ _ B) in E as [SC _].
    rewrite (destination_eq _ _ _ _ _ _ _ _ _ _ S _ _ SC). split; [eauto|].
    intros l Q; inversion Q; subst. split.
    + eapply (dest_NoDup _ _ _ _ _ _ _ _ _ _ S); eauto.
    + intros x Hx. pose proof (dest_range _ _ _ _ _ _ _ _ _ _ S _ _ _ SC Hx). lia.
  - split; [|discriminate]. intros. apply nth_error_None in E. lia.
Qed.

Definition bc_ok (tags : list (option Z)) (s2 : space) : Prop :=
  forall c, In c (sp_bc_elements s2) ->
    cell_at (sp_cells s2) (c_id c) c /\ c_dim c + 1 = sp_dim s2 /\
    space_entity (sp_cells s2) (sp_dim s2) tags (c_dim c) (c_id c).

Lemma retrieve_bc_spec tags s' m t dofs lay ids i :
  built_space tags s' m t dofs lay ids -> bc_ok tags s' ->
  (i < length (sp_bc_elements s') -> exists l, retrieve_bc_destination s' i = Ok l) /\
  (forall l, retrieve_bc_destination s' i = Ok l -> NoDup l /\ forall x, In x l -> (0 <= x < dof_number m)%Z).
Proof.
  intros B BC. pose proof (bs_ok _ _ _ _ _ _ _ B) as S. unfold retrieve_bc_destination, get_at, dof_map_of.
  rewrite (bs_map _ _ _ _ _ _ _ B).
  destruct (nth_error (sp_bc_elements s') i) as [c|] eqn:E; cbn [bind].
  - apply nth_error_In in E. apply BC in E as (Hc & Hd & (_ & i0 & c0 & SC0 & Hin0)).
    destruct (so_good _ _ _ _ _ _ _ _ _ _ S) as (CL & SI & TR & DS & SP).
    destruct (topo_predecessors (sp_cells s') (sp_dim s') tags t (c_id c) c CL SI
                (so_topo _ _ _ _ _ _ _ _ _ _ S) Hc) as (l & El & _ & Hl); [lia|eauto|].
    unfold find_higher_dimension_neighs in El.
    rewrite (so_mt _ _ _ _ _ _ _ _ _ _ S).
    destruct (entity_map_by_dimension t (c_dim c)) as [g|]; [|discriminate]. cbn [bind] in *.
    rewrite El. cbn [bind].
    destruct l as [|u l].
    { exfalso. apply (proj2 (Hl (sp_dim s', i0))). exists i0, c0. auto. }
    assert (Hu : In u (u :: l)) by (left; auto). apply Hl in Hu as (i1 & c1 & SC1 & Hin1 & ->).
    cbn [snd]. rewrite (bc_eq _ _ _ _ _ _ _ _ _ _ S i1 c1 (c_id c) c); auto.
    split; [eauto|]. intros l' Q; inversion Q; subst. split.
    + eapply (bdest_NoDup _ _ _ _ _ _ _ _ _ _ S); eauto.
    + intros x Hx. eapply (bdest_incl _ _ _ _ _ _ _ _ _ _ S i1 c1) in Hx; eauto.
      pose proof (dest_range _ _ _ _ _ _ _ _ _ _ S i1 c1 x SC1 Hx). lia.
  - split; [|discriminate]. intros. apply nth_error_None in E. lia.
Qed.

(** ** strides *)
Definition zsum (l : list Z) : Z := fold_right Z.add 0%Z l.
Lemma zacc_at acc l i : i < length l ->
  nth_error (zaccumulate_from acc l) i = Some (acc + zsum (firstn (S i) l))%Z.
Proof.
  revert acc i; induction l as [|x l IH]; intros acc i Hi; simpl in Hi; [lia|].
  destruct i; simpl.
  - f_equal. lia.
  - rewrite IH by lia. f_equal. simpl. lia.
Qed.
Lemma stride_at l i : i <= length l -> get_at (zaccumulate (0%Z :: l)) i = Ok (zsum (firstn i l)).
Proof.
  intros. unfold get_at, zaccumulate. rewrite zacc_at by (simpl; lia). simpl. auto.
Qed.
Lemma fold_left_zsum l a : fold_left Z.add l a = (a + zsum l)%Z.
Proof. revert a; induction l; simpl; intros; [lia|]. rewrite IHl. lia. Qed.
Lemma zsum_app l l' : zsum (l ++ l') = (zsum l + zsum l')%Z.
Proof. induction l; simpl; lia. Qed.

(** ** the collecting loop *)
Definition collected (skip : space -> bool) (g : space -> list Z) (strides : list Z) (shift : Z)
    (i : nat) (spaces : list (nat * space)) : list (nat * list Z) :=
  flat_map (fun kns : nat * (nat * space) =>
      if skip (snd (snd kns)) then []
      else [(fst (snd kns), map (fun x => x + nth (fst kns) strides 0 + shift)%Z (g (snd (snd kns))))])
    (combine (seq i (length spaces)) spaces).

Lemma collected_keys skip g strides shift i spaces :
  map fst (collected skip g strides shift i spaces) = map fst (filter (fun ns => negb (skip (snd ns))) spaces).
Proof.
  unfold collected. revert i; induction spaces as [|[n s] sp IH]; intros i; simpl; auto.
  rewrite map_app, IH. destruct (skip s); reflexivity.
Qed.

Lemma collect_eq skip get g strides shift spaces : forall i acc,
  i + length spaces <= length strides ->
  NoDup (map fst acc ++ map fst spaces) ->
  (forall n s, In (n, s) spaces -> skip s = false -> get s = Ok (g s)) ->
  collect_destinations skip get strides shift i spaces acc
  = Ok (acc ++ collected skip g strides shift i spaces).
Proof.
  induction spaces as [|[n s] sp IH]; intros i acc L ND H; simpl.
  - rewrite app_nil_r. auto.
  - unfold collected. cbn [length seq combine flat_map fst snd]. fold (collected skip g strides shift (S i) sp).
    simpl in ND, L. destruct (skip s) eqn:E.
    + rewrite Nat.add_1_r. rewrite IH; auto.
      * lia.
      * apply NoDup_remove_1 in ND. auto.
      * intros; eapply H; eauto. right; eauto.
    + unfold get_at. rewrite (nth_error_nth' strides 0%Z) by lia. cbn [bind].
      rewrite (H n s) by (auto; left; auto). cbn [bind]. rewrite Nat.add_1_r.
      rewrite (dset_new acc).
      2:{ apply dget_None. unfold dkeys. intros Q. apply NoDup_remove_2 in ND. apply ND.
          apply in_app_iff; auto. }
      rewrite IH.
      * rewrite <- app_assoc. reflexivity.
      * lia.
      * rewrite map_app, <- app_assoc. exact ND.
      * intros; eapply H; eauto. right; eauto.
Qed.

Lemma collect_inv skip get strides shift spaces : forall i acc d,
  i + length spaces <= length strides ->
  collect_destinations skip get strides shift i spaces acc = Ok d ->
  forall n s, In (n, s) spaces -> skip s = false -> exists l, get s = Ok l.
Proof.
  induction spaces as [|[n s] sp IH]; intros i acc d L H n' s' Hin Hs; simpl in *; [tauto|].
  destruct (skip s) eqn:E.
  - destruct Hin as [Q|Hin]; [inversion Q; subst; congruence|]. eapply IH; [|apply H|apply Hin|auto]. lia.
  - unfold get_at in H. rewrite (nth_error_nth' strides 0%Z) in H by lia. cbn [bind] in H.
    destruct (get s) as [l|] eqn:Eg; [|discriminate]. cbn [bind] in H.
    destruct Hin as [Q|Hin]; [inversion Q; subst; eauto|]. eapply IH; [|apply H|apply Hin|auto]. lia.
Qed.

Lemma In_collected skip g strides shift i spaces name l :
  In (name, l) (collected skip g strides shift i spaces) <->
  exists k s, nth_error spaces k = Some (name, s) /\ skip s = false /\
    l = map (fun x => x + nth (i + k) strides 0 + shift)%Z (g s).
Proof.
  unfold collected. rewrite in_flat_map. split.
  - intros ([k [n s]] & Hin & Hl). simpl in Hl. destruct (skip s) eqn:E; [destruct Hl|].
    destruct Hl as [Q|[]]. inversion Q; subst.
    apply In_nth_error in Hin as (p & Hp).
    assert (p < length spaces).
    { assert (p < length (combine (seq i (length spaces)) spaces)) by (apply nth_error_Some; congruence).
      rewrite combine_length, seq_length in H. lia. }
    exists p, s.
    assert (Hc : nth_error (combine (seq i (length spaces)) spaces) p
                 = match nth_error spaces p with Some y => Some (i + p, y) | None => None end).
    { clear - H. revert i p H. induction spaces as [|a sp IH]; intros i [|p] H; simpl in *; try lia.
      - rewrite Nat.add_0_r. auto.
      - rewrite IH by lia. replace (S i + p) with (i + S p) by lia. auto. }
    rewrite Hp in Hc. destruct (nth_error spaces p) as [y|]; [|discriminate]. inversion Hc; subst. auto.
  - intros (k & s & Hk & E & ->). exists (i + k, (name, s)). simpl. rewrite E. split; [|left; auto].
    clear E. revert i k Hk. induction spaces as [|a sp IH]; intros i [|k] Hk; simpl in *; try discriminate.
    + inversion Hk; subst. left. f_equal. lia.
    + right. replace (i + S k) with (S i + k) by lia. apply IH; auto.
Qed.

(** ** built product spaces *)
Lemma firstn_seq_le k n s : k <= n -> firstn k (seq s n) = seq s k.
Proof. revert n s; induction k; intros n s H; auto. destruct n; [lia|]. simpl. rewrite IHk by lia. auto. Qed.

Definition field_built (ns : nat * space) : Prop :=
  exists tags m t dofs lay ids, built_space tags (snd ns) m t dofs lay ids /\ bc_ok tags (snd ns).

Lemma one_field fuel s tags btags s1 s2 : good_field s -> fresh_field s ->
  build_structures (S fuel) s tags = Ok s1 -> build_boundary_structures s1 btags = Ok s2 ->
  exists m t dofs lay ids, built_space tags s2 m t dofs lay ids /\ bc_ok tags s2.
Proof.
  intros G (F1 & F2) H1 H2.
  destruct (build_structures_good fuel s tags G) as (s' & m & t & dofs & lay & ids & E & SS & B1 & B2 & B3 & B).
  rewrite E in H1; inversion H1; subst s'; clear H1 E.
  exists m, t, dofs, lay, ids.
  destruct btags as [|b bt].
  { simpl in H2. inversion H2; subst. split; auto. intros c Hc. rewrite B1, F2 in Hc. destruct Hc. }
  destruct (sp_dim s1) as [|d] eqn:Ed.
  { unfold build_boundary_structures in H2. rewrite Ed in H2. discriminate. }
  destruct (build_boundary_good tags s1 m t dofs lay ids (b :: bt) d B ltac:(discriminate) Ed)
    as (s2' & bids & E & EQ & ND & L & N & I).
  rewrite E in H2; inversion H2; subst s2'; clear H2 E.
  assert (Q : sp_cells s2 = sp_cells s1 /\ sp_dim s2 = sp_dim s1 /\ sp_comps s2 = sp_comps s1 /\
              sp_map s2 = sp_map s1 /\ sp_elements s2 = sp_elements s1 /\
              sp_element_ids s2 = sp_element_ids s1 /\ sp_id_to_element s2 = sp_id_to_element s1).
  { rewrite EQ; simpl. repeat split. }
  destruct Q as (Q1 & Q2 & Q3 & Q4 & Q5 & Q6 & Q7). clear EQ.
  split.
  - destruct B. constructor; rewrite ?Q1, ?Q2, ?Q3, ?Q4, ?Q5, ?Q6, ?Q7; auto.
  - intros c Hc. rewrite Q1, Q2. apply In_nth_error in Hc as (k & Hk). apply N in Hk as (j & Hj & Hc).
    apply nth_error_In in Hj. apply I in Hj as (SE & _).
    pose proof (so_good _ _ _ _ _ _ _ _ _ _ (bs_ok _ _ _ _ _ _ _ B)) as (CL & SI & _).
    assert (E : c_id c = j) by (apply (proj2 CL); auto).
    assert (Ed' : c_dim c = d).
    { destruct SE as (_ & i & c0 & (A1 & A2 & A3) & Hin).
      destruct (proj2 CL i c0 A1) as (_ & _ & _ & HC).
      destruct (HC d j) as (c' & Hc' & Hd'); auto; [lia|]. unfold cell_at in *. congruence. }
    rewrite E, Ed'. split; [auto|]. split; [lia|]. exact SE.
Qed.

Record prod_ok (q : product) : Prop := {
  po_names : NoDup (map fst (ps_spaces q));
  po_fields : forall ns, In ns (ps_spaces q) -> field_built ns;
  po_dofs : dvals (ps_dofs q) = map (field_n q) (seq 0 (length (ps_spaces q)));
  po_n : ps_n q = before q (length (ps_spaces q)) }.

Lemma field_n_vals q : (forall ns, In ns (ps_spaces q) -> field_built ns) ->
  forall dofs, mapM (fun ns => do m <- dof_map_of (snd ns); Ok (fst ns, dof_number m)) (ps_spaces q) = Ok dofs ->
  map fst dofs = map fst (ps_spaces q) /\ map snd dofs = map (field_n q) (seq 0 (length (ps_spaces q))).
Proof.
  intros H dofs E. unfold field_n.
  assert (G : forall sp dofs, (forall ns, In ns sp -> field_built ns) ->
    mapM (fun ns : nat * space => do m <- dof_map_of (snd ns); Ok (fst ns, dof_number m)) sp = Ok dofs ->
    map fst dofs = map fst sp /\
    map snd dofs = map (fun ns => match sp_map (snd ns) with Some m => dof_number m | None => 0%Z end) sp).
  { clear. induction sp as [|[n s] sp IH]; intros dofs H E; simpl in E.
    - inversion E; auto.
    - destruct (H (n, s)) as (tg & m & t & ds & lay & ids & B & _); [left; auto|].
      simpl in B. unfold dof_map_of in E. rewrite (bs_map _ _ _ _ _ _ _ B) in E. cbn [bind] in E.
      destruct (mapM _ sp) as [dd|] eqn:Em; [|discriminate]. cbn [bind] in E. inversion E; subst.
      simpl. rewrite (bs_map _ _ _ _ _ _ _ B).
      destruct (IH dd) as [-> ->]; auto. intros; apply H; right; auto. }
  destruct (G (ps_spaces q) dofs H E) as [-> ->]. split; auto.
  clear. assert (forall (l pre : list (nat * space)), map (fun ns => match sp_map (snd ns) with Some m => dof_number m | None => 0%Z end) l
     = map (fun k => match nth_error (pre ++ l) k with
                     | Some (_, s) => match sp_map s with Some m => dof_number m | None => 0%Z end
                     | None => 0%Z end) (seq (length pre) (length l))).
  { induction l as [|[n s] l IH]; intros pre; simpl; auto. f_equal.
    - rewrite nth_error_app2, Nat.sub_diag by lia. reflexivity.
    - rewrite (IH (pre ++ [(n, s)])). rewrite app_length; simpl. rewrite Nat.add_1_r.
      rewrite <- app_assoc. reflexivity. }
  apply (H (ps_spaces q) []).
Qed.

Lemma built_product_ok q : built_product q -> prod_ok q.
Proof.
  intros (fuel & p & tags & btags & q0 & ND & F & HB & E1 & E2 & E3).
  unfold build_product in HB.
  destruct (mapM _ (ps_spaces p)) as [spaces|] eqn:EM; [|discriminate]. cbn [bind] in HB.
  destruct (mapM _ spaces) as [dofs|] eqn:ED; [|discriminate]. cbn [bind] in HB. cbv zeta in HB.
  injection HB as <-. simpl in E1, E2, E3.
  apply mapM_Forall2 in EM.
  assert (K : map fst spaces = map fst (ps_spaces p)).
  { clear - EM. induction EM as [|[n s] [n' s'] l l' H]; simpl; auto. rewrite IHEM. f_equal.
    destruct (build_structures _ _ _); [|discriminate]. cbn [bind] in H.
    destruct (build_boundary_structures _ _); [|discriminate]. cbn [bind] in H. simpl in H. congruence. }
  assert (FB : forall ns, In ns spaces -> field_built ns).
  { clear - EM F. induction EM as [|[n s] [n' s'] l l' H]; simpl; intros ns Hin; [tauto|].
    destruct Hin as [<-|Hin].
    - simpl in H. destruct (build_structures (S fuel) s _) as [s1|] eqn:Q1; [|discriminate]. cbn [bind] in H.
      destruct (build_boundary_structures s1 _) as [s2|] eqn:Q2; [|discriminate]. cbn [bind] in H.
      inversion H; subst. destruct (F n' s) as [G1 G2]; [left; auto|].
      destruct (one_field _ _ _ _ _ _ G1 G2 Q1 Q2) as (m & t & ds & lay & ids & B & BC).
      do 6 eexists. split; eauto.
    - apply IHEM; auto. intros; eapply F; right; eauto. }
  destruct (field_n_vals q) with (dofs := dofs) as [V1 V2].
  { rewrite E1; auto. }
  { rewrite E1; auto. }
  assert (DI : dict_of dofs = dofs).
  { apply dict_of_id. unfold dkeys. rewrite V1, E1, K. auto. }
  constructor.
  - rewrite E1, K. auto.
  - rewrite E1; auto.
  - rewrite E2, DI. unfold dvals. auto.
  - rewrite E3, DI, fold_left_zsum. unfold before, zsum, dvals. rewrite V2. lia.
Qed.

Section Product.
  Variables (q : product).
  Hypothesis PO : prod_ok q.

  Lemma n_nonneg k : (0 <= field_n q k)%Z.
  Proof.
    unfold field_n. destruct (nth_error (ps_spaces q) k) as [[n s]|] eqn:E; [|lia].
    apply nth_error_In in E. destruct (po_fields q PO _ E) as (tg & m & t & ds & lay & ids & B & _).
    simpl in B. rewrite (bs_map _ _ _ _ _ _ _ B). rewrite (so_n _ _ _ _ _ _ _ _ _ _ (bs_ok _ _ _ _ _ _ _ B)). lia.
  Qed.
  Lemma before_S k : before q (S k) = (before q k + field_n q k)%Z.
  Proof. unfold before. rewrite seq_S, map_app. fold (zsum (map (field_n q) (seq 0 k) ++ map (field_n q) [0 + k])).
    rewrite zsum_app. simpl. unfold zsum. lia. Qed.
  Lemma before_le k k' : k <= k' -> (before q k <= before q k')%Z.
  Proof. induction 1; [lia|]. rewrite before_S. pose proof (n_nonneg m). lia. Qed.
  Lemma before_0 : before q 0 = 0%Z. Proof. reflexivity. Qed.

  Lemma stride k : k <= length (ps_spaces q) ->
    nth k (zaccumulate (0%Z :: dvals (ps_dofs q))) 0%Z = before q k.
  Proof.
    intros Hk. apply nth_error_nth. 
    pose proof (stride_at (dvals (ps_dofs q)) k) as S. rewrite (po_dofs q PO) in *.
    rewrite map_length, seq_length in S. specialize (S Hk). unfold get_at in S.
    destruct (nth_error _ k); [|discriminate]. inversion S; subst. f_equal.
    unfold before, zsum. rewrite firstn_map. rewrite firstn_seq_le by auto. auto.
  Qed.
  Lemma stride_len : length (zaccumulate (0%Z :: dvals (ps_dofs q))) = S (length (ps_spaces q)).
  Proof.
    unfold zaccumulate. assert (forall l a, length (zaccumulate_from a l) = length l) as ->
      by (induction l; simpl; auto). simpl. rewrite (po_dofs q PO), map_length, seq_length. auto.
  Qed.

  (** a family of local destination lists *)
  Variables (skip : space -> bool) (get : space -> res (list Z)).
  Hypothesis HG : forall n s, In (n, s) (ps_spaces q) -> skip s = false -> forall l, get s = Ok l ->
    NoDup l /\ forall m, sp_map s = Some m -> forall x, In x l -> (0 <= x < dof_number m)%Z.

  Definition gv (s : space) : list Z := match get s with Ok l => l | Err _ => [] end.
  Definition coll := collected skip gv (zaccumulate (0%Z :: dvals (ps_dofs q))) (ps_shift q) 0 (ps_spaces q).

  Lemma coll_iff d :
    collect_destinations skip get (zaccumulate (0%Z :: dvals (ps_dofs q))) (ps_shift q) 0 (ps_spaces q) [] = Ok d <->
    d = coll /\ forall n s, In (n, s) (ps_spaces q) -> skip s = false -> exists l, get s = Ok l.
  Proof.
    assert (L : 0 + length (ps_spaces q) <= length (zaccumulate (0%Z :: dvals (ps_dofs q)))).
    { rewrite stride_len. lia. }
    assert (G : (forall n s, In (n, s) (ps_spaces q) -> skip s = false -> exists l, get s = Ok l) ->
      collect_destinations skip get (zaccumulate (0%Z :: dvals (ps_dofs q))) (ps_shift q) 0 (ps_spaces q) [] = Ok coll).
    { intros H. rewrite (collect_eq skip get gv); auto.
      - exact (po_names q PO).
      - intros n s Hin Hs. destruct (H n s Hin Hs) as (l & E). unfold gv. rewrite E. auto. }
    split.
    - intros H. pose proof (collect_inv _ _ _ _ _ _ _ _ L H) as H'. split; auto.
      rewrite (G H') in H. congruence.
    - intros [-> H]. auto.
  Qed.

  Lemma coll_names : map fst coll = map fst (filter (fun ns => negb (skip (snd ns))) (ps_spaces q)).
  Proof. apply collected_keys. Qed.
  Lemma coll_NoDup_names : NoDup (map fst coll).
  Proof.
    rewrite coll_names. pose proof (po_names q PO) as ND. clear HG. induction (ps_spaces q) as [|[n s] l IH]; simpl; auto.
    simpl in ND. inversion ND; subst. destruct (skip s); simpl; auto. constructor; auto.
    intros Q. apply H1. apply in_map_iff in Q as (x & <- & Hx). apply filter_In in Hx as [Hx _].
    apply in_map; auto.
  Qed.

  Hypothesis HS : forall n s, In (n, s) (ps_spaces q) -> skip s = false -> exists l, get s = Ok l.

  Lemma coll_field name l : In (name, l) coll ->
    exists k s g, nth_error (ps_spaces q) k = Some (name, s) /\ skip s = false /\ get s = Ok g /\
      l = map (fun x => x + before q k + ps_shift q)%Z g.
  Proof.
    intros H. apply In_collected in H as (k & s & Hk & E & ->).
    destruct (HS name s) as (g & Eg); auto. { eapply nth_error_In; eauto. }
    exists k, s, g. repeat split; auto. rewrite Nat.add_0_l. unfold gv. rewrite Eg.
    rewrite stride; auto. assert (k < length (ps_spaces q)) by (apply nth_error_Some; congruence). lia.
  Qed.
  Lemma coll_block name l k s : In (name, l) coll -> nth_error (ps_spaces q) k = Some (name, s) ->
    NoDup l /\ forall x, In x l -> (ps_shift q + before q k <= x < ps_shift q + before q k + field_n q k)%Z.
  Proof.
    intros H Hk. destruct (coll_field name l H) as (k' & s' & g & Hk' & E & Eg & ->).
    assert (k = k').
    { pose proof (po_names q PO) as ND. rewrite NoDup_nth_error in ND. apply ND.
      - rewrite map_length. apply nth_error_Some. congruence.
      - rewrite !nth_error_map, Hk, Hk'. auto. }
    subst k'. rewrite Hk in Hk'. inversion Hk'; subst s'.
    destruct (HG name s) with (l := g) as [ND R]; auto. { eapply nth_error_In; eauto. }
    split.
    - apply NoDup_map_inj_in; auto. intros; lia.
    - intros x Hx. apply in_map_iff in Hx as (y & <- & Hy).
      destruct (po_fields q PO (name, s)) as (tg & m & t & ds & lay & ids & B & _).
      { eapply nth_error_In; eauto. }
      simpl in B. specialize (R m (bs_map _ _ _ _ _ _ _ B) y Hy).
      unfold field_n. rewrite Hk, (bs_map _ _ _ _ _ _ _ B). lia.
  Qed.
  Lemma coll_disjoint name l name' l' x : In (name, l) coll -> In (name', l') coll ->
    In x l -> In x l' -> name = name'.
  Proof.
    intros H H' Hx Hx'.
    destruct (coll_field name l H) as (k & s & g & Hk & _).
    destruct (coll_field name' l' H') as (k' & s' & g' & Hk' & _).
    pose proof (proj2 (coll_block name l k s H Hk) x Hx) as R.
    pose proof (proj2 (coll_block name' l' k' s' H' Hk') x Hx') as R'.
    assert (k = k').
    { destruct (Nat.lt_trichotomy k k') as [L|[L|L]]; auto; exfalso.
      - pose proof (before_le (S k) k' L). rewrite before_S in H0. lia.
      - pose proof (before_le (S k') k L). rewrite before_S in H0. lia. }
    subst. congruence.
  Qed.
  Lemma coll_total name l x : In (name, l) coll -> In x l -> (ps_shift q <= x < ps_shift q + ps_n q)%Z.
  Proof.
    intros H Hx. destruct (coll_field name l H) as (k & s & g & Hk & _).
    pose proof (proj2 (coll_block name l k s H Hk) x Hx) as R.
    assert (Lk : S k <= length (ps_spaces q)) by (apply nth_error_Some; congruence).
    pose proof (before_le (S k) _ Lk). rewrite before_S in H0.
    pose proof (before_le 0 k (Nat.le_0_l _)). rewrite before_0 in H1. rewrite (po_n q PO). lia.
  Qed.
  Lemma coll_concat_NoDup : NoDup (concat (map snd coll)).
  Proof.
    rewrite concat_map_flat. apply NoDup_flat_map.
    - apply (NoDup_map_inv fst). apply coll_NoDup_names.
    - intros [name l] H. destruct (coll_field name l H) as (k & s & g & Hk & _).
      apply (coll_block name l k s H Hk).
    - intros [n l] [n' l'] x H H' Hx Hx'. simpl in *.
      assert (n = n') by (apply (coll_disjoint n l n' l' x); auto). subst.
      f_equal. pose proof coll_NoDup_names as ND.
      assert (dget (coll : dict nat (list Z)) n' = Some l) by (apply dget_NoDup; auto).
      assert (dget (coll : dict nat (list Z)) n' = Some l') by (apply dget_NoDup; auto). congruence.
  Qed.
End Product.

Lemma dest_get q i : prod_ok q -> forall n s, In (n, s) (ps_spaces q) -> false = false -> forall l,
  retrieve_destination s i = Ok l ->
  NoDup l /\ forall m, sp_map s = Some m -> forall x, In x l -> (0 <= x < dof_number m)%Z.
Proof.
  intros PO n s Hin _ l H. destruct (po_fields q PO _ Hin) as (tg & m & t & ds & lay & ids & B & _). simpl in B.
  destruct (retrieve_spec _ _ _ _ _ _ _ i B) as [_ R]. destruct (R l H) as [R1 R2]. split; auto.
  intros m' E. rewrite (bs_map _ _ _ _ _ _ _ B) in E. inversion E; subst. auto.
Qed.
Lemma bc_get q i : prod_ok q -> forall n s, In (n, s) (ps_spaces q) ->
  (length (sp_bc_elements s) =? 0) = false -> forall l,
  retrieve_bc_destination s i = Ok l ->
  NoDup l /\ forall m, sp_map s = Some m -> forall x, In x l -> (0 <= x < dof_number m)%Z.
Proof.
  intros PO n s Hin _ l H. destruct (po_fields q PO _ Hin) as (tg & m & t & ds & lay & ids & B & BC). simpl in B.
  destruct (retrieve_bc_spec _ _ _ _ _ _ _ i B BC) as [_ R]. destruct (R l H) as [R1 R2]. split; auto.
  intros m' E. rewrite (bs_map _ _ _ _ _ _ _ B) in E. inversion E; subst. auto.
Qed.

Lemma filter_keep_all {A} (f : A -> bool) l : (forall x, f x = true) -> filter f l = l.
Proof. intros H. induction l; simpl; auto. rewrite H, IHl. auto. Qed.

(** ** Statements used in P_Space.v *)
Lemma C19_lemma q i d : built_product q -> discrete_spaces_destination_indexes q i = Ok d ->
  map fst d = map fst (ps_spaces q) /\
  (forall k name s l x, nth_error (ps_spaces q) k = Some (name, s) -> dget d name = Some l -> In x l ->
     (ps_shift q + before q k <= x < ps_shift q + before q k + field_n q k)%Z) /\
  (forall n l n' l' x, n <> n' -> dget d n = Some l -> dget d n' = Some l' -> In x l -> ~ In x l') /\
  (forall n l x, dget d n = Some l -> In x l -> (ps_shift q <= x < ps_shift q + ps_n q)%Z).
Proof.
  intros BP H. apply built_product_ok in BP as PO. unfold discrete_spaces_destination_indexes in H.
  apply (coll_iff q PO) in H as [-> HS].
  pose proof (dest_get q i PO) as HG. split; [|split; [|split]].
  - rewrite coll_names. rewrite filter_keep_all by auto. auto.
  - intros k name s l x Hk Hl Hx. apply dget_Some_In in Hl.
    apply (coll_block q PO (fun _ => false) (fun s => retrieve_destination s i) HG HS name l k s Hl Hk); auto.
  - intros n l n' l' x N Hl Hl' Hx Hx'. apply dget_Some_In in Hl, Hl'. apply N.
    apply (coll_disjoint q PO (fun _ => false) (fun s => retrieve_destination s i) HG HS n l n' l' x); auto.
  - intros n l x Hl Hx. apply dget_Some_In in Hl.
    apply (coll_total q PO (fun _ => false) (fun s => retrieve_destination s i) HG HS n l x); auto.
Qed.
Lemma C19_success_lemma q i : built_product q ->
  (forall n s, In (n, s) (ps_spaces q) -> i < length (sp_elements s)) ->
  exists d, discrete_spaces_destination_indexes q i = Ok d.
Proof.
  intros BP H. apply built_product_ok in BP as PO. unfold discrete_spaces_destination_indexes.
  eexists. apply (coll_iff q PO). split; [reflexivity|]. intros n s Hin _.
  destruct (po_fields q PO _ Hin) as (tg & m & t & ds & lay & ids & B & _). simpl in B.
  apply (retrieve_spec _ _ _ _ _ _ _ i B). eauto.
Qed.

Lemma coll_values {A} (l : dict nat A) : NoDup (dkeys l) ->
  Forall2 (fun n v => dindex l n = Ok v) (dkeys l) (dvals l).
Proof.
  intros ND. assert (G : forall l', incl l' l -> Forall2 (fun n v => dindex l n = Ok v) (dkeys l') (dvals l')).
  { induction l' as [|[n v] l' IH]; simpl; intros I; constructor.
    - unfold dindex. rewrite (proj2 (dget_NoDup l n v ND)); auto. apply I; left; auto.
    - apply IH. intros x Hx; apply I; right; auto. }
  apply G. apply incl_refl.
Qed.
Lemma Forall2_map_l {A B C} (f : A -> B) (R : B -> C -> Prop) l l' :
  Forall2 R (map f l) l' -> Forall2 (fun a c => R (f a) c) l l'.
Proof. revert l'; induction l; simpl; intros l' H; inversion H; subst; constructor; auto. Qed.

Lemma C20_lemma q i l : built_product q -> destination_indexes q i None = Ok l ->
  exists ls, Forall2 (fun ns l => destination_indexes q i (Some (fst ns)) = Ok l) (ps_spaces q) ls /\
             l = concat ls /\ NoDup l.
Proof.
  intros BP H. apply built_product_ok in BP as PO. unfold destination_indexes in *.
  destruct (discrete_spaces_destination_indexes q i) as [d|] eqn:E; [|discriminate]. cbn [bind] in *.
  unfold discrete_spaces_destination_indexes in E. apply (coll_iff q PO) in E as [-> HS].
  pose proof (dest_get q i PO) as HG.
  set (d := coll q (fun _ => false) (fun s => retrieve_destination s i)) in *.
  assert (NC : NoDup (concat (dvals d))) by (apply (coll_concat_NoDup q PO _ _ HG HS)).
  assert (ND : NoDup (dkeys d)) by (apply (coll_NoDup_names q PO)).
  assert (K : dkeys d = map fst (ps_spaces q)).
  { unfold dkeys, d. rewrite coll_names. rewrite filter_keep_all by auto. auto. }
  exists (dvals d). split; [|split].
  - pose proof (coll_values d ND) as F. rewrite K in F. apply Forall2_map_l in F. exact F.
  - unfold np_concatenate in H. destruct (dvals d); [discriminate|]. congruence.
  - unfold np_concatenate in H. destruct (dvals d); [discriminate|]. inversion H; subst. auto.
Qed.
Lemma C20_success_lemma q i : built_product q -> ps_spaces q <> [] ->
  (forall n s, In (n, s) (ps_spaces q) -> i < length (sp_elements s)) ->
  exists l, destination_indexes q i None = Ok l.
Proof.
  intros BP NE H. destruct (C19_success_lemma q i BP H) as (d & E).
  destruct (C19_lemma q i d BP E) as (K & _). unfold destination_indexes. rewrite E. cbn [bind].
  destruct d; [|eexists; reflexivity]. destruct (ps_spaces q); [tauto|discriminate].
Qed.

Lemma C20_bc_lemma q i l : built_product q -> bc_destination_indexes q i None = Ok l ->
  exists ls,
    Forall2 (fun ns l => bc_destination_indexes q i (Some (fst ns)) = Ok l)
            (filter (fun ns => negb (length (sp_bc_elements (snd ns)) =? 0)) (ps_spaces q)) ls /\
    l = concat ls /\ NoDup l /\
    (forall k name s l' x, nth_error (ps_spaces q) k = Some (name, s) ->
       bc_destination_indexes q i (Some name) = Ok l' -> In x l' ->
       (ps_shift q + before q k <= x < ps_shift q + before q k + field_n q k)%Z) /\
    (forall name s, In (name, s) (ps_spaces q) -> sp_bc_elements s = [] ->
       bc_destination_indexes q i (Some name) = Err KeyError).
Proof.
  intros BP H. apply built_product_ok in BP as PO. unfold bc_destination_indexes in *.
  destruct (discrete_spaces_bc_destination_indexes q i) as [d|] eqn:E; [|discriminate]. cbn [bind] in *.
  unfold discrete_spaces_bc_destination_indexes in E. apply (coll_iff q PO) in E as [-> HS].
  pose proof (bc_get q i PO) as HG.
  set (skip := fun s => length (sp_bc_elements s) =? 0) in *.
  set (d := coll q skip (fun s => retrieve_bc_destination s i)) in *.
  assert (NC : NoDup (concat (dvals d))) by (apply (coll_concat_NoDup q PO _ _ HG HS)).
  assert (ND : NoDup (dkeys d)) by (apply (coll_NoDup_names q PO)).
  assert (K : dkeys d = map fst (filter (fun ns => negb (skip (snd ns))) (ps_spaces q))) by (apply coll_names).
  exists (dvals d). split; [|split; [|split; [|split]]].
  - pose proof (coll_values d ND) as F. rewrite K in F. apply Forall2_map_l in F. exact F.
  - unfold np_concatenate in H. destruct (dvals d); [discriminate|]. congruence.
  - unfold np_concatenate in H. destruct (dvals d); [discriminate|]. inversion H; subst. auto.
  - intros k name s l' x Hk Hl Hx. unfold dindex in Hl. destruct (dget d name) as [l0|] eqn:E; [|discriminate].
    inversion Hl; subst. apply dget_Some_In in E.
    apply (coll_block q PO skip (fun s => retrieve_bc_destination s i) HG HS name l' k s E Hk); auto.
  - intros name s Hin Hs. unfold dindex. rewrite (proj2 (dget_None d name)); auto.
    rewrite K. intros Q. apply in_map_iff in Q as ([n' s'] & E & Q). simpl in E; subst n'.
    apply filter_In in Q as [Q1 Q2]. simpl in Q2.
    assert (s = s').
    { pose proof (po_names q PO) as NDn.
      assert (A : dget (ps_spaces q) name = Some s) by (apply dget_NoDup; auto).
      assert (B : dget (ps_spaces q) name = Some s') by (apply dget_NoDup; auto). congruence. }
    subst s'. unfold skip in Q2. rewrite Hs in Q2. discriminate.
Qed.
Lemma C20_bc_success_lemma q i : built_product q ->
  (exists n s, In (n, s) (ps_spaces q) /\ sp_bc_elements s <> []) ->
  (forall n s, In (n, s) (ps_spaces q) -> sp_bc_elements s <> [] -> i < length (sp_bc_elements s)) ->
  exists l, bc_destination_indexes q i None = Ok l.
Proof.
  intros BP (n0 & s0 & Hin0 & H0) H. apply built_product_ok in BP as PO.
  unfold bc_destination_indexes, discrete_spaces_bc_destination_indexes.
  rewrite (proj2 (coll_iff q PO _ _ (coll q (fun s => length (sp_bc_elements s) =? 0)
                                          (fun s => retrieve_bc_destination s i)))).
  - cbn [bind]. pose proof (coll_names q (fun s => length (sp_bc_elements s) =? 0)
                                          (fun s => retrieve_bc_destination s i)) as K.
    destruct (coll q _ _) as [|kv d]; [|eexists; reflexivity]. simpl in K. exfalso.
    assert (In n0 (map fst (filter (fun ns => negb (length (sp_bc_elements (snd ns)) =? 0)) (ps_spaces q)))).
    { apply in_map_iff. exists (n0, s0). split; auto. apply filter_In. split; auto. simpl.
      destruct (sp_bc_elements s0); [tauto|]. reflexivity. }
    rewrite <- K in H1. destruct H1.
  - split; auto. intros n s Hin Hs.
    destruct (po_fields q PO _ Hin) as (tg & m & t & ds & lay & ids & B & BC). simpl in B.
    apply (retrieve_bc_spec _ _ _ _ _ _ _ i B BC). apply (H n s Hin).
    intros Q. rewrite Q in Hs. discriminate.
Qed.

(** dof_shift *)
Lemma C21_setter_lemma v :
  (forall z, (0 <= z)%Z -> v = PyInt z \/ v = NpInteger z -> set_dof_shift v = Ok z) /\
  (forall z, (z < 0)%Z -> v = PyInt z \/ v = NpInteger z -> set_dof_shift v = Err ValueError) /\
  ((forall z, v <> PyInt z /\ v <> NpInteger z) -> (forall b, v <> PyBool b) -> set_dof_shift v = Err TypeError).
Proof.
  split; [|split].
  - intros z H [->| ->]; unfold set_dof_shift; simpl; destruct (Z.ltb_spec z 0); auto; lia.
  - intros z H [->| ->]; unfold set_dof_shift; simpl; destruct (Z.ltb_spec z 0); auto; lia.
  - intros H HB. destruct v; auto.
    + destruct (H z); tauto.
    + destruct (H z); tauto.
    + destruct (HB b); auto.
Qed.
Lemma C21_history_lemma vs : forall s s' rs, assign_shifts s vs = (s', rs) ->
  rs = map set_dof_shift vs /\
  ((s' = s /\ forall v z, In v vs -> set_dof_shift v <> Ok z) \/
   (exists pre v post, vs = pre ++ v :: post /\ set_dof_shift v = Ok s' /\
      forall w z, In w post -> set_dof_shift w <> Ok z)).
Proof.
  induction vs as [|v vs IH]; intros s s' rs H.
  - inversion H; subst. split; auto.
  - cbn [assign_shifts] in H. cbv zeta in H.
    destruct (assign_shifts _ vs) as [s1 rs1] eqn:E. inversion H; subst.
    apply IH in E as [-> E]. split; auto. destruct E as [[E1 E2]|(pre & w & post & E1 & E2 & E3)].
    + destruct (set_dof_shift v) as [z|e] eqn:Ev.
      * right. exists [], v, vs. subst. repeat split; auto.
      * left. split; auto. intros w z [->|Hw]; [congruence|auto].
    + right. exists (v :: pre), w, post. subst. auto.
Qed.

(** quadrature *)
Lemma quadrature_rule d order : d <= 3 -> exists r, quadrature_for (Z.of_nat d) order = Ok r /\ rule_for d order = Some r.
Proof. intros. destruct d as [|[|[|[|d]]]]; try lia; eexists; split; reflexivity. Qed.
Lemma set4_nat {A} (l : list A) d v : d < length l -> set4 l (Z.of_nat d) v = Ok (set_at l d v).
Proof.
  intros. unfold set4. destruct (Z.ltb_spec (Z.of_nat d) 0); [lia|]. cbv zeta.
  destruct (Z.leb_spec 0 (Z.of_nat d)); [|lia].
  destruct (Z.ltb_spec (Z.of_nat d) (Z.of_nat (length l))); [|lia]. simpl. rewrite Nat2Z.id. auto.
Qed.
Lemma length_set_at' {A} (l : list A) d v : length (set_at l d v) = length l.
Proof. revert d; induction l; destruct d; simpl; auto. Qed.
Lemma nth_error_set_at_same {A} (l : list A) d v : d < length l -> nth_error (set_at l d v) d = Some v.
Proof. revert d; induction l; destruct d; simpl; intros; try lia; auto. apply IHl; lia. Qed.
Lemma nth_error_set_at_other {A} (l : list A) d e v : d <> e -> nth_error (set_at l d v) e = nth_error l e.
Proof. revert d e; induction l; destruct d, e; simpl; intros; try lia; auto. Qed.

Lemma fill_rules order ds : (forall d, In d ds -> d <= 3) -> forall q, length q = 4 ->
  exists q', foldM (fun q d => do r <- quadrature_for d order; set4 q d (Some r)) (map Z.of_nat ds) q = Ok q' /\
    length q' = 4 /\ (forall d, In d ds -> nth_error q' d = Some (rule_for d order)) /\
    (forall d, ~ In d ds -> nth_error q' d = nth_error q d).
Proof.
  induction ds as [|d ds IH]; intros H q L.
  - exists q. simpl. repeat split; auto. intros d [].
  - destruct (quadrature_rule d order) as (r & E & R); [apply H; left; auto|].
    cbn [map foldM]. rewrite E. cbn [bind]. assert (Hd : d < length q) by (specialize (H d (or_introl eq_refl)); lia).
    rewrite set4_nat by auto. cbn [bind].
    destruct (IH (fun x Hx => H x (or_intror Hx)) (set_at q d (Some r))) as (q' & E' & L' & A & B).
    { rewrite length_set_at'; auto. }
    exists q'. split; auto. split; auto. split.
    + intros e [->|He]; auto. destruct (in_dec Nat.eq_dec e ds); auto.
      rewrite B by auto. rewrite nth_error_set_at_same by auto. rewrite R. auto.
    + intros e He. simpl in He. rewrite B by tauto. apply nth_error_set_at_other. tauto.
Qed.

Lemma np_max_spec l m : np_max l = Ok m -> In m l /\ forall x, In x l -> x <= m.
Proof.
  destruct l as [|x l]; [discriminate|]. simpl np_max. intros H; inversion H; subst. clear H.
  destruct (fold_max_spec l x). auto.
Qed.

Lemma C22_lemma fields : fields <> [] -> (forall d k, In (d, k) fields -> 1 <= d <= 3) ->
  exists q b kmax, define_quadrature fields = Ok (q, b) /\
    (forall d k, In (d, k) fields -> k <= kmax) /\ (exists d, In (d, kmax) fields) /\
    (forall d k e, In (d, k) fields -> e <= d -> nth_error q e = Some (rule_for e (2 * kmax + 1))) /\
    (forall d k, In (d, k) fields -> nth_error b (d - 1) = Some (rule_for (d - 1) (2 * kmax + 1))).
Proof.
  intros NE H. unfold define_quadrature.
  destruct (np_max (map snd fields)) as [kmax|] eqn:Ek; [|destruct fields; [tauto|discriminate]].
  destruct (np_max (map fst fields)) as [dmax|] eqn:Ed; [|destruct fields; [tauto|discriminate]].
  apply np_max_spec in Ek as [K1 K2]. apply np_max_spec in Ed as [D1 D2]. cbn [bind]. cbv zeta.
  assert (Dm : dmax <= 3).
  { apply in_map_iff in D1 as ([d k] & <- & Q). apply (H d k) in Q. simpl; lia. }
  destruct (fill_rules (2 * kmax + 1) (seq 0 (dmax + 1))) with (q := [@None quadrature; None; None; None])
    as (q & Eq & Lq & Aq & _); [intros d Hd; apply in_seq in Hd; lia|auto|].
  rewrite Eq. cbn [bind].
  assert (Em : map (fun f : nat * nat => (Z.of_nat (fst f) - 1)%Z) fields = map Z.of_nat (map (fun f => fst f - 1) fields)).
  { rewrite map_map. apply map_ext_in. intros [d k] Q. apply H in Q. simpl. lia. }
  rewrite Em.
  destruct (fill_rules (2 * kmax + 1) (map (fun f => fst f - 1) fields)) with (q := [@None quadrature; None; None; None])
    as (b & Eb & Lb & Ab & _); [|auto|].
  { intros d Hd. apply in_map_iff in Hd as ([d' k'] & <- & Q). apply H in Q. simpl. lia. }
  rewrite Eb. cbn [bind]. exists q, b, kmax. split; auto. split; [|split; [|split]].
  - intros d k Q. apply K2. apply in_map_iff. exists (d, k); auto.
  - apply in_map_iff in K1 as ([d k] & <- & Q). eauto.
  - intros d k e Q He. apply Aq. apply in_seq. assert (d <= dmax); [|lia].
    apply D2. apply in_map_iff. exists (d, k); auto.
  - intros d k Q. apply Ab. apply in_map_iff. exists (d, k); auto.
Qed.

Lemma foldM_Err {A S} (f : S -> A -> res S) l s e (P : S -> Prop) :
  P s -> (forall s x s', P s -> f s x = Ok s' -> P s') -> (forall s x e', P s -> In x l -> f s x = Err e' -> e' = e) ->
  (exists x, In x l /\ forall s, P s -> exists e', f s x = Err e') -> foldM f l s = Err e.
Proof.
  intros HP HI HE (x & Hx & Hf). revert s HP. induction l as [|y l IH]; intros s HP; [destruct Hx|].
  simpl. destruct (f s y) as [s'|e'] eqn:E; cbn [bind].
  - destruct Hx as [->|Hx].
    + destruct (Hf s HP) as (e' & Q). congruence.
    + apply IH; auto.
      * intros s0 x0 e0 P0 I0 E0. apply (HE s0 x0 e0); auto. right; auto.
      * apply (HI s y s'); auto.
  - f_equal. apply (HE s y e'); auto. left; auto.
Qed.

Lemma C22_refuted_lemma fields : (forall d k, In (d, k) fields -> d <= 3) ->
  (exists k, In (0, k) fields) -> define_quadrature fields = Err KeyError.
Proof.
  intros H (k0 & H0). unfold define_quadrature.
  assert (NE : fields <> []) by (intros ->; destruct H0).
  destruct (np_max (map snd fields)) as [kmax|] eqn:Ek; [|destruct fields; [tauto|discriminate]].
  destruct (np_max (map fst fields)) as [dmax|] eqn:Ed; [|destruct fields; [tauto|discriminate]].
  apply np_max_spec in Ed as [D1 D2]. cbn [bind]. cbv zeta.
  assert (Dm : dmax <= 3).
  { apply in_map_iff in D1 as ([d k] & <- & Q). apply (H d k) in Q. simpl; lia. }
  destruct (fill_rules (2 * kmax + 1) (seq 0 (dmax + 1))) with (q := [@None quadrature; None; None; None])
    as (q & Eq & Lq & Aq & _); [intros d Hd; apply in_seq in Hd; lia|auto|].
  rewrite Eq. cbn [bind].
  rewrite (foldM_Err _ _ _ KeyError (fun l => length l = 4)); auto.
  - intros s x s' L. destruct (quadrature_for x _); [|discriminate]. cbn [bind]. unfold set4.
    destruct (_ && _); intros Q; inversion Q; subst. rewrite length_set_at'; auto.
  - intros s x e' L Hx Q. apply in_map_iff in Hx as ([d k] & <- & Hx). apply H in Hx. cbn [fst] in Q.
    destruct d as [|d].
    + simpl in Q. inversion Q; auto.
    + replace (Z.of_nat (S d) - 1)%Z with (Z.of_nat d) in Q by lia.
      destruct (quadrature_rule d (2 * kmax + 1)) as (r & E & _); [lia|].
      rewrite E in Q. cbn [bind] in Q. rewrite set4_nat in Q by lia. discriminate.
  - exists (-1)%Z. split.
    + apply in_map_iff. exists (0, k0). auto.
    + intros s L. eexists. reflexivity.
Qed.

Lemma C22_product_lemma fields : NoDup (map fst fields) -> fields <> [] ->
  (forall n f, In (n, f) fields -> 1 <= f_dim f <= 3 /\ f_dim f <= f_mesh_dim f) ->
  exists p, new_product fields = Ok p /\ map fst (ps_spaces p) = map fst fields /\
    forall n f, In (n, f) fields -> exists s, In (n, s) (ps_spaces p) /\ fresh_field s /\
      sp_cells s = f_cells f /\ sp_dim s = f_dim f /\ sp_comps s = f_comps f.
Proof.
  intros ND NE H. unfold new_product.
  destruct (C22_lemma (map (fun nf => (f_dim (snd nf), f_order (snd nf))) fields)) as (q & b & km & E & _).
  { destruct fields; [tauto|discriminate]. }
  { intros d k Hin. apply in_map_iff in Hin as ([n f] & Q & Hin). inversion Q; subst.
    apply H in Hin. simpl. lia. }
  rewrite E. cbn [bind].
  set (mk := fun nf : nat * field => (fst nf, mk_space (f_cells (snd nf)) (f_mesh_dim (snd nf)) (f_dim (snd nf))
               (f_comps (snd nf)) (f_layout (snd nf)) false None [] [] [] [] [] [])).
  rewrite (mapM_Ok_map _ mk).
  - cbn [bind]. assert (K : map fst (map mk fields) = map fst fields).
    { rewrite map_map. apply map_ext. auto. }
    rewrite dict_of_id by (unfold dkeys; rewrite K; auto).
    eexists. split; [reflexivity|]. simpl. split; auto.
    intros n f Hin. exists (snd (mk (n, f))). split; [|repeat split].
    apply in_map_iff. exists (n, f). auto.
  - intros [n f] Hin. unfold new_space. simpl. apply H in Hin. destruct (Nat.ltb_spec (f_mesh_dim f) (f_dim f)); [lia|].
    reflexivity.
Qed.
Lemma C22_product_refuted_lemma fields :
  (forall n f, In (n, f) fields -> f_dim f <= 3) -> (exists n f, In (n, f) fields /\ f_dim f = 0) ->
  new_product fields = Err KeyError.
Proof.
  intros H (n & f & Hin & H0). unfold new_product. rewrite C22_refuted_lemma; auto.
  - intros d k Q. apply in_map_iff in Q as ([n' f'] & Q & Hin'). inversion Q; subst. eapply H; eauto.
  - exists (f_order f). apply in_map_iff. exists (n, f). simpl. rewrite H0. auto.
Qed.

Lemma C23_lemma fuel s tags s' : good_field s -> build_structures (S fuel) s tags = Ok s' ->
  (forall id k, dget (sp_id_to_element s') id = Some k <->
      exists c, nth_error (sp_elements s') k = Some c /\ c_id c = id) /\
  (forall c, In c (sp_elements s') <-> space_cell (sp_cells s) (sp_dim s) tags (c_id c) c).
Proof.
  intros G H. destruct (build_structures_good fuel s tags G) as (s1 & m & t & dofs & lay & ids & E & SS & _ & _ & _ & B).
  rewrite E in H; inversion H; subst s1. destruct SS as (S1 & _ & S3 & _). split.
  - intros id k. eapply built_dict; eauto.
  - intros c. rewrite <- S1, <- S3. eapply built_elements_iff; eauto.
Qed.
Lemma C23_success_lemma fuel s tags : good_field s -> exists s', build_structures (S fuel) s tags = Ok s'.
Proof.
  intros G. destruct (build_structures_good fuel s tags G) as (s1 & m & t & dofs & lay & ids & E & _). eauto.
Qed.
Lemma C23_bc_lemma fuel s tags s' btags s'' : good_field s -> build_structures (S fuel) s tags = Ok s' ->
  btags <> [] -> build_boundary_structures s' btags = Ok s'' ->
  sp_elements s'' = sp_elements s' /\ sp_id_to_element s'' = sp_id_to_element s' /\
  (forall id k, dget (sp_id_to_bc s'') id = Some k <->
      exists c, nth_error (sp_bc_elements s'') k = Some c /\ c_id c = id) /\
  (forall c, In c (sp_bc_elements s'') <->
      cell_at (sp_cells s) (c_id c) c /\ c_dim c + 1 = sp_dim s /\
      space_entity (sp_cells s) (sp_dim s) tags (c_dim c) (c_id c) /\ In (c_mat c) btags).
Proof.
  intros G H NE H2. destruct (build_structures_good fuel s tags G) as (s1 & m & t & dofs & lay & ids & E & SS & _ & _ & _ & B).
  rewrite E in H; inversion H; subst s1. destruct SS as (S1 & _ & S3 & _).
  destruct (sp_dim s') as [|d] eqn:Ed.
  { destruct btags; [tauto|]. unfold build_boundary_structures in H2. rewrite Ed in H2. discriminate. }
  destruct (build_boundary_good tags s' m t dofs lay ids btags d B NE Ed) as (s2' & bids & E' & EQ & ND & L & N & I).
  rewrite E' in H2; inversion H2; subst s2'; clear H2 E'.
  pose proof (so_good _ _ _ _ _ _ _ _ _ _ (bs_ok _ _ _ _ _ _ _ B)) as (CL & SI & _).
  assert (Hid : forall j c, cell_at (sp_cells s') j c -> c_id c = j) by (intros; apply (proj2 CL); auto).
  split; [rewrite EQ; reflexivity|]. split; [rewrite EQ; reflexivity|]. split.
  - intros id k. replace (sp_id_to_bc s'') with (dict_of (combine bids (seq 0 (length bids)))) by (rewrite EQ; auto).
    rewrite id_dict_spec by auto. split.
    + intros Hk. assert (k < length (sp_bc_elements s'')) by (rewrite L; apply nth_error_Some; congruence).
      destruct (nth_error (sp_bc_elements s'') k) as [c|] eqn:Ek.
      * exists c. split; auto. apply N in Ek as (j & Hj & Hc). apply Hid in Hc. congruence.
      * apply nth_error_None in Ek. lia.
    + intros (c & Hk & <-). apply N in Hk as (j & Hj & Hc). apply Hid in Hc. congruence.
  - intros c. rewrite <- S1, <- S3.
    assert (DM : forall j c0, space_entity (sp_cells s') (sp_dim s') tags d j -> cell_at (sp_cells s') j c0 -> c_dim c0 = d).
    { intros j c0 SE Hc0. destruct SE as (_ & i & c1 & (A1 & A2 & A3) & Hin).
      destruct (proj2 CL i c1 A1) as (_ & _ & _ & HC).
      destruct (HC d j) as (c' & Hc' & Hd'); auto; [lia|]. unfold cell_at in *. congruence. }
    split.
    + intros Hc. apply In_nth_error in Hc as (k & Hk). apply N in Hk as (j & Hj & Hc).
      apply nth_error_In in Hj. apply I in Hj as (SE & c' & Hc' & Hm).
      assert (c' = c) by (unfold cell_at in *; congruence). subst c'.
      rewrite (Hid j c Hc). assert (c_dim c = d) by (eapply DM; eauto). rewrite H0.
      rewrite Ed in SE. split; [exact Hc|]. split; [lia|]. split; [exact SE|exact Hm].
    + intros (Hc & Hd & SE & Hm). assert (c_dim c = d) by lia. rewrite H0 in SE. rewrite <- Ed in SE.
      assert (In (c_id c) bids) by (apply I; split; eauto).
      apply In_nth_error in H1 as (k & Hk). apply (nth_error_In _ k). apply N. eauto.
Qed.
