(** * Lemmas: DoF maps on good meshes, C13-C18 *)
From Coq Require Import List Arith ZArith Bool Lia.
From Verif Require Import Base BaseProof MeshModel MeshSpec MeshProof1 GraphModel GraphProof DofModel DofSpec DofProof1.
Import ListNotations.

Lemma uniform_mean l e : l <> [] -> (forall x, In x l -> x = e) -> int_mean l = Ok e.
Proof.
  intros NE U. destruct l as [|a l]; [tauto|]. unfold int_mean. f_equal.
  assert (S : list_sum (a :: l) = length (a :: l) * e).
  { clear NE. induction (a :: l) as [|x k IH]; simpl; auto.
    rewrite IH by (intros; apply U; right; auto). rewrite (U x) by (left; auto). lia. }
  rewrite S, Nat.mul_comm. apply Nat.div_mul. simpl; lia.
Qed.
Lemma uniform_layout_mean layout dofs :
  uniform_layout layout dofs -> Forall2 (fun l e => int_mean l = Ok e) layout dofs.
Proof. apply Forall2_impl. intros a b [H1 H2]. apply uniform_mean; auto. Qed.

(** what a numbered space gives *)
Record space_ok (cs : cells) (dim : nat) (tags : list (option Z)) (dofs : list nat) (comps : nat)
    (shift : Z) (m : dofmap) (t : topology) (layout : list (list nat)) (ids : nat -> list nat) : Prop := {
  so_good : good_mesh cs;
  so_topo : topo_ok cs dim tags t;
  so_d3 : dim <= 3;
  so_nd : forall d, d <= dim -> NoDup (ids d);
  so_in : forall d j, d <= dim -> (In j (ids d) <-> exists i c, selected cs dim tags i c /\ In j (nth d (c_sub c) []));
  so_lay : uniform_layout layout dofs;
  so_len : length layout = dim + 1;
  so_mt : dm_topo m = t;
  so_ml : dm_layout m = layout;
  so_md : dm_dim m = dim;
  so_n : dof_number m = Z.of_nat (list_sum (sizes dim comps dofs ids));
  so_dofs : forall d j l, dofs_of m d j = Ok l <->
        d <= dim /\ exists p, nth_error (ids d) p = Some j /\
          l = zrange (start dim comps shift dofs ids d + Z.of_nat (p * wd comps dofs d))
                     (start dim comps shift dofs ids d + Z.of_nat (p * wd comps dofs d) + Z.of_nat (wd comps dofs d)) }.

Lemma ids_choice cs dim tags t :
  closed_mesh cs -> self_incident cs -> topo_ok cs dim tags t ->
  exists ids : nat -> list nat, forall d, d <= dim ->
    entities_by_dimension t d = Ok (ids d) /\ NoDup (ids d) /\
    forall j, In j (ids d) <-> exists i c, selected cs dim tags i c /\ In j (nth d (c_sub c) []).
Proof.
  intros CL SI TO.
  exists (fun d => match entities_by_dimension t d with Ok l => l | Err _ => [] end).
  intros d Hd. destruct (topo_ids_spec cs dim tags t d CL SI TO Hd) as (l & E & H). rewrite E. auto.
Qed.

Lemma numbered_space_ok cs dim tags dofs comps shift m :
  numbered_space cs dim tags dofs comps shift m ->
  exists t layout ids, space_ok cs dim tags dofs comps shift m t layout ids.
Proof.
  intros (fuel & mesh_dim & t & layout & G & HT & L & U & HM).
  destruct G as (CL & SI & G'). 
  assert (Hm : dim <= mesh_dim).
  { unfold build_data_on_physical_tags in HT. destruct (Nat.ltb_spec mesh_dim dim); [discriminate|auto]. }
  destruct (build_topology_ok fuel cs mesh_dim dim tags CL Hm) as (t' & E & TO).
  rewrite E in HT; inversion HT; subst t'; clear HT E.
  assert (D3 : dim <= 3).
  { unfold build_entity_maps, support_ids in HM. destruct (Nat.ltb_spec 3 dim); [discriminate|auto]. }
  destruct (ids_choice cs dim tags t CL SI TO) as (ids & HI).
  destruct (build_maps_ok t dim comps shift layout dofs ids) as (m' & E & A1 & A2 & A3 & A4 & A5); auto.
  1:{ intros d Hd; apply (HI d Hd). }
  1:{ intros d Hd; apply (HI d Hd). }
  1:{ apply uniform_layout_mean; auto. }
  rewrite E in HM; inversion HM; subst m'.
  exists t, layout, ids. constructor; auto.
  - split; [auto|split; auto].
  - intros d Hd; apply (HI d Hd).
  - intros d j Hd; apply (HI d Hd).
Qed.

Lemma C13_success_lemma fuel cs mesh_dim dim tags t layout dofs comps shift :
  good_mesh cs -> build_data_on_physical_tags (S fuel) cs mesh_dim dim tags = Ok t ->
  dim <= 3 -> length layout = dim + 1 -> uniform_layout layout dofs ->
  exists m, build_entity_maps t layout dim comps shift = Ok m.
Proof.
  intros (CL & SI & _) HT D3 L U.
  assert (Hm : dim <= mesh_dim).
  { unfold build_data_on_physical_tags in HT. destruct (Nat.ltb_spec mesh_dim dim); [discriminate|auto]. }
  destruct (build_topology_ok fuel cs mesh_dim dim tags CL Hm) as (t' & E & TO).
  rewrite E in HT; inversion HT; subst t'; clear HT E.
  destruct (ids_choice cs dim tags t CL SI TO) as (ids & HI).
  destruct (build_maps_ok t dim comps shift layout dofs ids) as (m' & E & _); eauto.
  1:{ intros d Hd; apply (HI d Hd). }
  1:{ intros d Hd; apply (HI d Hd). }
  apply uniform_layout_mean; auto.
Qed.

Section Space.
  Variables (cs : cells) (dim : nat) (tags : list (option Z)) (dofs : list nat) (comps : nat)
            (shift : Z) (m : dofmap) (t : topology) (layout : list (list nat)) (ids : nat -> list nat).
  Hypothesis S : space_ok cs dim tags dofs comps shift m t layout ids.

  Notation st := (start dim comps shift dofs ids).
  Notation w := (wd comps dofs).

  Lemma entity_iff d j : space_entity cs dim tags d j <-> d <= dim /\ In j (ids d).
  Proof.
    unfold space_entity, space_cell. split.
    - intros (Hd & H). split; auto. apply (so_in _ _ _ _ _ _ _ _ _ _ S d j Hd). exact H.
    - intros (Hd & H). split; auto. apply (so_in _ _ _ _ _ _ _ _ _ _ S d j Hd). exact H.
  Qed.

  Lemma dofs_entity d j : space_entity cs dim tags d j <-> exists l, dofs_of m d j = Ok l.
  Proof.
    rewrite entity_iff. split.
    - intros (Hd & H). apply In_nth_error in H as (p & Hp). eexists.
      apply (so_dofs _ _ _ _ _ _ _ _ _ _ S). split; auto. exists p; split; eauto.
    - intros (l & Hl). apply (so_dofs _ _ _ _ _ _ _ _ _ _ S) in Hl as (Hd & p & Hp & _).
      split; auto. eapply nth_error_In; eauto.
  Qed.
  Lemma dofs_consecutive d j l : dofs_of m d j = Ok l ->
    exists s, l = zrange s (s + Z.of_nat (nth d dofs 0 * comps)).
  Proof.
    intros Hl. apply (so_dofs _ _ _ _ _ _ _ _ _ _ S) in Hl as (Hd & p & Hp & ->).
    eexists. reflexivity.
  Qed.
  Lemma end4 : st 4 = (shift + dof_number m)%Z.
  Proof.
    rewrite (so_n _ _ _ _ _ _ _ _ _ _ S). apply total_size.
  Qed.
  Lemma dofs_cover x : (shift <= x < shift + dof_number m)%Z <->
    exists d j l, dofs_of m d j = Ok l /\ In x l.
  Proof.
    rewrite <- end4. rewrite (cover dim comps shift layout dofs ids (so_d3 _ _ _ _ _ _ _ _ _ _ S) (so_len _ _ _ _ _ _ _ _ _ _ S)). split.
    - intros (d & p & j & Hd & Hp & Hx). exists d, j. eexists. split.
      + apply (so_dofs _ _ _ _ _ _ _ _ _ _ S). split; eauto.
      + apply In_zrange; auto.
    - intros (d & j & l & Hl & Hx). apply (so_dofs _ _ _ _ _ _ _ _ _ _ S) in Hl as (Hd & p & Hp & ->).
      apply In_zrange in Hx. exists d, p, j; auto.
  Qed.
  Lemma dofs_unique d j l k d' j' l' k' x :
    dofs_of m d j = Ok l -> dofs_of m d' j' = Ok l' ->
    nth_error l k = Some x -> nth_error l' k' = Some x -> d = d' /\ j = j' /\ k = k'.
  Proof.
    intros Hl Hl' Hk Hk'.
    apply (so_dofs _ _ _ _ _ _ _ _ _ _ S) in Hl as (Hd & p & Hp & ->).
    apply (so_dofs _ _ _ _ _ _ _ _ _ _ S) in Hl' as (Hd' & p' & Hp' & ->).
    apply nth_error_zrange in Hk, Hk'.
    apply (place_unique dim comps shift layout dofs ids (so_d3 _ _ _ _ _ _ _ _ _ _ S) (so_len _ _ _ _ _ _ _ _ _ _ S) d p j d' p' j' k k' x); auto; lia.
  Qed.

  (** the DoF list of an entity as a function *)
  Definition D (d j : nat) : list Z := match dofs_of m d j with Ok l => l | Err _ => [] end.
  Lemma D_ok d j : space_entity cs dim tags d j -> dofs_of m d j = Ok (D d j).
  Proof. intros H. apply dofs_entity in H as (l & Hl). unfold D. rewrite Hl. auto. Qed.
  Lemma D_length d j : space_entity cs dim tags d j -> length (D d j) = nth d dofs 0 * comps.
  Proof.
    intros H. apply D_ok in H. apply dofs_consecutive in H as (s & ->). rewrite length_zrange. lia.
  Qed.
  Lemma D_NoDup d j : NoDup (D d j).
  Proof.
    unfold D. destruct (dofs_of m d j) eqn:E; [|constructor].
    apply dofs_consecutive in E as (s & ->). apply NoDup_zrange.
  Qed.
  Lemma D_disjoint d j d' j' x : In x (D d j) -> In x (D d' j') -> d = d' /\ j = j'.
  Proof.
    unfold D. destruct (dofs_of m d j) eqn:E; [|intros []]. destruct (dofs_of m d' j') eqn:E'; [|intros _ []].
    intros H H'. apply In_nth_error in H as (k & Hk). apply In_nth_error in H' as (k' & Hk').
    destruct (dofs_unique _ _ _ _ _ _ _ _ _ E E' Hk Hk') as (-> & -> & _). auto.
  Qed.

  Definition dest (c : cell) : list Z :=
    flat_map (fun d => flat_map (D d) (nth d (c_sub c) [])) (seq 0 (dim + 1)).

  Lemma concat_map_flat {A B} (f : A -> list B) l : concat (map f l) = flat_map f l.
  Proof. symmetry; apply flat_map_concat_map. Qed.

  Lemma sub_nonempty i c d : space_cell cs dim tags i c -> d <= dim -> nth d (c_sub c) [] <> [].
  Proof.
    intros (H1 & H2 & H3) Hd E. destruct (so_good _ _ _ _ _ _ _ _ _ _ S) as (_ & _ & _ & _ & SP).
    specialize (SP i c d H1). rewrite E, H2 in SP. specialize (SP Hd).
    pose proof (so_d3 _ _ _ _ _ _ _ _ _ _ S).
    destruct dim as [|[|[|[|?]]]]; destruct d as [|[|[|[|?]]]]; simpl in SP; lia.
  Qed.
  Lemma sub_entity i c d j : space_cell cs dim tags i c -> d <= dim -> In j (nth d (c_sub c) []) ->
    space_entity cs dim tags d j.
  Proof. intros; split; eauto. Qed.

  Lemma supports i c d : space_cell cs dim tags i c -> d <= dim ->
    exists g, entity_map_by_dimension t d = Ok g /\
              successors g (index c) = Ok (map (pair d) (nth d (c_sub c) [])).
  Proof.
    intros SC Hd. destruct SC as (H1 & H2 & H3).
    destruct (so_good _ _ _ _ _ _ _ _ _ _ S) as (CL & SI & TR & DS & SP).
    eapply topo_successors; eauto.
    - apply (so_topo _ _ _ _ _ _ _ _ _ _ S).
    - repeat split; eauto.
    - apply (DS i c d); auto. lia.
    - apply (sub_nonempty i c d); auto. repeat split; auto.
  Qed.

  Lemma np_concat_ok {A B} (f : A -> list B) x l : np_concatenate (map f (x :: l)) = Ok (flat_map f (x :: l)).
  Proof. simpl. rewrite concat_map_flat. reflexivity. Qed.

  Lemma destination_eq i c : space_cell cs dim tags i c -> destination_indices m i = Ok (dest c).
  Proof.
    intros SC. unfold destination_indices. rewrite (so_mt _ _ _ _ _ _ _ _ _ _ S), (so_md _ _ _ _ _ _ _ _ _ _ S).
    rewrite (to_cells _ _ _ _ (so_topo _ _ _ _ _ _ _ _ _ _ S)).
    rewrite (proj2 (cell_of_at cs i c) (proj1 SC)). cbn [bind].
    rewrite (mapM_Ok_map _ (fun d => flat_map (D d) (nth d (c_sub c) []))).
    - cbn [bind]. unfold dest. replace (dim + 1) with (Datatypes.S dim) by lia. apply np_concat_ok.
    - intros d Hd. apply in_seq in Hd. destruct (supports i c d SC) as (g & Eg & Es); [lia|].
      rewrite Eg. cbn [bind]. rewrite Es. cbn [bind].
      rewrite (mapM_Ok_map (A := vid) _ (fun s => D d (snd s))).
      + cbn [bind]. rewrite concat_map_flat. f_equal.
        clear. induction (nth d (c_sub c) []); simpl; auto. congruence.
      + intros s Hs. apply in_map_iff in Hs as (j & <- & Hj). simpl. apply D_ok.
        apply (sub_entity i c); auto. lia.
  Qed.

  Lemma In_dest c x : In x (dest c) <-> exists d j, d <= dim /\ In j (nth d (c_sub c) []) /\ In x (D d j).
  Proof.
    unfold dest. rewrite in_flat_map. split.
    - intros (d & Hd & H). apply in_seq in Hd. apply in_flat_map in H as (j & Hj & Hx).
      exists d, j; repeat split; auto; lia.
    - intros (d & j & Hd & Hj & Hx). exists d. split; [apply in_seq; lia|].
      apply in_flat_map; eauto.
  Qed.

  Lemma NoDup_flat_map {A B} (f : A -> list B) l :
    NoDup l -> (forall x, In x l -> NoDup (f x)) ->
    (forall x y b, In x l -> In y l -> In b (f x) -> In b (f y) -> x = y) -> NoDup (flat_map f l).
  Proof.
    induction 1 as [|a l Ha ND IH]; simpl; intros H1 H2; [constructor|].
    assert (NoDup (flat_map f l)) by (apply IH; intros; eauto).
    assert (forall b, In b (f a) -> ~ In b (flat_map f l)).
    { intros b Hb Hc. apply in_flat_map in Hc as (y & Hy & Hb').
      assert (a = y) by (eapply H2; eauto). subst; contradiction. }
    specialize (H1 a (or_introl eq_refl)). clear - H H0 H1. induction (f a); simpl; auto.
    inversion H1; subst. constructor.
    - rewrite in_app_iff. intros [Q|Q]; [contradiction|]. eapply H0; eauto. left; auto.
    - apply IHl0; auto. intros; apply H0; right; auto.
  Qed.

  Lemma dest_NoDup i c : space_cell cs dim tags i c -> NoDup (dest c).
  Proof.
    intros (H1 & H2 & H3). destruct (so_good _ _ _ _ _ _ _ _ _ _ S) as (CL & SI & TR & DS & SP).
    unfold dest. apply NoDup_flat_map.
    - apply seq_NoDup.
    - intros d Hd. apply in_seq in Hd. apply NoDup_flat_map.
      + apply (DS i c d); auto. lia.
      + intros; apply D_NoDup.
      + intros x y b _ _ Hx Hy. apply (D_disjoint _ _ _ _ _ Hx Hy).
    - intros d d' b Hd Hd' Hb Hb'. apply in_flat_map in Hb as (j & _ & Hb).
      apply in_flat_map in Hb' as (j' & _ & Hb'). apply (D_disjoint _ _ _ _ _ Hb Hb').
  Qed.
  Lemma dest_range i c x : space_cell cs dim tags i c -> In x (dest c) ->
    (shift <= x < shift + dof_number m)%Z.
  Proof.
    intros SC Hx. apply In_dest in Hx as (d & j & Hd & Hj & Hx). apply dofs_cover.
    exists d, j, (D d j). split; auto. apply D_ok. apply (sub_entity i c); auto.
  Qed.
  Lemma length_flat_map_const {A B} (f : A -> list B) l n :
    (forall x, In x l -> length (f x) = n) -> length (flat_map f l) = length l * n.
  Proof.
    induction l; simpl; intros H; auto. rewrite app_length, IHl by auto. rewrite H; auto.
  Qed.
  Lemma length_flat_map_sum {A B} (f : A -> list B) l :
    length (flat_map f l) = list_sum (map (fun x => length (f x)) l).
  Proof. induction l; simpl; auto. rewrite app_length; congruence. Qed.
  Lemma list_sum_mul {A} (f : A -> nat) l k : list_sum (map (fun x => f x * k) l) = list_sum (map f l) * k.
  Proof. induction l; simpl; lia. Qed.

  Lemma dest_length i c : space_cell cs dim tags i c -> length (dest c) = reference_dofs dim dofs * comps.
  Proof.
    intros SC. unfold dest, reference_dofs. rewrite length_flat_map_sum, <- list_sum_mul. f_equal.
    apply map_ext_in. intros d Hd. apply in_seq in Hd.
    rewrite (length_flat_map_const _ _ (nth d dofs 0 * comps)).
    - destruct (so_good _ _ _ _ _ _ _ _ _ _ S) as (_ & _ & _ & _ & SP).
      destruct SC as (H1 & H2 & H3). rewrite (SP i c d) by (auto; lia). rewrite H2. lia.
    - intros j Hj. apply D_length. apply (sub_entity i c); auto. lia.
  Qed.

  Lemma dest_shared i c i' c' x : space_cell cs dim tags i c -> space_cell cs dim tags i' c' ->
    (In x (dest c) /\ In x (dest c') <->
     exists d j, d <= dim /\ In j (nth d (c_sub c) []) /\ In j (nth d (c_sub c') []) /\ In x (D d j)).
  Proof.
    intros SC SC'. split.
    - intros [H H']. apply In_dest in H as (d & j & Hd & Hj & Hx). apply In_dest in H' as (d' & j' & Hd' & Hj' & Hx').
      destruct (D_disjoint _ _ _ _ _ Hx Hx') as [-> ->]. exists d', j'; auto.
    - intros (d & j & Hd & Hj & Hj' & Hx). split; apply In_dest; exists d, j; auto.
  Qed.

  (** boundary *)
  Definition bdest (cb : cell) : list Z :=
    flat_map (fun d => flat_map (D d) (nth d (c_sub cb) [])) (seq 0 dim).

  Lemma layout_mean d : d <= dim -> exists lay, nth_error layout d = Some lay /\ int_mean lay = Ok (nth d dofs 0).
  Proof.
    intros Hd. pose proof (uniform_layout_mean _ _ (so_lay _ _ _ _ _ _ _ _ _ _ S)) as F.
    pose proof (so_len _ _ _ _ _ _ _ _ _ _ S) as L.
    assert (Hl : d < length layout) by lia. clear - F Hl. revert d Hl.
    induction F; intros [|d] Hl; simpl in *; try lia; eauto. apply IHF. lia.
  Qed.

  Lemma bc_eq i c b cb :
    space_cell cs dim tags i c -> cell_at cs b cb -> c_dim cb + 1 = dim ->
    In b (nth (c_dim cb) (c_sub c) []) ->
    bc_destination_indices m i b = Ok (bdest cb).
  Proof.
    intros SC Hb Hdb Hin. destruct (so_good _ _ _ _ _ _ _ _ _ _ S) as (CL & SI & TR & DS & SP).
    unfold bc_destination_indices. rewrite (so_mt _ _ _ _ _ _ _ _ _ _ S), (so_md _ _ _ _ _ _ _ _ _ _ S).
    rewrite (so_ml _ _ _ _ _ _ _ _ _ _ S).
    rewrite (to_cells _ _ _ _ (so_topo _ _ _ _ _ _ _ _ _ _ S)).
    rewrite (proj2 (cell_of_at cs i c) (proj1 SC)). cbn [bind].
    rewrite (proj2 (cell_of_at cs b cb) Hb). cbn [bind].
    rewrite (mapM_Ok_map _ (fun d => flat_map (D d) (nth d (c_sub cb) []))).
    - cbn [bind]. unfold bdest. replace dim with (Datatypes.S (c_dim cb)) by lia. apply np_concat_ok.
    - intros d Hd. apply in_seq in Hd. destruct (supports i c d SC) as (g & Eg & Es); [lia|].
      rewrite Eg. cbn [bind]. rewrite Es. cbn [bind].
      destruct (proj2 CL b cb Hb) as (_ & _ & Lb & _).
      unfold get_at at 1. rewrite (nth_error_nth' (c_sub cb) []) by lia. cbn [bind]. cbv zeta.
      destruct (layout_mean d) as (lay & El & Em); [lia|]. unfold get_at at 1. rewrite El. cbn [bind].
      rewrite Em. cbn [bind].
      assert (TRd : incl (nth d (c_sub cb) []) (nth d (c_sub c) [])).
      { destruct SC as (H1 & H2 & H3). eapply (TR i c b cb (c_dim cb) d); eauto; lia. }
      assert (FE : filter (fun s => memb (d, s) (map (pair d) (nth d (c_sub c) []))) (nth d (c_sub cb) [])
                   = nth d (c_sub cb) []).
      { clear - TRd. induction (nth d (c_sub cb) []) as [|a l IH]; simpl; auto.
        rewrite (proj2 (memb_In (d, a) (map (pair d) (nth d (c_sub c) [])))).
        - f_equal. apply IH. intros x Hx; apply TRd; right; auto.
        - apply in_map. apply TRd; left; auto. }
      unfold vid in *. rewrite FE.
      destruct (Nat.eqb_spec (nth d dofs 0) 0) as [Z0|NZ].
      + simpl. f_equal. symmetry.
        assert (HH : forall j, In j (nth d (c_sub cb) []) -> D d j = []).
        { intros j Hj. apply length_zero_iff_nil. rewrite D_length, Z0; auto.
          apply (sub_entity i c); auto. lia. }
        clear - HH. induction (nth d (c_sub cb) []); simpl; auto.
        rewrite HH by (left; auto). apply IHl. intros; apply HH; right; auto.
      + rewrite (mapM_Ok_map _ (D d)).
        * cbn [bind]. rewrite concat_map_flat. auto.
        * intros j Hj. apply D_ok. apply (sub_entity i c); auto. lia.
  Qed.
  Lemma bdest_incl i c b cb :
    space_cell cs dim tags i c -> cell_at cs b cb -> c_dim cb + 1 = dim ->
    In b (nth (c_dim cb) (c_sub c) []) -> incl (bdest cb) (dest c).
  Proof.
    intros SC Hb Hdb Hin x Hx. destruct (so_good _ _ _ _ _ _ _ _ _ _ S) as (CL & SI & TR & DS & SP).
    unfold bdest in Hx. apply in_flat_map in Hx as (d & Hd & Hx). apply in_seq in Hd.
    apply in_flat_map in Hx as (j & Hj & Hx). apply In_dest. exists d, j.
    split; [lia|]. split; auto. destruct SC as (H1 & H2 & H3). eapply (TR i c b cb (c_dim cb) d); eauto; lia.
  Qed.
  Lemma bdest_NoDup b cb : cell_at cs b cb -> c_dim cb + 1 = dim -> NoDup (bdest cb).
  Proof.
    intros Hb Hd. destruct (so_good _ _ _ _ _ _ _ _ _ _ S) as (CL & SI & TR & DS & SP).
    unfold bdest. apply NoDup_flat_map.
    - apply seq_NoDup.
    - intros d Hd'. apply in_seq in Hd'. apply NoDup_flat_map.
      + apply (DS b cb d); auto. lia.
      + intros; apply D_NoDup.
      + intros x y z _ _ Hx Hy. apply (D_disjoint _ _ _ _ _ Hx Hy).
    - intros d d' z _ _ Hz Hz'. apply in_flat_map in Hz as (j & _ & Hz).
      apply in_flat_map in Hz' as (j' & _ & Hz'). apply (D_disjoint _ _ _ _ _ Hz Hz').
  Qed.
  Lemma bc_dim0 i c b cb : dim = 0 -> space_cell cs dim tags i c -> cell_at cs b cb ->
    bc_destination_indices m i b = Err ValueError.
  Proof.
    intros E SC Hb. unfold bc_destination_indices. rewrite (so_mt _ _ _ _ _ _ _ _ _ _ S), (so_md _ _ _ _ _ _ _ _ _ _ S).
    rewrite (to_cells _ _ _ _ (so_topo _ _ _ _ _ _ _ _ _ _ S)).
    rewrite (proj2 (cell_of_at cs i c) (proj1 SC)). cbn [bind].
    rewrite (proj2 (cell_of_at cs b cb) Hb). cbn [bind]. rewrite E. reflexivity.
  Qed.

  (** discontinuous *)
  Lemma disc_dest i c : (forall d, d < dim -> nth d dofs 0 = 0) -> space_cell cs dim tags i c ->
    dest c = D dim i.
  Proof.
    intros Z0 SC. unfold dest. rewrite seq_app, flat_map_app. simpl.
    destruct (so_good _ _ _ _ _ _ _ _ _ _ S) as (CL & SI & TR & DS & SP).
    destruct SC as (H1 & H2 & H3).
    replace (nth dim (c_sub c) []) with [i] by (rewrite <- H2; symmetry; apply SI; auto).
    simpl. rewrite !app_nil_r.
    assert (forall l, (forall d, In d l -> d < dim) ->
       flat_map (fun d => flat_map (D d) (nth d (c_sub c) [])) l = []) as ->; auto.
    - induction l as [|d l IH]; simpl; intros Hl; auto. rewrite IH by (intros; apply Hl; auto).
      rewrite app_nil_r. assert (Hd : d < dim) by (apply Hl; auto).
      assert (HH : forall j, In j (nth d (c_sub c) []) -> D d j = []).
      { intros j Hj. apply length_zero_iff_nil. rewrite D_length, Z0; auto.
        apply (sub_entity i c); auto; [repeat split; auto|lia]. }
      clear - HH. induction (nth d (c_sub c) []); simpl; auto.
      rewrite HH by (left; auto). apply IHl. intros; apply HH; right; auto.
    - intros d Hd. apply in_seq in Hd. lia.
  Qed.
  Lemma disc_bdest i c b cb : (forall d, d < dim -> nth d dofs 0 = 0) ->
    space_cell cs dim tags i c -> cell_at cs b cb -> c_dim cb + 1 = dim ->
    In b (nth (c_dim cb) (c_sub c) []) -> bdest cb = [].
  Proof.
    intros Z0 SC Hb Hdb Hin. destruct (so_good _ _ _ _ _ _ _ _ _ _ S) as (CL & SI & TR & DS & SP).
    unfold bdest.
    assert (HH : forall d j, d < dim -> In j (nth d (c_sub cb) []) -> D d j = []).
    { intros d j Hd Hj. apply length_zero_iff_nil. rewrite D_length, Z0; auto.
      apply (sub_entity i c); auto; [lia|]. destruct SC as (H1 & H2 & H3).
      eapply (TR i c b cb (c_dim cb) d); eauto; lia. }
    assert (G : forall l, (forall d, In d l -> d < dim) ->
       flat_map (fun d => flat_map (D d) (nth d (c_sub cb) [])) l = []).
    { induction l as [|d l IH]; simpl; intros Hl; auto. rewrite IH by (intros; apply Hl; auto).
      rewrite app_nil_r. assert (Hd : d < dim) by (apply Hl; auto).
      specialize (fun j => HH d j Hd). clear - HH. induction (nth d (c_sub cb) []); simpl; auto.
      rewrite HH by (left; auto). apply IHl. intros; apply HH; right; auto. }
    apply G. intros d Hd. apply in_seq in Hd. lia.
  Qed.
End Space.

(** ** C18: the shift translates *)
Definition rmap {A B} (f : A -> B) (r : res A) : res B := match r with Ok a => Ok (f a) | Err e => Err e end.
Definition shift_map (s : Z) (d : dict nat (list Z)) : dict nat (list Z) :=
  map (fun kv => (fst kv, map (fun x => x + s)%Z (snd kv))) d.

Lemma dset_shift s d k v : dset (shift_map s d) k (map (fun x => x + s)%Z v) = shift_map s (dset d k v).
Proof.
  induction d as [|[a b] d IH]; simpl; auto. destruct (eq_dec k a); simpl; auto. rewrite IH; auto.
Qed.
Lemma dict_of_shift s l : dict_of (shift_map s l) = shift_map s (dict_of l).
Proof.
  unfold dict_of. change (@nil (nat * list Z)) with (shift_map s []) at 1. generalize (@nil (nat * list Z)).
  induction l as [|[a b] l IH]; simpl; intros d; auto. rewrite dset_shift. apply IH.
Qed.
Lemma combine_shift s ids parts :
  combine ids (map (map (fun x => x + s)%Z) parts) = shift_map s (combine ids parts).
Proof. revert parts; induction ids; destruct parts; simpl; auto. rewrite IHids; auto. Qed.
Lemma chunks_map {A B} (f : A -> B) k n l : chunks k n (map f l) = map (map f) (chunks k n l).
Proof. revert l; induction n; intros; simpl; auto. rewrite firstn_map, skipn_map, IHn; auto. Qed.
Lemma np_split_map {A B} (f : A -> B) l n : np_split (map f l) n = rmap (map (map f)) (np_split l n).
Proof. unfold np_split. rewrite map_length. destruct (_ =? 0); simpl; auto. rewrite chunks_map; auto. Qed.
Lemma entity_map_shift ids a b s : entity_map ids (a + s) (b + s) = rmap (shift_map s) (entity_map ids a b).
Proof.
  unfold entity_map. destruct (_ =? 0); auto. rewrite zrange_shift, np_split_map.
  destruct (np_split (zrange a b) (length ids)); simpl; auto.
  rewrite combine_shift, dict_of_shift. auto.
Qed.
Lemma mapM_rmap {A B C} (f : A -> res B) (g : A -> res C) (h : B -> C) l :
  (forall x, In x l -> g x = rmap h (f x)) -> mapM g l = rmap (map h) (mapM f l).
Proof.
  induction l; simpl; intros H; auto. rewrite H by auto. destruct (f a); simpl; auto.
  rewrite IHl by auto. destruct (mapM f l); simpl; auto.
Qed.

Definition shift_dofmap (s : Z) (m : dofmap) : dofmap :=
  mk_dofmap (dm_topo m) (dm_layout m) (dm_dim m) (map (shift_map s) (dm_maps m)) (dm_n m).

Lemma build_shift t layout dim comps s :
  build_entity_maps t layout dim comps s = rmap (shift_dofmap s) (build_entity_maps t layout dim comps 0).
Proof.
  unfold build_entity_maps. destruct (support_ids t dim) as [ids|]; cbn [bind rmap]; auto.
  destruct (scale_support layout comps _) as [sup|]; cbn [bind rmap]; auto.
  set (G := fun sh : Z => map (fun x => Z.of_nat x + sh)%Z (accumulate (0 :: sup))).
  cbv zeta. change (map (fun x => Z.of_nat x + s)%Z (accumulate (0 :: sup))) with (G s).
  change (map (fun x => Z.of_nat x + 0)%Z (accumulate (0 :: sup))) with (G 0%Z).
  assert (GA : forall d, get_at (G s) d = rmap (fun x => x + s)%Z (get_at (G 0%Z) d)).
  { intros d. unfold get_at, G. rewrite !nth_error_map. destruct (nth_error _ d); simpl; auto.
    f_equal. lia. }
  cbv zeta.
  match goal with |- bind (mapM ?g _) _ = rmap _ (bind (mapM ?f _) _) =>
    rewrite (mapM_rmap f g (shift_map s)) end.
  - destruct (mapM _ _); cbn [rmap bind]; auto.
  - intros d _. rewrite !GA. destruct (get_at ids d) as [i|]; cbn [bind]; auto.
    destruct (get_at (G 0%Z) d) as [a|]; cbn [bind rmap]; auto.
    destruct (get_at (G 0%Z) (d + 1)) as [b|]; cbn [bind rmap]; auto. apply entity_map_shift.
Qed.

Lemma dget_shift s d k : dget (shift_map s d) k = option_map (map (fun x => x + s)%Z) (dget d k).
Proof. induction d as [|[a b] d IH]; simpl; auto. destruct (eq_dec k a); simpl; auto. Qed.
Lemma dofs_of_shift s m d j : dofs_of (shift_dofmap s m) d j = rmap (map (fun x => x + s)%Z) (dofs_of m d j).
Proof.
  unfold dofs_of, get_at. simpl. rewrite nth_error_map. destruct (nth_error (dm_maps m) d) as [em|]; simpl; auto.
  rewrite dget_shift. destruct (dget em j); simpl; auto.
Qed.
Lemma concat_shift s (l : list (list Z)) : concat (map (map (fun x => x + s)%Z) l) = map (fun x => x + s)%Z (concat l).
Proof. rewrite concat_map. auto. Qed.
Lemma np_concat_shift s l :
  np_concatenate (map (map (fun x => x + s)%Z) l) = rmap (map (fun x => x + s)%Z) (np_concatenate l).
Proof. destruct l; auto. cbn [map np_concatenate rmap]. rewrite <- (concat_shift s (l :: l0)). auto. Qed.

Lemma destination_shift s m i :
  destination_indices (shift_dofmap s m) i = rmap (map (fun x => x + s)%Z) (destination_indices m i).
Proof.
  unfold destination_indices. cbn [shift_dofmap dm_topo dm_dim].
  destruct (cell_of _ i) as [c|]; cbn [bind]; auto.
  match goal with |- bind (mapM ?g _) _ = rmap _ (bind (mapM ?f _) _) =>
    rewrite (mapM_rmap f g (map (fun x => x + s)%Z)) end.
  - destruct (mapM _ _); cbn [rmap bind]; auto. apply np_concat_shift.
  - intros d _. destruct (entity_map_by_dimension _ d) as [g|]; cbn [bind]; auto.
    destruct (successors g _) as [sp|]; cbn [bind]; auto.
    rewrite (mapM_rmap (fun s0 : vid => dofs_of m d (snd s0)) _ (map (fun x => x + s)%Z)).
    + destruct (mapM _ sp); cbn [rmap bind]; auto. rewrite concat_shift; auto.
    + intros; apply (dofs_of_shift s m).
Qed.
Lemma bc_destination_shift s m i b :
  bc_destination_indices (shift_dofmap s m) i b = rmap (map (fun x => x + s)%Z) (bc_destination_indices m i b).
Proof.
  unfold bc_destination_indices. cbn [shift_dofmap dm_topo dm_dim dm_layout].
  destruct (cell_of _ i) as [c|]; cbn [bind]; auto.
  destruct (cell_of _ b) as [cb|]; cbn [bind]; auto.
  match goal with |- bind (mapM ?g _) _ = rmap _ (bind (mapM ?f _) _) =>
    rewrite (mapM_rmap f g (map (fun x => x + s)%Z)) end.
  - destruct (mapM _ _); cbn [rmap bind]; auto. apply np_concat_shift.
  - intros d _. destruct (entity_map_by_dimension _ d) as [g|]; cbn [bind]; auto.
    destruct (successors g _) as [sp|]; cbn [bind]; auto.
    destruct (get_at (c_sub cb) d) as [ids|]; cbn [bind]; auto. cbv zeta.
    destruct (get_at (dm_layout m) d) as [lay|]; cbn [bind]; auto.
    destruct (int_mean lay) as [e|]; cbn [bind]; auto.
    rewrite (mapM_rmap (dofs_of m d) _ (map (fun x => x + s)%Z)).
    + destruct (mapM _ _); cbn [rmap bind]; auto. rewrite concat_shift; auto.
    + intros; apply (dofs_of_shift s m).
Qed.

(** ** Statements used in P_Dof.v *)
Lemma C13_lemma cs dim tags dofs comps shift m :
  numbered_space cs dim tags dofs comps shift m ->
  (forall d j, space_entity cs dim tags d j <-> exists l, dofs_of m d j = Ok l) /\
  (forall d j l, dofs_of m d j = Ok l -> exists s, l = zrange s (s + Z.of_nat (nth d dofs 0 * comps))) /\
  (forall x, (shift <= x < shift + dof_number m)%Z <-> exists d j l, dofs_of m d j = Ok l /\ In x l) /\
  (forall d j l k d' j' l' k' x, dofs_of m d j = Ok l -> dofs_of m d' j' = Ok l' ->
     nth_error l k = Some x -> nth_error l' k' = Some x -> d = d' /\ j = j' /\ k = k').
Proof.
  intros N. destruct (numbered_space_ok _ _ _ _ _ _ _ N) as (t & lay & ids & S).
  split; [|split; [|split]].
  - exact (dofs_entity _ _ _ _ _ _ _ _ _ _ S).
  - exact (dofs_consecutive _ _ _ _ _ _ _ _ _ _ S).
  - exact (dofs_cover _ _ _ _ _ _ _ _ _ _ S).
  - exact (dofs_unique _ _ _ _ _ _ _ _ _ _ S).
Qed.
Lemma C14_lemma cs dim tags dofs comps shift m :
  numbered_space cs dim tags dofs comps shift m ->
  exists D : nat -> nat -> list Z,
    (forall d j, space_entity cs dim tags d j -> dofs_of m d j = Ok (D d j)) /\
    let dest c := flat_map (fun d => flat_map (D d) (nth d (c_sub c) [])) (seq 0 (dim + 1)) in
    (forall i c, space_cell cs dim tags i c -> destination_indices m i = Ok (dest c)) /\
    (forall i c i' c' x, space_cell cs dim tags i c -> space_cell cs dim tags i' c' ->
       (In x (dest c) /\ In x (dest c') <->
        exists d j, d <= dim /\ In j (nth d (c_sub c) []) /\ In j (nth d (c_sub c') []) /\ In x (D d j))).
Proof.
  intros N. destruct (numbered_space_ok _ _ _ _ _ _ _ N) as (t & lay & ids & S).
  exists (D m). split; [|split].
  - exact (D_ok _ _ _ _ _ _ _ _ _ _ S).
  - exact (destination_eq _ _ _ _ _ _ _ _ _ _ S).
  - exact (dest_shared _ _ _ _ _ _ _ _ _ _ S).
Qed.
Lemma C15_lemma cs dim tags dofs comps shift m :
  numbered_space cs dim tags dofs comps shift m ->
  forall i c, space_cell cs dim tags i c ->
  exists l, destination_indices m i = Ok l /\ NoDup l /\
    (forall x, In x l -> (shift <= x < shift + dof_number m)%Z) /\
    length l = reference_dofs dim dofs * comps.
Proof.
  intros N i c SC. destruct (numbered_space_ok _ _ _ _ _ _ _ N) as (t & lay & ids & S).
  exists (dest dim m c). split; [|split; [|split]].
  - exact (destination_eq _ _ _ _ _ _ _ _ _ _ S i c SC).
  - exact (dest_NoDup _ _ _ _ _ _ _ _ _ _ S i c SC).
  - intros x. exact (dest_range _ _ _ _ _ _ _ _ _ _ S i c x SC).
  - exact (dest_length _ _ _ _ _ _ _ _ _ _ S i c SC).
Qed.
Lemma C16_lemma cs dim tags dofs comps shift m :
  numbered_space cs dim tags dofs comps shift m ->
  exists D : nat -> nat -> list Z,
    (forall d j, space_entity cs dim tags d j -> dofs_of m d j = Ok (D d j)) /\
    forall b cb, cell_at cs b cb -> c_dim cb + 1 = dim ->
    forall i c, space_cell cs dim tags i c -> In b (nth (c_dim cb) (c_sub c) []) ->
    let l := flat_map (fun d => flat_map (D d) (nth d (c_sub cb) [])) (seq 0 dim) in
    bc_destination_indices m i b = Ok l /\
    exists l', destination_indices m i = Ok l' /\ incl l l'.
Proof.
  intros N. destruct (numbered_space_ok _ _ _ _ _ _ _ N) as (t & lay & ids & S).
  exists (D m). split; [exact (D_ok _ _ _ _ _ _ _ _ _ _ S)|].
  intros b cb Hb Hd i c SC Hin. split.
  - exact (bc_eq _ _ _ _ _ _ _ _ _ _ S i c b cb SC Hb Hd Hin).
  - exists (dest dim m c). split.
    + exact (destination_eq _ _ _ _ _ _ _ _ _ _ S i c SC).
    + exact (bdest_incl _ _ _ _ _ _ _ _ _ _ S i c b cb SC Hb Hd Hin).
Qed.
Lemma C16_independent_lemma cs dim tags dofs comps shift m b cb i c i' c' :
  numbered_space cs dim tags dofs comps shift m -> cell_at cs b cb -> c_dim cb + 1 = dim ->
  space_cell cs dim tags i c -> In b (nth (c_dim cb) (c_sub c) []) ->
  space_cell cs dim tags i' c' -> In b (nth (c_dim cb) (c_sub c') []) ->
  bc_destination_indices m i b = bc_destination_indices m i' b.
Proof.
  intros N Hb Hd SC Hin SC' Hin'. destruct (numbered_space_ok _ _ _ _ _ _ _ N) as (t & lay & ids & S).
  rewrite (bc_eq _ _ _ _ _ _ _ _ _ _ S i c b cb), (bc_eq _ _ _ _ _ _ _ _ _ _ S i' c' b cb); auto.
Qed.
Lemma C17_lemma cs dim tags dofs comps shift m :
  numbered_space cs dim tags dofs comps shift m ->
  (forall d, d < dim -> nth d dofs 0 = 0) ->
  (forall i c i' c' l l' x, space_cell cs dim tags i c -> space_cell cs dim tags i' c' -> i <> i' ->
     destination_indices m i = Ok l -> destination_indices m i' = Ok l' -> In x l -> ~ In x l') /\
  (forall i c b cb, space_cell cs dim tags i c -> cell_at cs b cb -> c_dim cb + 1 = dim ->
     In b (nth (c_dim cb) (c_sub c) []) -> bc_destination_indices m i b = Ok []).
Proof.
  intros N Z0. destruct (numbered_space_ok _ _ _ _ _ _ _ N) as (t & lay & ids & S). split.
  - intros i c i' c' l l' x SC SC' NE E E' H H'.
    rewrite (destination_eq _ _ _ _ _ _ _ _ _ _ S i c SC) in E.
    rewrite (destination_eq _ _ _ _ _ _ _ _ _ _ S i' c' SC') in E'.
    rewrite (disc_dest _ _ _ _ _ _ _ _ _ _ S i c Z0 SC) in E.
    rewrite (disc_dest _ _ _ _ _ _ _ _ _ _ S i' c' Z0 SC') in E'.
    injection E as <-. injection E' as <-.
    destruct (D_disjoint _ _ _ _ _ _ _ _ _ _ S _ _ _ _ _ H H'). contradiction.
  - intros i c b cb SC Hb Hd Hin. rewrite (bc_eq _ _ _ _ _ _ _ _ _ _ S i c b cb); auto.
    rewrite (disc_bdest _ _ _ _ _ _ _ _ _ _ S i c b cb); auto.
Qed.

Lemma C18_lemma t layout dim comps s :
  let shifted r := match r with Ok l => Ok (map (fun x => x + s)%Z l) | Err e => Err e end in
  match build_entity_maps t layout dim comps 0 with
  | Err e => build_entity_maps t layout dim comps s = Err e
  | Ok m0 => exists ms, build_entity_maps t layout dim comps s = Ok ms /\
      dof_number ms = dof_number m0 /\
      (forall d j, dofs_of ms d j = shifted (dofs_of m0 d j)) /\
      (forall i, destination_indices ms i = shifted (destination_indices m0 i)) /\
      (forall i b, bc_destination_indices ms i b = shifted (bc_destination_indices m0 i b))
  end.
Proof.
  intros shifted. pose proof (build_shift t layout dim comps s) as E.
  destruct (build_entity_maps t layout dim comps 0) as [m0|]; auto.
  exists (shift_dofmap s m0). split; [exact E|]. split; [reflexivity|]. split; [|split].
  - exact (dofs_of_shift s m0).
  - exact (destination_shift s m0).
  - exact (bc_destination_shift s m0).
Qed.
