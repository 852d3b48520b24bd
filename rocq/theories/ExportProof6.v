(** * Export of solutions: meshes built from files, continuous functions, failures *)
From Coq Require Import String List Arith Bool ZArith Lia Ring Field Permutation.
From Verif Require Import Base BaseProof MeshModel MeshSpec MeshProof4 MeshProof5 GraphModel GraphProof CutModel FormModel FormSpec FormProof FormProof2 DualModel
  PostModel PostSpec PostProof ExportModel ExportSpec ExportProof ExportProof2 ExportProof3 ExportProof4.
Import ListNotations.
Open Scope list_scope.
Open Scope nat_scope.

(** *** Meshes built from a file *)
Lemma Forall2_in_l : forall {A B} (R : A -> B -> Prop) l l' x, Forall2 R l l' -> In x l -> exists y, In y l' /\ R x y.
Proof.
  intros A B R l l' x H. induction H as [|a b l l' Hab H IH]; intros I; [destruct I|]. destruct I as [<-|I].
  - exists b. split; [left; reflexivity|exact Hab].
  - destruct (IH I) as (y & H1 & H2). exists y. split; [right; exact H1|exact H2].
Qed.
Lemma conformal_points : forall {P} (m : mesh P) np blocks physical, well_shaped blocks -> build_conformal_mesh np blocks physical = Ok (m_cells P m) ->
  fully_tagged blocks physical -> all_points_used np blocks physical -> distinct_nodes blocks -> length (m_points P m) = np -> good_points m.
Proof.
  intros P m np blocks physical WS B FT AU DN LP. destruct (good_lemma _ _ _ _ WS B FT AU DN) as (CL & SI & _ & DS & _).
  destruct (C01_lemma _ _ _ _ WS B) as (L1 & L2 & L3 & _ & _ & _ & _ & _ & _ & _ & H1). pose proof (C04_lemma _ _ _ _ WS B) as H4.
  assert (V0 : forall v cv, cell_at (m_cells P m) v cv -> c_dim cv = 0 -> v < np /\ c_nodes cv = [v]).
  { intros v cv Hv D. destruct (H1 v cv Hv) as (_ & X0 & X1 & X2 & X3). destruct (Nat.lt_ge_cases v np) as [L|L]; [split; [exact L|exact (proj2 (X0 L))]|exfalso].
    destruct (Nat.lt_ge_cases v (np + length L1)) as [L'|L']; [destruct (X1 (conj L L')); congruence|].
    destruct (Nat.lt_ge_cases v (np + length L1 + length L2)) as [L2'|L2']; [destruct (X2 (conj L' L2')); congruence|]. destruct (X3 L2'); congruence. }
  split; [exact CL|]. split; [exact SI|]. split.
  2:{ intros v w cv cw Hv Hw D D' E. destruct (V0 v cv Hv D) as (_ & N1). destruct (V0 w cw Hw D') as (_ & N2). congruence. }
  intros i c Hc. destruct (H4 i c Hc) as (D3 & LN & _ & _ & SUB). specialize (SUB 0 (Nat.le_0_l _)).
  assert (EQ : nth 0 (c_sub c) [] = c_nodes c /\ forall v, In v (nth 0 (c_sub c) []) -> exists cv, cell_at (m_cells P m) v cv /\ c_dim cv = 0).
  { assert (X : forall l l', Forall2 (fun ix j => exists c', cell_at (m_cells P m) j c' /\ c_dim c' = 0 /\ Permutation (c_nodes c') (select (c_nodes c) ix)) (map (fun k => [k]) l) l' ->
      l' = map (fun k => nth k (c_nodes c) 0) l /\ forall v, In v l' -> exists cv, cell_at (m_cells P m) v cv /\ c_dim cv = 0).
    { clear -V0. induction l as [|k l IH]; intros l' H; inversion H as [|? j ? l2 (c' & Y1 & Y2 & Y3) H']; subst; [split; [reflexivity|intros ? []]|].
      destruct (IH _ H') as (-> & Z). destruct (V0 j c' Y1 Y2) as (_ & N). rewrite N in Y3. apply Permutation_length_1_inv in Y3. simpl in Y3. injection Y3 as Y3.
      split; [simpl; congruence|]. intros v [<-|Hv]; [exists c'; split; assumption|exact (Z v Hv)]. }
    assert (R : ref_sub (c_dim c) 0 = map (fun k => [k]) (seq 0 (length (c_nodes c)))).
    { rewrite LN. destruct (c_dim c) as [|[|[|[|d]]]]; try reflexivity. lia. }
    rewrite R in SUB. destruct (X _ _ SUB) as (X1 & X2). split; [|exact X2]. rewrite X1. clear. generalize (c_nodes c). intros l.
    apply (nth_ext _ _ 0 0); [rewrite map_length, seq_length; reflexivity|]. intros n Hn. rewrite map_length, seq_length in Hn.
    rewrite (nth_indep _ 0 (nth 0 l 0)) by (rewrite map_length, seq_length; exact Hn). rewrite (map_nth (fun k => nth k l 0)), seq_nth by exact Hn. reflexivity. }
  destruct EQ as (EQ & DM). split; [rewrite <- EQ; exact (DS i c 0 Hc (Nat.le_0_l _))|]. rewrite LP. split.
  - intros v cv Hv Hcv. destruct (DM v Hv) as (cv' & X1 & X2). assert (cv' = cv) by (unfold cell_at in *; congruence). subst cv'.
    destruct (V0 v cv Hcv X2) as (X3 & X4). exists v. split; [exact X4|]. split; [rewrite <- EQ; exact Hv|exact X3].
  - intros n Hn. rewrite <- EQ in Hn. destruct (DM n Hn) as (cv & X1 & X2). exists n, cv. split; [exact Hn|]. split; [exact X1|exact (proj2 (V0 n cv X1 X2))].
Qed.

(** *** Continuous functions *)
Section Continuous.
  Context {F : scalar} (HF : is_field F) {P : Type}.
  Let HFT : field_theory (@k0 F) k1 kadd kmul ksub kopp kdiv kinv eq := HF.
  Add Field KfieldY : HFT.
  Local Open Scope num_scope.

  Lemma count_total : forall n (v : F), total (repeat v n) = v * count n.
  Proof.
    intros n v. unfold count. rewrite (Sum_ksum (F_R HF)). induction n as [|n IH]; [simpl; ring|]. cbn [repeat]. unfold total in *. cbn [fold_right]. rewrite IH.
    simpl. ring.
  Qed.
  Lemma mean_repeat : forall n (v : F), count (F := F) n <> k0 -> mean (repeat v n) = v.
  Proof. intros n v H. unfold mean. rewrite repeat_length, count_total. field. exact H. Qed.
  Lemma continuous_rows : forall (m : mesh P) dim alpha (fld : vtk_field F) tags blank data,
    (forall k, 0 < k -> count (F := F) k <> k0) -> node_rows m fld tags blank (averages dim alpha fld) data ->
    forall n c, n < length (m_points P m) -> carries (m_cells P m) fld tags c -> In n (c_nodes c) ->
      (forall c' r d, carries (m_cells P m) fld tags c' -> In n (c_nodes c') -> r < comp_of fld -> d < entries dim fld ->
         vertex_value alpha fld n c' r d = vertex_value alpha fld n c r d) ->
      nth_error data n = Some (flat (comp_of fld) (entries dim fld) (vertex_value alpha fld n c)).
  Proof.
    intros m dim alpha fld tags blank data CH (_ & H) n c Hn C I AG. destruct (H n Hn) as (adj & (ND & AR) & E). rewrite E. f_equal.
    assert (NE : adj <> []) by (intros ->; exact (proj2 (AR c) (conj C I))). destruct adj as [|c0 adj0] eqn:EA; [congruence|]. rewrite <- EA in *. unfold averages.
    apply (flat_ext). intros r d Hr Hd. rewrite <- (mean_repeat (length adj) (vertex_value alpha fld n c r d)) by (apply CH; rewrite EA; simpl; lia). f_equal.
    assert (AL : forall c', In c' adj -> vertex_value alpha fld n c' r d = vertex_value alpha fld n c r d) by (intros c' Hc'; apply AR in Hc' as (A1 & A2); apply AG; assumption).
    clear -AL. induction adj as [|x adj IH]; [reflexivity|]. cbn [map length repeat]. rewrite (AL x (or_introl eq_refl)), IH by (intros; apply AL; right; assumption). reflexivity.
  Qed.
End Continuous.

(** *** Failures *)
Section Failures.
  Context {F : scalar} {P : Type}.
  Lemma foldM_in_fails : forall {A S} (f : S -> A -> res S) l x, In x l -> (forall s r, f s x <> Ok r) -> forall s r, foldM f l s <> Ok r.
  Proof. intros A S f l x I H s r. exact (foldM_fails f l x s I H r). Qed.
  Lemma mapM_all : forall {A B} (f : A -> res B) l r, mapM f l = Ok r -> Forall2 (fun a b => f a = Ok b) l r.
  Proof.
    intros A B f l. induction l as [|x l IH]; intros r E; cbn [mapM] in E; [injection E as <-; constructor|].
    destruct (f x) as [y|] eqn:Ex; [|discriminate]. destruct (mapM f l) as [ys|]; [|discriminate]. injection E as <-. constructor; [exact Ex|apply IH; reflexivity].
  Qed.

  (** a field with more components than the mesh has dimensions *)
  Lemma value_h_shape : forall dim (sp : vtk_space F) alpha name fld c t M,
    NoDup (dkeys (vs_fields sp)) -> In (name, fld) (vs_fields sp) -> usable sp alpha fld c t -> lagrange (vf_post fld) = true ->
    value_h dim sp alpha name fld (element_of fld c) t = Ok M -> mt_rows M = Nat.min dim (comp_of fld) /\ mt_cols M = 1.
  Proof.
    intros dim sp alpha name fld c t M ND I U L E. destruct (local_table sp alpha name fld c t ND I U) as (_ & pe & a & _ & E2 & _).
    unfold value_h in E. rewrite E2 in E. cbn [bind fst snd] in E. rewrite is_lagrange_eq, L in E. injection E as <-. split; reflexivity.
  Qed.
  Lemma node_average_shape : forall (m : mesh P) dim (sp : vtk_space F) alpha name fld tags n ps adj x,
    NoDup (dkeys (vs_fields sp)) -> In (name, fld) (vs_fields sp) -> good_points m -> node_readable m sp alpha name fld tags -> lagrange (vf_post fld) = true ->
    mapM (fun u : vid => cell_of (m_cells P m) (snd u)) ps = Ok adj -> adj <> [] ->
    (forall c, In c adj -> carries (m_cells P m) fld tags c /\ In n (c_nodes c)) ->
    node_average m dim sp alpha name fld n ps = Ok x -> exists M, x = Some M /\ mt_rows M = Nat.min dim (comp_of fld) /\ mt_cols M = 1.
  Proof.
    intros m dim sp alpha name fld tags n ps adj x ND I (CL & SI & VM & _) (_ & HT & _ & HU) L EM NE HA E. unfold node_average in E. rewrite EM in E. cbn [bind] in E.
    destruct (mapM (cell_at_node dim sp alpha name fld n) adj) as [l|] eqn:EL; [|discriminate]. cbn [bind] in E. apply mapM_all in EL.
    destruct EL as [|c vs adj l H EL]; [congruence|]. destruct (HA c (or_introl eq_refl)) as (C & K). pose proof (HU c n C K) as U.
    destruct (local_table sp alpha name fld c _ ND I U) as (E3 & _). destruct C as ((i & C1) & C2 & C3).
    unfold cell_at_node in H. unfold dindex at 1 in H. rewrite HT in H. cbn [bind] in H. rewrite (proj2 (memb_In _ _) C3), E3 in H. cbn [bind] in H.
    rewrite positions_place in H; [|exact (proj1 (VM i c C1))|exact K]. unfold table_at in U.
    destruct (value_h dim sp alpha name fld (element_of fld c) (vf_vertex fld (element_of fld c) (place n (c_nodes c)))) as [v|] eqn:EV; [|discriminate]. injection H as <-.
    destruct (value_h_shape dim sp alpha name fld c _ v ND I U L EV) as (S1 & S2).
    cbn [concat app] in E. unfold mean_of in E. destruct (forallb (same_shape v) (v :: concat l)); [|discriminate]. injection E as <-.
    eexists. split; [reflexivity|]. split; [exact S1|exact S2].
  Qed.
  Lemma ravel_length : forall M : mat F, length (ravel M) = mt_rows M * mt_cols M.
  Proof.
    intros M. unfold ravel. generalize (mt_rows M). intros n. cut (forall s, length (flat_map (fun r => map (mt_val M r) (seq 0 (mt_cols M))) (seq s n)) = n * mt_cols M); [intros X; apply X|].
    induction n as [|n IH]; intros s; [reflexivity|]. cbn [seq flat_map]. rewrite app_length, map_length, seq_length, IH. reflexivity.
  Qed.
  Lemma components_never : forall (m : mesh P) dim (sp : vtk_space F) alpha centred name fld c n,
    NoDup (dkeys (vs_fields sp)) -> In (name, fld) (vs_fields sp) -> ~ In name centred -> good_points m -> node_readable m sp alpha name fld (tags_of sp name) ->
    lagrange (vf_post fld) = true -> dim < comp_of fld -> dim <> 1 -> carries (m_cells P m) fld (tags_of sp name) c -> In n (c_nodes c) ->
    forall file, write_vtk_file m dim sp alpha centred <> Ok file.
  Proof.
    intros m dim sp alpha centred name fld c n ND I NC GP NR L CD D1 C K file E. unfold write_vtk_file in E.
    match type of E with bind ?f _ = _ => destruct f as [pc|] eqn:EF; [|discriminate E] end. clear E. revert EF. apply (foldM_in_fails _ _ (name, fld) I). clear file pc. intros s r. cbn [fst snd].
    rewrite (proj2 (memb_notIn _ _) NC). destruct (point_h m dim sp alpha name fld) as [d|] eqn:EP; [|discriminate]. exfalso. revert EP. unfold point_h.
    destruct (vertices_ok m fld _ GP (proj1 (proj2 (proj2 NR)))) as (vs & V1 & V2 & V3 & V4). rewrite V4.
    pose proof (V3 n c C K) as HV. apply in_map_iff in HV as (v & Nv & Hv). apply (foldM_in_fails _ _ v Hv). intros s0 r0 E.
    destruct (V2 v Hv) as [W1 W2 W3 W4 W5].
    destruct (node_average m dim sp alpha name fld (vx_node m v) (vx_preds fld v)) as [x|] eqn:EN; [|discriminate]. cbn [bind] in E.
    destruct (node_average_shape m dim sp alpha name fld _ _ _ _ x ND I GP NR L W3 W4 (fun c0 H0 => proj1 (proj2 W5 c0) H0) EN) as (M & -> & S1 & S2).
    unfold assign in E. destruct (get_at s0 (vx_node m v)); [|discriminate]. cbn [bind] in E. unfold fit in E.
    assert (LN : length (ravel_mean (Some M)) = dim) by (cbn [ravel_mean]; unfold numbers; rewrite map_length, ravel_length, S1, S2; lia).
    assert (NDT : n_data dim fld = comp_of fld) by (unfold n_data; rewrite is_lagrange_eq, L; reflexivity).
    rewrite LN, NDT in E. destruct (Nat.eqb_spec dim (comp_of fld)) as [Q|Q]; [lia|]. destruct (ravel_mean (Some M)) as [|y [|y' l9]]; [discriminate|simpl in LN; congruence|discriminate].
  Qed.

  (** cell data on a cell the field does not have *)
  Lemma cell_needs : forall (m : mesh P) dim (sp : vtk_space F) alpha centred name fld c,
    closed_mesh (m_cells P m) -> In (name, fld) (vs_fields sp) -> In name centred -> In c (tops (m_cells P m) dim) -> dget (vf_ids fld) (c_id c) = None ->
    forall file, write_vtk_file m dim sp alpha centred <> Ok file.
  Proof.
    intros m dim sp alpha centred name fld c CL I NC C D file E. unfold write_vtk_file in E.
    match type of E with bind ?f _ = _ => destruct f as [pc|] eqn:EF; [|discriminate E] end. clear E. revert EF. apply (foldM_in_fails _ _ (name, fld) I). clear file pc. intros s r. cbn [fst snd].
    rewrite (proj2 (memb_In _ _) NC). destruct (cell_h m dim sp alpha name fld) as [d|] eqn:EP; [|discriminate]. exfalso. revert EP. unfold cell_h.
    rewrite (top_cells_ok m dim CL). cbn [bind]. unfold over_cells. apply In_nth_error in C as (i & C).
    assert (IN : In (i, c) (combine (seq 0 (length (tops (m_cells P m) dim))) (tops (m_cells P m) dim))).
    { apply (nth_error_In _ i). revert C. generalize (tops (m_cells P m) dim). intros l0.
      assert (X : forall l k i, nth_error l i = Some c -> nth_error (combine (seq k (length l)) l) i = Some (k + i, c)).
      { clear. induction l as [|x l' IH]; intros k [|i] H; try discriminate; simpl in *; [rewrite Nat.add_0_r; congruence|]. rewrite (IH _ _ H). f_equal. f_equal. lia. }
      intros H. exact (X l0 0 i H). }
    apply (foldM_in_fails _ _ (i, c) IN). intros s0 r0. cbn [fst snd]. unfold cell_centered, dindex. rewrite D. discriminate.
  Qed.

  (** nodes of a field that has no tags *)
  Lemma tag_needs : forall (m : mesh P) dim (sp : vtk_space F) alpha centred name fld tags c n,
    In (name, fld) (vs_fields sp) -> ~ In name centred -> good_points m ->
    (exists fuel mesh_dim, build_data_on_physical_tags (S fuel) (m_cells P m) mesh_dim (vf_dim fld) tags = Ok (vf_topology fld)) ->
    carries (m_cells P m) fld tags c -> In n (c_nodes c) -> dget (vs_tags sp) name = None ->
    forall file, write_vtk_file m dim sp alpha centred <> Ok file.
  Proof.
    intros m dim sp alpha centred name fld tags c n I NC GP HT C K D file E. unfold write_vtk_file in E.
    match type of E with bind ?f _ = _ => destruct f as [pc|] eqn:EF; [|discriminate E] end. clear E. revert EF. apply (foldM_in_fails _ _ (name, fld) I). clear file pc. intros s r. cbn [fst snd].
    rewrite (proj2 (memb_notIn _ _) NC). destruct (point_h m dim sp alpha name fld) as [d|] eqn:EP; [|discriminate]. exfalso. revert EP. unfold point_h.
    destruct (vertices_ok m fld _ GP HT) as (vs & V1 & V2 & V3 & V4). rewrite V4.
    pose proof (V3 n c C K) as HV. apply in_map_iff in HV as (v & Nv & Hv). apply (foldM_in_fails _ _ v Hv). intros s0 r0 E.
    destruct (V2 v Hv) as [W1 W2 W3 W4 W5]. unfold node_average in E. rewrite W3 in E. cbn [bind] in E. destruct (vx_adj m fld v) as [|c0 adj]; [congruence|].
    cbn [mapM] in E. unfold cell_at_node at 1, dindex at 1 in E. rewrite D in E. discriminate.
  Qed.

  (** a field without exact function *)
  Lemma function_needs : forall centroid (ksqrt : F -> F) (m : mesh P) dim (sp : vtk_space F) functions alpha centred name fld,
    In (name, fld) (vs_fields sp) -> dget functions name = None ->
    (forall file, write_vtk_file_with_exact_solution centroid m dim sp functions alpha centred <> Ok file) /\
    (forall file, write_pointwise_l2_error centroid ksqrt m dim sp functions alpha centred <> Ok file) /\
    (forall sps file, In sp sps -> write_fe_spaces centroid m dim sps functions alpha centred <> Ok file).
  Proof.
    intros centroid ksqrt m dim sp functions alpha centred name fld I D. split; [|split].
    - intros file E. unfold write_vtk_file_with_exact_solution in E. match type of E with bind ?f _ = _ => destruct f as [pc|] eqn:EF; [|discriminate E] end. clear E. revert EF.
      apply (foldM_in_fails _ _ (name, fld) I). intros s r. cbn [fst snd]. unfold dindex. rewrite D. discriminate.
    - intros file E. unfold write_pointwise_l2_error in E. match type of E with bind ?f _ = _ => destruct f as [pc|] eqn:EF; [|discriminate E] end. clear E. revert EF.
      apply (foldM_in_fails _ _ (name, fld) I). intros s r. cbn [fst snd]. unfold dindex. rewrite D. discriminate.
    - intros sps file Isp E. unfold write_fe_spaces in E. destruct (top_cells m dim) as [cs|]; [|discriminate]. cbn [bind] in E. destruct (cell_type dim) as [ty|]; [|discriminate].
      cbn [bind] in E. match type of E with bind ?f _ = _ => destruct f as [pc|] eqn:EF; [|discriminate E] end. clear E. revert EF.
      apply (foldM_in_fails _ _ sp Isp). intros s r. apply (foldM_in_fails _ _ (name, fld) I). intros s0 r0. cbn [fst snd]. unfold dindex. rewrite D. discriminate.
  Qed.
End Failures.
