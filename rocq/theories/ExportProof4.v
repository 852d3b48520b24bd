(** * Export of solutions: the writers *)
From Coq Require Import String List Arith Bool ZArith Lia Ring Field.
From Verif Require Import Base BaseProof MeshModel MeshSpec GraphModel GraphProof CutModel FormModel FormSpec FormProof FormProof2 DualModel
  PostModel PostSpec PostProof ExportModel ExportSpec ExportProof ExportProof2 ExportProof3.
Import ListNotations.
Open Scope list_scope.
Open Scope nat_scope.

Section Writers.
  Context {F : scalar} (HF : is_ring F) {P : Type}.
  Let HR : ring_theory (@k0 F) k1 kadd kmul ksub kopp eq := HF.
  Add Ring KringX : HR.

  (** *** On points *)
  Lemma values_length_fits : forall dim (fld : vtk_field F) (f : P -> arr F) x, fits dim fld f -> length (numbers (ravel_arr (f x))) = n_data dim fld.
  Proof. intros dim fld f x H. rewrite ravel_arr_values, n_data_width. apply H. Qed.

  Lemma point_he_ok : forall (m : mesh P) dim (sp : vtk_space F) (f : P -> arr F) alpha name fld tags,
    NoDup (dkeys (vs_fields sp)) -> In (name, fld) (vs_fields sp) -> good_points m -> on_nodes m dim sp alpha name fld tags -> fits dim fld f ->
    exists h e, point_he m dim sp f alpha name fld = Ok (h, e) /\
      node_rows m fld tags (repeat (Some k0) (width dim fld)) (averages dim alpha fld) h /\
      node_rows m fld tags (repeat (Some k0) (width dim fld)) (fun n _ => exact_at m f n) e.
  Proof.
    intros m dim sp f alpha name fld tags ND I GP ON FT.
    destruct (vertices_ok m fld tags GP (proj1 (proj2 (proj2 (proj1 ON))))) as (vs & V1 & V2 & V3 & V4).
    do 2 eexists. split; [|split; [exact (node_rows_fold m fld tags vs _ _ V1 V2 V3)|exact (node_rows_fold m fld tags vs _ _ V1 V2 V3)]].
    unfold point_he. rewrite V4, n_data_width. unfold filled. rewrite <- fold_pair.
    apply (foldM_upd (fun s => length (fst s) = length (m_points P m) /\ length (snd s) = length (m_points P m))); [|split; apply repeat_length].
    intros s v Hv (Hs & Hs'). destruct (V2 v Hv) as [W1 W2 W3 W4 W5].
    destruct (node_average_ok HF m dim sp alpha name fld tags (vx_node m v) (vx_preds fld v) (vx_adj m fld v) ND I GP ON W3 W4) as (M & E & VM).
    { intros c Hc. apply W5. exact Hc. }
    unfold exact_at. destruct (nth_error (m_points P m) (vx_node m v)) as [x|] eqn:EX; [|apply nth_error_None in EX; lia].
    unfold get_at. rewrite EX. cbn [bind]. rewrite E. cbn [bind ravel_mean]. rewrite (is_value_flat _ _ _ _ VM). fold (averages dim alpha fld (vx_node m v) (vx_adj m fld v)).
    rewrite (assign_ok _ (fst s)) by first [rewrite Hs; exact W2|apply averages_length]. cbn [bind].
    rewrite ravel_arr_values, (assign_ok _ (snd s)) by first [rewrite Hs'; exact W2|apply FT]. cbn [bind].
    split; [reflexivity|]. simpl. rewrite !set_at_length. split; assumption.
  Qed.

  Lemma allowed_tags_of : forall (sp : vtk_space F) name, allowed sp name = tags_of sp name.
  Proof. reflexivity. Qed.
  Lemma point_nan_ok : forall (m : mesh P) dim (sp : vtk_space F) (f : P -> arr F) alpha name fld tags,
    NoDup (dkeys (vs_fields sp)) -> In (name, fld) (vs_fields sp) -> good_points m -> on_nodes m dim sp alpha name fld tags -> fits dim fld f ->
    exists h e, point_nan m dim sp f alpha name fld = Ok (h, e) /\
      node_rows m fld tags (repeat None (width dim fld)) (averages dim alpha fld) h /\
      node_rows m fld tags (repeat None (width dim fld)) (fun n _ => exact_at m f n) e.
  Proof.
    intros m dim sp f alpha name fld tags ND I GP ON FT.
    destruct (vertices_ok m fld tags GP (proj1 (proj2 (proj2 (proj1 ON))))) as (vs & V1 & V2 & V3 & V4).
    do 2 eexists. split; [|split; [exact (node_rows_fold m fld tags vs _ _ V1 V2 V3)|exact (node_rows_fold m fld tags vs _ _ V1 V2 V3)]].
    unfold point_nan. rewrite V4, n_data_width. unfold filled. rewrite <- fold_pair.
    apply (foldM_upd (fun s => length (fst s) = length (m_points P m) /\ length (snd s) = length (m_points P m))); [|split; apply repeat_length].
    intros s v Hv (Hs & Hs'). destruct (V2 v Hv) as [W1 W2 W3 W4 W5].
    destruct (node_average_ok HF m dim sp alpha name fld tags (vx_node m v) (vx_preds fld v) (vx_adj m fld v) ND I GP ON W3 W4) as (M & E & VM).
    { intros c Hc. apply W5. exact Hc. }
    unfold exact_at. destruct (nth_error (m_points P m) (vx_node m v)) as [x|] eqn:EX; [|apply nth_error_None in EX; lia].
    unfold get_at. rewrite EX. cbn [bind].
    assert (AL : allowed sp name = tags) by (unfold allowed; rewrite (proj1 (proj2 (proj1 ON))); reflexivity).
    assert (QS : mapM (fun u : vid => do c <- cell_of (m_cells P m) (snd u); Ok (u, memb (c_mat c) (allowed sp name))) (vx_preds fld v) =
      Ok (map (fun u => (u, true)) (vx_preds fld v))).
    { rewrite AL. clear -W3 W5. assert (W : forall c, In c (vx_adj m fld v) -> In (c_mat c) tags) by (intros c Hc; apply W5 in Hc as ((_ & _ & K) & _); exact K).
      clear W5. revert W3 W. generalize (vx_adj m fld v). induction (vx_preds fld v) as [|u l IH]; intros adj W3 W; [reflexivity|]. cbn [mapM] in *.
      destruct (cell_of (m_cells P m) (snd u)) as [c|]; [|discriminate]. cbn [bind] in *.
      destruct (mapM (fun u0 : vid => cell_of (m_cells P m) (snd u0)) l) as [adj'|] eqn:E; [|discriminate]. cbn [bind] in W3. injection W3 as <-.
      rewrite (IH adj' eq_refl) by (intros; apply W; right; assumption). cbn [bind map]. rewrite (proj2 (memb_In _ _) (W c (or_introl eq_refl))). reflexivity. }
    rewrite QS. cbn [bind]. replace (map fst (filter snd (map (fun u : vid => (u, true)) (vx_preds fld v)))) with (vx_preds fld v).
    2:{ clear. induction (vx_preds fld v) as [|u l IH]; [reflexivity|]. simpl. rewrite <- IH. reflexivity. }
    destruct (vx_preds fld v) as [|u0 l0] eqn:EPR.
    { exfalso. apply W4. simpl in W3. injection W3 as W3. congruence. }
    rewrite E. cbn [bind ravel_mean]. rewrite (is_value_flat _ _ _ _ VM). fold (averages dim alpha fld (vx_node m v) (vx_adj m fld v)).
    rewrite (assign_ok _ (fst s)) by first [rewrite Hs; exact W2|apply averages_length]. cbn [bind].
    rewrite ravel_arr_values, (assign_ok _ (snd s)) by first [rewrite Hs'; exact W2|apply FT]. cbn [bind].
    split; [reflexivity|]. simpl. rewrite !set_at_length. split; assumption.
  Qed.

  Lemma norm_diff_ok : forall (ksqrt : F -> F) dim (fld : vtk_field F) a u v M, laid_out dim fld a u -> is_value dim fld v M ->
    norm_diff ksqrt a M = Ok (ksqrt (distance2 (comp_of fld) (entries dim fld) u v)).
  Proof.
    intros ksqrt dim fld a u v M L (H1 & H2 & H3). unfold norm_diff. rewrite H1, H2.
    assert (A : mt_rows (as_rows a) = comp_of fld /\ mt_cols (as_rows a) = entries dim fld /\ forall r d, r < comp_of fld -> mt_val (as_rows a) r d = u r d).
    { destruct a as [n f|N]; simpl in *; destruct L as (L1 & L2 & L3).
      - rewrite L1. repeat split; [exact L2|]. intros r d Hr. replace r with 0 by lia. symmetry. apply L3.
      - repeat split; [exact L1|exact L2|]. intros r d _. symmetry. apply L3. }
    destruct A as (A1 & A2 & A3). rewrite A1, A2, !broadcast_same. cbn [bind]. do 2 f_equal. unfold distance2. rewrite (Sum_ksum HF). apply ksum_ext. intros r Hr.
    rewrite (Sum_ksum HF). apply ksum_ext. intros d Hd. rewrite !axis_index_lt by assumption. rewrite A3, H3 by assumption. reflexivity.
  Qed.
  Lemma norm_diff_pairs : forall (ksqrt : F -> F) dim (fld : vtk_field F) n f v M, lagrange (vf_post fld) = true -> is_value dim fld v M ->
    n <> 1 -> comp_of fld <> 1 -> norm_diff ksqrt (Axis1 n f) M = Ok (ksqrt (pairs2 n (comp_of fld) f v)).
  Proof.
    intros ksqrt dim fld n f v M L (H1 & H2 & H3) N1 N2. unfold norm_diff. rewrite H1, H2. unfold entries, dirs_of in *. rewrite L in *. cbn [as_rows mt_rows mt_cols mt_val].
    unfold broadcast. destruct (Nat.eqb_spec 1 (comp_of fld)); [congruence|]. destruct (Nat.eqb_spec n 1); [congruence|].
    destruct (Nat.eqb_spec 1 1); [|congruence]. destruct (Nat.eqb_spec (comp_of fld) 1); [congruence|]. cbn [bind].
    do 2 f_equal. unfold pairs2. rewrite (Sum_ksum HF). apply ksum_ext. intros r Hr.
    rewrite (Sum_ksum HF). apply ksum_ext. intros d Hd. rewrite (axis_index_lt n d Hd), (axis_index_lt (comp_of fld) r Hr).
    replace (axis_index 1 d) with 0 by reflexivity. rewrite H3 by (try exact Hr; lia). reflexivity.
  Qed.
  Lemma point_error_ok : forall (ksqrt : F -> F) (m : mesh P) dim (sp : vtk_space F) (f : P -> arr F) (D : P -> (nat -> nat -> F) -> F) alpha name fld tags,
    NoDup (dkeys (vs_fields sp)) -> In (name, fld) (vs_fields sp) -> good_points m -> on_nodes m dim sp alpha name fld tags ->
    (forall x v M, is_value dim fld v M -> norm_diff ksqrt (f x) M = Ok (D x v)) ->
    exists data, point_error ksqrt m dim sp f alpha name fld = Ok data /\ node_rows m fld tags [Some k0] (error_row m alpha fld D) data.
  Proof.
    intros ksqrt m dim sp f D alpha name fld tags ND I GP ON LO.
    destruct (vertices_ok m fld tags GP (proj1 (proj2 (proj2 (proj1 ON))))) as (vs & V1 & V2 & V3 & V4).
    eexists. split; [|exact (node_rows_fold m fld tags vs _ _ V1 V2 V3)].
    unfold point_error. rewrite V4. unfold filled. apply (foldM_upd (fun s => length s = length (m_points P m))); [|apply repeat_length].
    intros s v Hv Hs. destruct (V2 v Hv) as [W1 W2 W3 W4 W5].
    destruct (node_average_ok HF m dim sp alpha name fld tags (vx_node m v) (vx_preds fld v) (vx_adj m fld v) ND I GP ON W3 W4) as (M & E & VM).
    { intros c Hc. apply W5. exact Hc. }
    unfold error_row. destruct (nth_error (m_points P m) (vx_node m v)) as [x|] eqn:EQ; [|apply nth_error_None in EQ; lia].
    unfold get_at. rewrite EQ. cbn [bind]. rewrite E. cbn [bind]. rewrite (LO x _ M VM). cbn [bind].
    split; [apply assign_ok; [rewrite Hs; exact W2|reflexivity]|rewrite set_at_length; exact Hs].
  Qed.

  (** *** On cells *)
  Context (centroid : list P -> P).
  Lemma centre_point_ok : forall (m : mesh P) c i, good_points m -> cell_at (m_cells P m) i c -> centre_point centroid m c = Ok (centroid (nodes_of m c)).
  Proof.
    intros m c i (CL & SI & VM & _) Hc. unfold centre_point, nodes_of.
    assert (L : forall n, In n (c_nodes c) -> n < length (m_points P m)).
    { intros n Hn. destruct (VM i c Hc) as (_ & V1 & V2). destruct (V2 n Hn) as (v & cv & X1 & X2 & X3). destruct (V1 v cv X1 X2) as (n' & Y1 & _ & Y2).
      rewrite X3 in Y1. injection Y1 as <-. exact Y2. }
    assert (X : mapM (get_at (m_points P m)) (c_nodes c) = Ok (flat_map (fun n => match nth_error (m_points P m) n with Some x => [x] | None => [] end) (c_nodes c))).
    { revert L. generalize (c_nodes c). induction l as [|n l IH]; intros L; [reflexivity|]. cbn [mapM flat_map]. unfold get_at at 1.
      destruct (nth_error (m_points P m) n) eqn:E; [|apply nth_error_None in E; specialize (L n (or_introl eq_refl)); lia]. cbn [bind].
      rewrite IH by (intros; apply L; right; assumption). reflexivity. }
    rewrite X. reflexivity.
  Qed.
  Lemma tops_cell : forall (m : mesh P) dim c, In c (tops (m_cells P m) dim) -> exists i, cell_at (m_cells P m) i c.
  Proof.
    intros m dim c H. apply filter_In in H as (H & _). apply in_flat_map in H as (s & H1 & H2). destruct s as [c0|]; [|destruct H2]. destruct H2 as [<-|[]].
    apply In_nth_error in H1 as (i & H1). exists i. exact H1.
  Qed.
  Lemma cell_he_ok : forall (m : mesh P) dim (sp : vtk_space F) (f : P -> arr F) alpha name fld,
    NoDup (dkeys (vs_fields sp)) -> In (name, fld) (vs_fields sp) -> good_points m -> on_cells dim sp alpha fld (tops (m_cells P m) dim) -> fits dim fld f ->
    cell_he centroid m dim sp f alpha name fld = Ok (map (centre_rows dim alpha fld) (tops (m_cells P m) dim), map (exact_row centroid m f) (tops (m_cells P m) dim)).
  Proof.
    intros m dim sp f alpha name fld ND I GP OC FT. unfold cell_he. rewrite (top_cells_ok m dim (proj1 GP)). cbn [bind]. unfold filled.
    apply over_cells_two. intros s i c Hc Hs Hs' Hi. destruct (cell_centered_ok HF dim sp alpha name fld _ c ND I OC Hc) as (M & E & V).
    destruct (tops_cell m dim c Hc) as (k & Hk). rewrite (centre_point_ok m c k GP Hk). cbn [bind]. rewrite E. cbn [bind]. rewrite (is_value_flat _ _ _ _ V), n_data_width.
    rewrite (assign_ok _ (fst s)) by first [rewrite Hs; exact Hi|apply centre_rows_length]. cbn [bind].
    rewrite ravel_arr_values, (assign_ok _ (snd s)) by first [rewrite Hs'; exact Hi|apply FT]. reflexivity.
  Qed.
  Lemma set_at_same_elem : forall {A} (l : list A) i x, nth_error l i = Some x -> set_at l i x = l.
  Proof. intros A l. induction l as [|y l IH]; intros [|i] x H; simpl in *; try congruence. rewrite IH by exact H. reflexivity. Qed.
  Lemma cell_nan_ok : forall (m : mesh P) dim (sp : vtk_space F) (f : P -> arr F) alpha name fld,
    NoDup (dkeys (vs_fields sp)) -> In (name, fld) (vs_fields sp) -> good_points m ->
    on_cells dim sp alpha fld (filter (fun c => if in_dec eq_dec (c_mat c) (tags_of sp name) then true else false) (tops (m_cells P m) dim)) -> fits dim fld f ->
    cell_nan centroid m (tops (m_cells P m) dim) dim sp f alpha name fld =
    Ok (map (nan_rows sp name dim fld (centre_rows dim alpha fld)) (tops (m_cells P m) dim), map (nan_rows sp name dim fld (exact_row centroid m f)) (tops (m_cells P m) dim)).
  Proof.
    intros m dim sp f alpha name fld ND I GP OC FT. unfold cell_nan, over_cells. set (cs := tops (m_cells P m) dim) in *. unfold filled. rewrite n_data_width.
    rewrite <- (map_as_fold (nan_rows sp name dim fld (centre_rows dim alpha fld)) cs (repeat None (width dim fld))).
    rewrite <- (map_as_fold (nan_rows sp name dim fld (exact_row centroid m f)) cs (repeat None (width dim fld))), <- fold_pair.
    assert (X : forall l l0 s, cs = l0 ++ l ->
      (length (fst s) = length cs /\ length (snd s) = length cs /\ forall i, length l0 <= i -> i < length cs -> nth_error (fst s) i = Some (repeat None (width dim fld)) /\ nth_error (snd s) i = Some (repeat None (width dim fld))) ->
      foldM (fun s ic => if memb (c_mat (snd ic)) (allowed sp name)
        then do x <- centre_point centroid m (snd ic); do f0 <- cell_centered dim sp alpha name fld (snd ic);
             do h <- assign (width dim fld) (fst s) (fst ic) (numbers (ravel f0)); do e <- assign (width dim fld) (snd s) (fst ic) (numbers (ravel_arr (f x))); Ok (h, e)
        else Ok s) (combine (seq (length l0) (length l)) l) s =
      Ok (fold_left (fun s ic => (set_at (fst s) (fst ic) (nan_rows sp name dim fld (centre_rows dim alpha fld) (snd ic)),
                                  set_at (snd s) (fst ic) (nan_rows sp name dim fld (exact_row centroid m f) (snd ic)))) (combine (seq (length l0) (length l)) l) s)).
    { induction l as [|c l IH]; intros l0 s EC (S1 & S2 & S3); [reflexivity|]. cbn [length seq combine foldM fold_left fst snd].
      assert (LT : length l0 < length cs) by (rewrite EC, app_length; simpl; lia).
      assert (Hc : In c cs) by (rewrite EC; apply in_or_app; right; left; reflexivity).
      assert (EC' : cs = (l0 ++ [c]) ++ l) by (rewrite <- app_assoc; exact EC).
      assert (NEXT : forall s1, length (fst s1) = length cs /\ length (snd s1) = length cs ->
         (forall i, length l0 < i -> nth_error (fst s1) i = nth_error (fst s) i /\ nth_error (snd s1) i = nth_error (snd s) i) ->
         forall i, S (length l0) <= i -> i < length cs -> nth_error (fst s1) i = Some (repeat None (width dim fld)) /\ nth_error (snd s1) i = Some (repeat None (width dim fld))).
      { intros s1 _ HN i Hi Hi'. destruct (HN i) as (-> & ->); [lia|]. apply S3; lia. }
      specialize (IH (l0 ++ [c])). rewrite app_length, Nat.add_1_r in IH.
      change (allowed sp name) with (tags_of sp name) in *. destruct (in_dec eq_dec (c_mat c) (tags_of sp name)) as [K|K].
      - assert (NR : forall row, nan_rows sp name dim fld row c = row c) by (intros row; unfold nan_rows; destruct (in_dec eq_dec (c_mat c) (tags_of sp name)); [reflexivity|contradiction]).
        rewrite !NR. rewrite (proj2 (memb_In _ _) K). destruct (cell_centered_ok HF dim sp alpha name fld _ c ND I OC) as (M & E & V).
        { apply filter_In. split; [exact Hc|]. destruct (in_dec eq_dec (c_mat c) (tags_of sp name)); [reflexivity|contradiction]. }
        destruct (tops_cell m dim c Hc) as (k & Hk). rewrite (centre_point_ok m c k GP Hk). cbn [bind]. rewrite E. cbn [bind]. rewrite (is_value_flat _ _ _ _ V).
        rewrite (assign_ok _ (fst s)) by first [rewrite S1; exact LT|apply centre_rows_length]. cbn [bind].
        rewrite ravel_arr_values, (assign_ok _ (snd s)) by first [rewrite S2; exact LT|apply FT]. cbn [bind].
        apply IH; [exact EC'|]. cbn [fst snd]. rewrite !set_at_length. split; [exact S1|]. split; [exact S2|].
        apply (NEXT (_, _)); [cbn [fst snd]; rewrite !set_at_length; split; assumption|]. intros i Hi. cbn [fst snd]. rewrite !nth_error_set_at_other by lia. split; reflexivity.
      - assert (NR : forall row, nan_rows sp name dim fld row c = repeat None (width dim fld)) by (intros row; unfold nan_rows; destruct (in_dec eq_dec (c_mat c) (tags_of sp name)); [contradiction|reflexivity]).
        rewrite !NR. rewrite (proj2 (memb_notIn _ _) K). cbn [bind]. destruct (S3 (length l0) (Nat.le_refl _) LT) as (Z1 & Z2).
        rewrite (set_at_same_elem _ _ _ Z1), (set_at_same_elem _ _ _ Z2). rewrite <- surjective_pairing.
        apply IH; [exact EC'|]. split; [exact S1|]. split; [exact S2|]. apply (NEXT s); [split; assumption|]. intros; split; reflexivity. }
    apply (X cs [] (repeat (repeat None (width dim fld)) (length cs), repeat (repeat None (width dim fld)) (length cs)) eq_refl). cbn [fst snd]. rewrite !repeat_length. split; [reflexivity|]. split; [reflexivity|]. intros i _ Hi. split; apply nth_error_repeat; exact Hi.
  Qed.
  Lemma cell_error_ok : forall (ksqrt : F -> F) (m : mesh P) dim (sp : vtk_space F) (f : P -> arr F) (D : P -> (nat -> nat -> F) -> F) alpha name fld,
    NoDup (dkeys (vs_fields sp)) -> In (name, fld) (vs_fields sp) -> good_points m -> on_cells dim sp alpha fld (tops (m_cells P m) dim) ->
    (forall x v M, is_value dim fld v M -> norm_diff ksqrt (f x) M = Ok (D x v)) ->
    cell_error centroid ksqrt m dim sp f alpha name fld =
    Ok (map (fun c => [Some (D (centroid (nodes_of m c)) (centre_value alpha fld c))]) (tops (m_cells P m) dim)).
  Proof.
    intros ksqrt m dim sp f D alpha name fld ND I GP OC LO. unfold cell_error. rewrite (top_cells_ok m dim (proj1 GP)). cbn [bind]. unfold filled.
    apply over_cells_ok. intros s i c Hc Hs Hi. destruct (cell_centered_ok HF dim sp alpha name fld _ c ND I OC Hc) as (M & E & V).
    destruct (tops_cell m dim c Hc) as (k & Hk). rewrite (centre_point_ok m c k GP Hk). cbn [bind]. rewrite E. cbn [bind].
    rewrite (LO _ _ M V). cbn [bind]. apply assign_ok; [lia|reflexivity].
  Qed.
End Writers.
