(** * Export of solutions: the arrays *)
From Coq Require Import String List Arith Bool ZArith Lia Ring Field.
From Verif Require Import Base BaseProof MeshModel MeshSpec GraphModel GraphProof CutModel FormModel FormSpec FormProof FormProof2 DualModel
  PostModel PostSpec PostProof ExportModel ExportSpec ExportProof.
Import ListNotations.
Open Scope list_scope.
Open Scope nat_scope.

Lemma is_lagrange_eq : forall {F : scalar} (f : post_field F), is_lagrange (pf_family f) = lagrange f.
Proof. intros F f. unfold lagrange. destruct (pf_family f); reflexivity. Qed.
Lemma flat_map_ext_in : forall {A B} (f g : A -> list B) l, (forall x, In x l -> f x = g x) -> flat_map f l = flat_map g l.
Proof. intros A B f g l H. induction l as [|x l IH]; [reflexivity|]. simpl. rewrite H by (left; reflexivity). rewrite IH by (intros; apply H; right; assumption). reflexivity. Qed.

Section Arrays.
  Context {F : scalar} (HF : is_ring F) {P : Type}.
  Let HR : ring_theory (@k0 F) k1 kadd kmul ksub kopp eq := HF.
  Add Ring KringW : HR.

  Lemma flat_ext : forall rows cols (u v : nat -> nat -> F), (forall r d, r < rows -> d < cols -> u r d = v r d) -> flat rows cols u = flat rows cols v.
  Proof.
    intros rows cols u v H. unfold flat. apply flat_map_ext_in. intros r Hr. apply in_seq in Hr. apply map_ext_in. intros d Hd. apply in_seq in Hd.
    rewrite H by lia. reflexivity.
  Qed.
  Lemma flat_length : forall rows cols (u : nat -> nat -> F), length (flat rows cols u) = rows * cols.
  Proof.
    intros rows cols u. unfold flat. assert (X : forall l, length (flat_map (fun r => map (fun d => Some (u r d)) (seq 0 cols)) l) = length l * cols).
    { induction l as [|x l IH]; [reflexivity|]. simpl. rewrite app_length, map_length, seq_length, IH. reflexivity. }
    rewrite X, seq_length. reflexivity.
  Qed.
  Lemma ravel_flat : forall m : mat F, numbers (ravel m) = flat (mt_rows m) (mt_cols m) (mt_val m).
  Proof.
    intros m. unfold numbers, ravel, flat. induction (seq 0 (mt_rows m)) as [|r l IH]; [reflexivity|]. simpl. rewrite map_app, IH, map_map. reflexivity.
  Qed.
  Lemma ravel_arr_values : forall a : arr F, numbers (ravel_arr a) = values_of a.
  Proof. intros [n f|m]; simpl; [unfold numbers; rewrite map_map; reflexivity|apply ravel_flat]. Qed.
  Lemma n_data_width : forall dim (fld : vtk_field F), n_data dim fld = width dim fld.
  Proof. intros. unfold n_data, width, entries, dirs_of, comp_of. rewrite is_lagrange_eq. destruct (lagrange (vf_post fld)); lia. Qed.

  Lemma local_table : forall (sp : vtk_space F) alpha name fld c t,
    NoDup (dkeys (vs_fields sp)) -> In (name, fld) (vs_fields sp) -> usable sp alpha fld c t ->
    dindex (vf_ids fld) (c_id c) = Ok (element_of fld c) /\
    exists pe a, nth_error (elements_of fld) (element_of fld c) = Some pe /\
      local_coefficients (vs_post sp) alpha 0 name (element_of fld c) (t_nphi t) = Ok (comp_of fld, a) /\
      forall k r, k < t_nphi t -> r < comp_of fld -> a k r = coefficient alpha 0 (comp_of fld) pe k r.
  Proof.
    intros sp alpha name fld c t ND I (i & pe & U1 & U2 & U3 & U4 & U5 & U6).
    unfold dindex, element_of. rewrite U1. split; [reflexivity|]. exists pe.
    destruct (destinations_ok (vs_post sp) i name (vf_post fld) pe) as (dests & D1 & D2).
    - unfold vs_post, dkeys. simpl. rewrite map_map. exact ND.
    - simpl. apply in_map_iff. exists (name, fld). split; [reflexivity|exact I].
    - exact U2.
    - intros nf Hnf. simpl in Hnf. apply in_map_iff in Hnf as (nf' & <- & Hnf). exact (U6 nf' Hnf).
    - unfold local_coefficients. rewrite D1. cbn [bind]. rewrite D2. cbn [bind].
      rewrite (mapM_ok _ (fun d => nth d alpha k0)).
      2:{ intros d Hd. rewrite Nat.add_0_r. unfold get_at. rewrite (nth_error_nth' alpha k0) by (apply U5; exact Hd). reflexivity. }
      cbn [bind]. rewrite map_length, U4.
      replace (t_nphi t * comp_of fld) with (comp_of fld * t_nphi t) by lia.
      rewrite Nat.mod_mul, Nat.eqb_refl, Nat.div_mul by lia.
      eexists. split; [exact U2|]. split; [reflexivity|]. intros k r Hk Hr. unfold coefficient. rewrite Nat.add_0_r.
      rewrite (nth_indep _ k0 (nth 0 alpha k0)).
      + exact (map_nth (fun d => nth d alpha k0) (dofs_of pe) 0 (k * comp_of fld + r)).
      + rewrite map_length, U4. nia.
  Qed.

  (** the value at the point of a table *)
  Definition is_value (dim : nat) (fld : vtk_field F) (v : nat -> nat -> F) (M : mat F) : Prop :=
    mt_rows M = comp_of fld /\ mt_cols M = entries dim fld /\
    forall r d, r < comp_of fld -> d < entries dim fld -> mt_val M r d = v r d.
  Lemma value_h_ok : forall dim (sp : vtk_space F) alpha name fld c t,
    NoDup (dkeys (vs_fields sp)) -> In (name, fld) (vs_fields sp) -> usable sp alpha fld c t -> shapely dim fld t ->
    exists M, value_h dim sp alpha name fld (element_of fld c) t = Ok M /\ is_value dim fld (value_in alpha fld c t) M.
  Proof.
    intros dim sp alpha name fld c t ND I U S. destruct (local_table sp alpha name fld c t ND I U) as (_ & pe & a & E1 & E2 & E3).
    unfold value_h. rewrite E2. cbn [bind fst snd]. rewrite is_lagrange_eq. unfold is_value, value_in, at_point, entries, dirs_of. unfold shapely in S.
    destruct (lagrange (vf_post fld)) eqn:L.
    - eexists. split; [reflexivity|]. simpl. split; [lia|]. split; [reflexivity|]. intros r d Hr Hd. replace d with 0 by lia.
      rewrite E1, (Sum_ksum HF). unfold scalar_h. apply ksum_ext. intros k Hk. rewrite E3 by assumption. ring.
    - unfold vector_rows. change (pf_comp (vf_post fld)) with (comp_of fld). destruct (Nat.eqb_spec (comp_of fld) 0); [lia|].
      rewrite Nat.ltb_irrefl. cbn [bind]. eexists. split; [reflexivity|]. simpl. split; [reflexivity|]. split; [unfold cols; lia|].
      intros r d Hr Hd. rewrite E1, (Sum_ksum HF). unfold vector_h. apply ksum_ext. intros k Hk. rewrite E3 by assumption. ring.
  Qed.
  Lemma is_value_flat : forall dim (fld : vtk_field F) v M, is_value dim fld v M -> numbers (ravel M) = flat (comp_of fld) (entries dim fld) v.
  Proof. intros dim fld v M (H1 & H2 & H3). rewrite ravel_flat, H1, H2. apply flat_ext. exact H3. Qed.

  (** means *)
  Lemma of_count_count : forall n, of_count (F := F) n = count n.
  Proof. intros n. unfold of_count, count. rewrite (Sum_ksum HF). reflexivity. Qed.
  Lemma mean_ok : forall dim (fld : vtk_field F) {A} (v : A -> nat -> nat -> F) (Ms : list (mat F)) (xs : list A),
    Forall2 (fun x M => is_value dim fld (v x) M) xs Ms -> xs <> [] ->
    exists M, mean_of Ms = Ok (Some M) /\ is_value dim fld (fun r d => mean (map (fun x => v x r d) xs)) M.
  Proof.
    intros dim fld A v Ms xs H N. destruct Ms as [|M0 Ms]; [inversion H; congruence|].
    assert (SH : forall M, In M (M0 :: Ms) -> mt_rows M = comp_of fld /\ mt_cols M = entries dim fld).
    { clear N. intros M HM. revert HM. induction H as [|x M' xs Ms' (V1 & V2 & _) _ IH]; intros HM; [destruct HM|]. destruct HM as [<-|HM]; [tauto|exact (IH HM)]. }
    unfold mean_of. assert (FB : forallb (same_shape M0) (M0 :: Ms) = true).
    { apply forallb_forall. intros M HM. unfold same_shape. destruct (SH M HM) as (-> & ->). destruct (SH M0 (or_introl eq_refl)) as (-> & ->).
      rewrite !Nat.eqb_refl. reflexivity. }
    rewrite FB. eexists. split; [reflexivity|]. unfold is_value. cbn [mt_rows mt_cols mt_val].
    destruct (SH M0 (or_introl eq_refl)) as (-> & ->). split; [reflexivity|]. split; [reflexivity|]. intros r d Hr Hd.
    assert (LEN : length (M0 :: Ms) = length xs) by (clear -H; induction H; simpl; [reflexivity|congruence]).
    unfold kdiv, mean. rewrite of_count_count, map_length, LEN. f_equal.
    clear -H Hr Hd. induction H as [|x M xs1 Ms1 (_ & _ & V) _ IH]; [reflexivity|]. cbn [map fold_right]. unfold total in *. cbn [fold_right]. rewrite (V r d Hr Hd), IH. reflexivity.
  Qed.

  Lemma node_average_ok : forall (m : mesh P) dim (sp : vtk_space F) alpha name fld tags n ps adj,
    NoDup (dkeys (vs_fields sp)) -> In (name, fld) (vs_fields sp) -> good_points m -> on_nodes m dim sp alpha name fld tags ->
    mapM (fun u : vid => cell_of (m_cells P m) (snd u)) ps = Ok adj -> adj <> [] ->
    (forall c, In c adj -> carries (m_cells P m) fld tags c /\ In n (c_nodes c)) ->
    exists M, node_average m dim sp alpha name fld n ps = Ok (Some M) /\
      is_value dim fld (fun r d => mean (map (fun c => vertex_value alpha fld n c r d) adj)) M.
  Proof.
    intros m dim sp alpha name fld tags n ps adj ND I (CL & SI & VM & _) ((_ & HT & _ & HU1) & HU2) EM NE HA.
    assert (HU : forall c n, carries (m_cells P m) fld tags c -> In n (c_nodes c) -> usable sp alpha fld c (table_at fld c n) /\ shapely dim fld (table_at fld c n)) by (intros; split; auto).
    unfold node_average. rewrite EM. cbn [bind].
    assert (X : exists Ms, mapM (cell_at_node dim sp alpha name fld n) adj = Ok (map (fun M => [M]) Ms) /\
      Forall2 (fun c M => is_value dim fld (vertex_value alpha fld n c) M) adj Ms).
    { clear EM NE. induction adj as [|c adj IH]; [exists []; split; [reflexivity|constructor]|].
      destruct IH as (Ms & E & H2); [intros; apply HA; right; assumption|].
      destruct (HA c (or_introl eq_refl)) as (C & K). destruct (HU c n C K) as (U & S).
      destruct (value_h_ok dim sp alpha name fld c _ ND I U S) as (M & E1 & E2). destruct (local_table sp alpha name fld c _ ND I U) as (E3 & _).
      exists (M :: Ms). split; [|constructor; assumption]. cbn [mapM map].
      assert (EC : cell_at_node dim sp alpha name fld n c = Ok [M]).
      { unfold cell_at_node. unfold dindex at 1. rewrite HT. cbn [bind]. destruct C as ((i & C1) & C2 & C3).
        rewrite (proj2 (memb_In _ _) C3). rewrite E3. cbn [bind]. rewrite positions_place; [|exact (proj1 (VM i c C1))|exact K].
        unfold table_at in E1. rewrite E1. reflexivity. }
      rewrite EC. cbn [bind]. rewrite E. reflexivity. }
    destruct X as (Ms & E & H2). rewrite E. cbn [bind]. rewrite <- flat_map_concat_map.
    assert (ES : flat_map (fun M : mat F => [M]) Ms = Ms) by (clear; induction Ms; simpl; congruence). rewrite ES.
    exact (mean_ok dim fld (fun c => vertex_value alpha fld n c) Ms adj H2 NE).
  Qed.

  (** assignments *)
  Lemma assign_ok : forall nd (data : rows F) i row, i < length data -> length row = nd -> assign nd data i row = Ok (set_at data i row).
  Proof.
    intros nd data i row L N. unfold assign, get_at, fit. destruct (nth_error data i) eqn:E; [|apply nth_error_None in E; lia]. simpl.
    rewrite N, Nat.eqb_refl. reflexivity.
  Qed.
  Lemma averages_length : forall dim alpha (fld : vtk_field F) n adj, length (averages dim alpha fld n adj) = width dim fld.
  Proof. intros. unfold averages, width. apply flat_length. Qed.
  Lemma filled_length : forall (x : option F) n nd, length (filled x n nd) = n.
  Proof. intros. apply repeat_length. Qed.

  Theorem point_h_ok : forall (m : mesh P) dim (sp : vtk_space F) alpha name fld tags,
    NoDup (dkeys (vs_fields sp)) -> In (name, fld) (vs_fields sp) -> good_points m -> on_nodes m dim sp alpha name fld tags ->
    exists data, point_h m dim sp alpha name fld = Ok data /\
      node_rows m fld tags (repeat (Some k0) (width dim fld)) (averages dim alpha fld) data.
  Proof.
    intros m dim sp alpha name fld tags ND I GP ON.
    destruct (vertices_ok m fld tags GP (proj1 (proj2 (proj2 (proj1 ON))))) as (vs & V1 & V2 & V3 & V4).
    eexists. split; [|exact (node_rows_fold m fld tags vs _ _ V1 V2 V3)].
    unfold point_h. rewrite V4, n_data_width. unfold filled. apply (foldM_upd (fun s => length s = length (m_points P m))); [|apply repeat_length].
    intros s v Hv Hs. destruct (V2 v Hv) as [W1 W2 W3 W4 W5].
    destruct (node_average_ok m dim sp alpha name fld tags (vx_node m v) (vx_preds fld v) (vx_adj m fld v) ND I GP ON W3 W4) as (M & E & VM).
    { intros c Hc. apply W5. exact Hc. }
    rewrite E. cbn [bind ravel_mean]. rewrite (is_value_flat _ _ _ _ VM). fold (averages dim alpha fld (vx_node m v) (vx_adj m fld v)). split.
    - apply assign_ok; [rewrite Hs; exact W2|apply averages_length].
    - rewrite set_at_length. exact Hs.
  Qed.

  (** cells *)
  Lemma all_cells_ok : forall (m : mesh P), closed_mesh (m_cells P m) -> all_cells (m_cells P m) = Ok (flat_map is_cell (m_cells P m)).
  Proof.
    intros m CL. destruct (all_cells_closed _ CL) as (l & E & M). rewrite E. f_equal. rewrite <- M. clear.
    induction l as [|c l IH]; [reflexivity|]. simpl. rewrite <- IH. reflexivity.
  Qed.
  Lemma top_cells_ok : forall (m : mesh P) dim, closed_mesh (m_cells P m) -> top_cells m dim = Ok (tops (m_cells P m) dim).
  Proof. intros m dim CL. unfold top_cells. rewrite (all_cells_ok m CL). reflexivity. Qed.
  Lemma cell_centered_ok : forall dim (sp : vtk_space F) alpha name fld cs c,
    NoDup (dkeys (vs_fields sp)) -> In (name, fld) (vs_fields sp) -> on_cells dim sp alpha fld cs -> In c cs ->
    exists M, cell_centered dim sp alpha name fld c = Ok M /\ is_value dim fld (centre_value alpha fld c) M.
  Proof.
    intros dim sp alpha name fld cs c ND I (_ & OC) Hc. destruct (OC c Hc) as (U & S).
    destruct (local_table sp alpha name fld c _ ND I U) as (E & _). unfold cell_centered. rewrite E. cbn [bind].
    exact (value_h_ok dim sp alpha name fld c _ ND I U S).
  Qed.
  (** a loop over cells *)
  Lemma over_cells_ok : forall (body : rows F -> nat -> cell -> res (rows F)) cs blank (row : cell -> list (option F)),
    (forall s i c, In c cs -> length s = length cs -> i < length cs -> body s i c = Ok (set_at s i (row c))) ->
    over_cells cs body (repeat blank (length cs)) = Ok (map row cs).
  Proof.
    intros body cs blank row H. unfold over_cells. rewrite <- (map_as_fold row cs blank).
    apply (foldM_upd (fun s => length s = length cs)); [|apply repeat_length]. intros s [i c] Hx Hs. simpl.
    pose proof (in_combine_l _ _ _ _ Hx) as H1. pose proof (in_combine_r _ _ _ _ Hx) as H2. apply in_seq in H1.
    split; [apply H; [exact H2|exact Hs|lia]|rewrite set_at_length; exact Hs].
  Qed.
  Lemma over_cells_two : forall (body : rows F * rows F -> nat -> cell -> res (rows F * rows F)) cs blank blank' (row row' : cell -> list (option F)),
    (forall s i c, In c cs -> length (fst s) = length cs -> length (snd s) = length cs -> i < length cs ->
       body s i c = Ok (set_at (fst s) i (row c), set_at (snd s) i (row' c))) ->
    over_cells cs body (repeat blank (length cs), repeat blank' (length cs)) = Ok (map row cs, map row' cs).
  Proof.
    intros body cs blank blank' row row' H. unfold over_cells. rewrite <- (map_as_fold row cs blank), <- (map_as_fold row' cs blank'), <- fold_pair.
    apply (foldM_upd (fun s => length (fst s) = length cs /\ length (snd s) = length cs)); [|split; apply repeat_length]. intros s [i c] Hx (Hs & Hs'). simpl.
    pose proof (in_combine_l _ _ _ _ Hx) as H1. pose proof (in_combine_r _ _ _ _ Hx) as H2. apply in_seq in H1.
    split; [apply H; [exact H2|exact Hs|exact Hs'|lia]|rewrite !set_at_length; split; assumption].
  Qed.
  Lemma centre_rows_length : forall dim alpha (fld : vtk_field F) c, length (centre_rows dim alpha fld c) = width dim fld.
  Proof. intros. unfold centre_rows, width. apply flat_length. Qed.
  Theorem cell_h_ok : forall (m : mesh P) dim (sp : vtk_space F) alpha name fld,
    NoDup (dkeys (vs_fields sp)) -> In (name, fld) (vs_fields sp) -> closed_mesh (m_cells P m) -> on_cells dim sp alpha fld (tops (m_cells P m) dim) ->
    cell_h m dim sp alpha name fld = Ok (map (centre_rows dim alpha fld) (tops (m_cells P m) dim)).
  Proof.
    intros m dim sp alpha name fld ND I CL OC. unfold cell_h. rewrite (top_cells_ok m dim CL). cbn [bind]. unfold filled.
    apply over_cells_ok. intros s i c Hc Hs Hi. destruct (cell_centered_ok dim sp alpha name fld _ c ND I OC Hc) as (M & E & V).
    rewrite E. cbn [bind]. rewrite (is_value_flat _ _ _ _ V), n_data_width. apply assign_ok; [lia|apply centre_rows_length].
  Qed.
End Arrays.
