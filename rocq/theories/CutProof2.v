(** * Lemmas: the effect of one cut, C31-C33 *)
From Coq Require Import List Arith ZArith Bool Lia Sorted Permutation.
From Verif Require Import Base BaseProof MeshModel MeshSpec GraphModel GraphProof CutModel CutSpec CutProof.
Import ListNotations.

Definition listed (S : list nat) (a : list nat) : Prop := exists x, In x S /\ In x a.
Lemma listed_dec S a : {listed S a} + {~ listed S a}.
Proof.
  destruct (existsb (fun x => memb x a) S) eqn:E.
  - left. apply existsb_exists in E as (x & H1 & H2). exists x. split; auto. apply memb_In in H2. auto.
  - right. intros (x & H1 & H2). assert (X : existsb (fun x => memb x a) S = true); [|congruence].
    apply existsb_exists. exists x. split; auto. apply memb_In. auto.
Qed.
Lemma not_listed_relabel S base a : ~ listed S a -> map (relabel S base) a = a.
Proof. intros H. apply relabel_id. intros x Hx Hs. apply H. exists x; auto. Qed.
Lemma NoDup_Forall2 {A B} (R : A -> B -> Prop) l l' :
  (forall a a' b, R a b -> R a' b -> a = a') -> Forall2 R l l' -> NoDup l -> NoDup l'.
Proof.
  intros INJ. induction 1 as [|x y l l' H0 H IH]; intros ND; inversion ND; subst; constructor; auto.
  intros Hy. clear - INJ H0 H H3 Hy. induction H; [destruct Hy|].
  destruct Hy as [->|Hy]; [apply H3; left; eapply INJ; eauto|apply IHForall2; auto; simpl in *; tauto].
Qed.
Lemma Forall2_app_nth {A B} (R : A -> B -> Prop) l l' : Forall2 R l l' <->
  length l = length l' /\ forall k a b, nth_error l k = Some a -> nth_error l' k = Some b -> R a b.
Proof.
  split.
  - induction 1 as [|x y l l' H0 H [IH1 IH2]]; [split; auto; intros [|k]; discriminate|].
    split; [simpl; auto|]. intros [|k] a b; simpl; [intros E1 E2; inversion E1; inversion E2; subst; auto|apply IH2].
  - revert l'; induction l as [|a l IH]; intros [|b l'] [H1 H2]; simpl in H1; try discriminate; constructor.
    + apply (H2 0); auto.
    + apply IH. split; [lia|]. intros k. apply (H2 (S k)).
Qed.
Lemma Forall2_nth_l {A B} (R : A -> B -> Prop) l l' k a : Forall2 R l l' -> nth_error l k = Some a ->
  exists b, nth_error l' k = Some b /\ R a b.
Proof.
  intros F H. apply Forall2_app_nth in F as [L F].
  assert (k < length l') by (rewrite <- L; apply nth_error_Some; congruence).
  destruct (nth_error l' k) eqn:E; [eauto|]. apply nth_error_None in E. lia.
Qed.
Lemma Forall2_nth_r {A B} (R : A -> B -> Prop) l l' k b : Forall2 R l l' -> nth_error l' k = Some b ->
  exists a, nth_error l k = Some a /\ R a b.
Proof.
  intros F H. apply Forall2_app_nth in F as [L F].
  assert (k < length l) by (rewrite L; apply nth_error_Some; congruence).
  destruct (nth_error l k) eqn:E; [eauto|]. apply nth_error_None in E. lia.
Qed.
Lemma Forall2_In_r {A B} (R : A -> B -> Prop) l l' b : Forall2 R l l' -> In b l' -> exists a, In a l /\ R a b.
Proof.
  intros F H. apply In_nth_error in H as (k & H). destruct (Forall2_nth_r _ _ _ _ _ F H) as (a & H1 & H2).
  exists a. split; auto. eapply nth_error_In; eauto.
Qed.
Lemma Forall2_In_l {A B} (R : A -> B -> Prop) l l' a : Forall2 R l l' -> In a l -> exists b, In b l' /\ R a b.
Proof.
  intros F H. apply In_nth_error in H as (k & H). destruct (Forall2_nth_l _ _ _ _ _ F H) as (b & H1 & H2).
  exists b. split; auto. eapply nth_error_In; eauto.
Qed.
Lemma cells_of_positions cs fs : (forall i, In i fs -> exists c, cell_at cs i c) ->
  exists l, Forall2 (cell_at cs) fs l /\ mapM (cell_of cs) fs = Ok l.
Proof.
  induction fs as [|i fs IH]; intros H; [exists []; split; auto|].
  destruct (H i) as (c & Hc); [left; auto|]. destruct IH as (l & F & E); [intros; apply H; right; auto|].
  exists (c :: l). split; [constructor; auto|]. simpl. apply cell_of_at in Hc. rewrite Hc. cbn [bind]. rewrite E. auto.
Qed.
Lemma mapM_cell_of cs fs l : mapM (cell_of cs) fs = Ok l <-> Forall2 (cell_at cs) fs l.
Proof.
  rewrite mapM_Forall2. split; intros H; (eapply Forall2_impl; [|exact H]); intros; apply cell_of_at; auto.
Qed.
Lemma nth_error_app_r {A} (l l' : list A) k : nth_error (l ++ l') (length l + k) = nth_error l' k.
Proof. rewrite nth_error_app2 by lia. f_equal. lia. Qed.
Lemma nth_error_seq b n k : k < n -> nth_error (seq b n) k = Some (b + k).
Proof. revert b k; induction n; intros b [|k] H; simpl; try lia; [f_equal; lia|]. rewrite IHn by lia. f_equal. lia. Qed.
Lemma nth_error_combine {A B} (l : list A) (l' : list B) k a b : nth_error l k = Some a -> nth_error l' k = Some b ->
  nth_error (combine l l') k = Some (a, b).
Proof. revert l' k; induction l; intros [|y l'] [|k]; simpl; try discriminate; [congruence|auto]. Qed.
Lemma dvals_combine_seq (l : list nat) b : dvals (combine l (seq b (length l))) = seq b (length l).
Proof. unfold dvals. revert b; induction l; intros b; simpl; auto. f_equal. auto. Qed.

Section Cut.
  Variable P : Type.
  Notation mesh := (mesh P).
  Notation interface := (interface P).

  Definition side_map (F : list nat) (b : nat) (q : bool) : dict nat nat :=
    combine F (seq (b + if q then 0 else length F) (length F)).
  Lemma map_side_map F b q a : map (image (side_map F b q)) a = map (relabel F (b + if q then 0 else length F)) a.
  Proof. apply map_image_relabel. Qed.
  Lemma side_map_idem F b q x : (forall y, In y F -> y < b) -> image (side_map F b q) (image (side_map F b q) x) = image (side_map F b q) x.
  Proof. intros H. unfold side_map. rewrite !image_relabel. apply relabel_fresh. intros y Hy. apply H in Hy. lia. Qed.

  Record edges_done (m : mesh) (f : interface) (e : edge_cut) : Prop := {
    ed_F : increasing_list (ec_f e) (interface_edge (m_cells P m) (if_tag P f));
    ed_ids : ec_ids e = ec_f e;
    ed_p : ec_p e = side_map (ec_f e) (length (m_cells P m)) true;
    ed_n : ec_n e = side_map (ec_f e) (length (m_cells P m)) false;
    ed_length : length (ec_cells e) = length (m_cells P m) + 2 * length (ec_f e);
    ed_old : forall i c, cell_at (m_cells P m) i c ->
      (c_dim c = 2 /\ listed (ec_f e) (nth 1 (c_sub c) []) /\ exists q, on_side P m f c q /\
         cell_at (ec_cells e) i (upd_e (side_map (ec_f e) (length (m_cells P m)) q) c)) \/
      (~ (c_dim c = 2 /\ listed (ec_f e) (nth 1 (c_sub c) [])) /\ cell_at (ec_cells e) i c);
    ed_new : forall (q : bool) k i c, nth_error (ec_f e) k = Some i -> cell_at (m_cells P m) i c ->
      let j := length (m_cells P m) + (if q then 0 else length (ec_f e)) + k in
      cell_at (ec_cells e) j (edge_copy (if q then p_tag (if_tag P f) else n_tag (if_tag P f)) c j) }.

  Lemma on_side_fun m f c q q' : on_side P m f c q -> on_side P m f c q' -> q = q'.
  Proof.
    intros (p1 & F1 & <-) (p2 & F2 & <-). f_equal. revert p2 F2; induction F1; intros p2 F2; inversion F2; subst; auto.
    f_equal; [congruence|auto].
  Qed.

  Lemma cut_edges_spec (m : mesh) f l e : layered_mesh (m_cells P m) -> map Some l = m_cells P m ->
    cut_edges P m f (from_edgelist (flat_map (edges_of 1) (filter (fun c => c_dim c =? 2) l))) = Ok e ->
    edges_done m f e.
  Proof.
    intros LM M H. unfold cut_edges in H.
    destruct (f_positions_spec (m_cells P m) (if_tag P f) LM) as (fs & Ef & IF). rewrite Ef in H. cbn [bind] in H.
    assert (FC : forall i, In i fs -> exists c, cell_at (m_cells P m) i c).
    { intros i Hi. apply IF in Hi as (c & Hc & _). eauto. }
    destruct (cells_of_positions _ _ FC) as (fl & FL & EM). rewrite EM in H. cbn [bind] in H.
    assert (IDS : map c_id fl = fs).
    { clear - FL LM. induction FL; simpl; auto. f_equal; auto. destruct LM as [_ LM]. apply (LM _ _ H). }
    rewrite IDS in H.
    apply bind_Ok in H as (ne & Hne & H). apply bind_Ok in H as ([cp cn] & Hcl & H).
    apply bind_Ok in H as ([cs1 mp] & H1 & H). apply bind_Ok in H as ([cs2 mn] & H2 & H).
    apply bind_Ok in H as (cs3 & H3 & H). apply bind_Ok in H as (cs4 & H4 & H). inversion H; subst e; clear H.
    pose proof (StronglySorted_lt_NoDup _ (proj1 IF)) as ND.
    assert (LT : forall y, In y fs -> y < length (m_cells P m)).
    { intros y Hy. destruct (FC y Hy) as (c & Hc). eapply cell_at_lt; eauto. }
    set (b := length (m_cells P m)) in *.
    rewrite (clone_edges_eq _ _ _ fl) in H1 by auto. inversion H1; subst cs1 mp; clear H1.
    rewrite (clone_edges_eq _ _ _ fl) in H2.
    2:{ eapply Forall2_impl; [|exact FL]. intros x y Hxy. apply cell_at_app; auto. eapply cell_at_lt; eauto. }
    inversion H2; subst cs2 mn; clear H2.
    rewrite IDS in *. rewrite !fold_dset_fresh in * by auto. cbn [app] in *.
    replace (combine fs (seq b (length fs))) with (side_map fs b true) in * by (unfold side_map; rewrite Nat.add_0_r; auto).
    change (combine fs (seq (b + length fs) (length fs))) with (side_map fs b false) in *.
    destruct (classify_spec _ _ _ _ _ _ Hcl) as [CP CN].
    assert (NE : forall i, In i ne <-> exists c, cell_at (m_cells P m) i c /\ c_dim c = 2 /\ listed fs (nth 1 (c_sub c) [])).
    { intros i. rewrite (preds_spec _ _ _ _ _ _ LM M Hne i). unfold listed. split.
      - intros (x & c & ? & ? & ? & ?). exists c. eauto 6.
      - intros (c & ? & ? & x & ? & ?). exists x, c. auto. }
    assert (IDT : forall q x, image (side_map fs b q) (image (side_map fs b q) x) = image (side_map fs b q) x)
      by (intros; apply side_map_idem; auto).
    destruct (update_edges_spec _ (IDT true) _ _ _ H3) as [L3 U3].
    destruct (update_edges_spec _ (IDT false) _ _ _ H4) as [L4 U4].
    assert (LF : length fl = length fs) by (symmetry; apply (Forall2_app_nth _ _ _) in FL; apply FL).
    assert (LM2 : forall t n, length (map Some (map2 (edge_copy t) fl (seq n (length fs)))) = length fs).
    { intros. rewrite map_length, length_map2; auto. rewrite seq_length; auto. }
    constructor; cbn [ec_f ec_ids ec_p ec_n ec_cells]; auto.
    - rewrite L4, L3, !app_length, !LM2. fold b. lia.
    - fold b. intros i c Hc. pose proof (cell_at_lt _ _ _ Hc) as Li. fold b in Li.
      assert (C2 : forall x, cell_at ((m_cells P m ++ map Some (map2 (edge_copy (p_tag (if_tag P f))) fl (seq b (length fs)))) ++
         map Some (map2 (edge_copy (n_tag (if_tag P f))) fl (seq (b + length fs) (length fs)))) i x <-> cell_at (m_cells P m) i x).
      { intros x. rewrite !cell_at_app; [tauto|auto|rewrite app_length; fold b; lia]. }
      destruct (U3 i) as [A3 B3]. destruct (U4 i) as [A4 B4].
      destruct (in_dec Nat.eq_dec i ne) as [Hi|Hi].
      + left. apply NE in Hi as HH. destruct HH as (c' & Hc' & Hd & Hl).
        assert (c' = c) by (unfold cell_at in *; congruence). subst c'. split; auto. split; auto.
        destruct (in_dec Nat.eq_dec i cp) as [Ip|Ip].
        * destruct (proj1 (CP i) Ip) as [_ PQ]. assert (NN : ~ In i cn) by (intros X; apply CN in X as [_ X]; congruence).
          apply positive_q_spec in PQ as (c'' & Hc'' & OS). assert (c'' = c) by (unfold cell_at in *; congruence). subst c''.
          exists true. split; auto. destruct (A3 Ip) as (y & Hy & Hy2). apply C2 in Hy.
          assert (y = c) by (unfold cell_at in *; congruence). subst y. unfold cell_at. rewrite (B4 NN). exact Hy2.
        * destruct (in_dec Nat.eq_dec i cn) as [In'|In'].
          -- destruct (proj1 (CN i) In') as [_ PQ]. apply positive_q_spec in PQ as (c'' & Hc'' & OS).
             assert (c'' = c) by (unfold cell_at in *; congruence). subst c''.
             exists false. split; auto. destruct (A4 In') as (y & Hy & Hy2). unfold cell_at in Hy. rewrite (B3 Ip) in Hy. apply C2 in Hy.
             assert (y = c) by (unfold cell_at in *; congruence). subst y. exact Hy2.
          -- exfalso. clear - Hcl Hi Ip In'. revert cp cn Hcl Ip In'. induction ne as [|a ne IH]; intros; [destruct Hi|].
             simpl in Hcl. apply bind_Ok in Hcl as (q & Hq & Hcl). apply bind_Ok in Hcl as ([p1 n1] & E1 & Hcl).
             destruct Hi as [->|Hi]; [destruct q; inversion Hcl; subst; simpl in *; tauto|].
             destruct q; inversion Hcl; subst; eapply IH; eauto; simpl in *; tauto.
      + right. split.
        * intros [Hd Hl]. apply Hi. apply NE. eauto.
        * unfold cell_at. rewrite B4, B3 by (intros X; (apply CN in X || apply CP in X); tauto). apply C2. auto.
    - intros q k i c Hk Hc. fold b. cbv zeta.
      assert (Lk : k < length fs) by (apply nth_error_Some; congruence).
      set (j := b + (if q then 0 else length fs) + k).
      assert (NJ : ~ In j ne).
      { intros X. apply NE in X as (y & Hy & _). apply cell_at_lt in Hy. fold b in Hy. unfold j in Hy. lia. }
      destruct (U3 j) as [_ B3]. destruct (U4 j) as [_ B4]. unfold cell_at.
      rewrite B4, B3 by (intros X; (apply CN in X || apply CP in X); tauto).
      destruct (Forall2_nth_l _ _ _ _ _ FL Hk) as (c' & Hc' & HH). assert (c' = c) by (unfold cell_at in *; congruence). subst c'.
      unfold j. destruct q.
      + rewrite <- app_assoc. rewrite <- (Nat.add_assoc b 0 k). cbn [Nat.add]. unfold b. rewrite nth_error_app_r.
        rewrite nth_error_app1 by (rewrite LM2; auto). rewrite nth_error_map, nth_error_map2, Hc', nth_error_seq by auto. simpl. repeat f_equal; lia.
      + replace (b + length fs) with (length (m_cells P m ++ map Some (map2 (edge_copy (p_tag (if_tag P f))) fl (seq b (length fs))))) at 2
          by (rewrite app_length, LM2; auto).
        rewrite nth_error_app_r. rewrite nth_error_map, nth_error_map2, Hc', nth_error_seq by auto. reflexivity.
  Qed.

  Lemma drop_tagged_spec cs tag l : forall vs, drop_tagged cs tag l = Ok vs ->
    (forall v, In v vs <-> In v l /\ exists c, cell_at cs v c /\ c_mat c <> Some tag) /\
    (StronglySorted lt l -> StronglySorted lt vs).
  Proof.
    induction l as [|a l IH]; intros vs H; simpl in H.
    - inversion H; subst. split; [intros v; simpl; tauto|auto].
    - apply bind_Ok in H as (c & Hc & H). apply bind_Ok in H as (r & Hr & H). apply cell_of_at in Hc.
      destruct (IH _ Hr) as [A B]. assert (A' : forall v, In v r -> In v l) by (intros v Hv; apply A in Hv; tauto).
      destruct (eqb (c_mat c) (Some tag)) eqn:Q; inversion H; subst vs; clear H.
      + rewrite eqb_true in Q. split.
        * intros v. rewrite A. simpl. split; [tauto|]. intros [[<-|?] X]; auto.
          destruct X as (c' & Hc' & N). assert (c' = c) by (unfold cell_at in *; congruence). subst c'. congruence.
        * intros S. inversion S; auto.
      + rewrite eqb_false in Q. split.
        * intros v. simpl. rewrite A. split; [|tauto]. intros [<-|[? ?]]; [split; auto; exists c; auto|auto].
        * intros S. inversion S; subst. constructor; auto. rewrite Forall_forall in *. auto.
  Qed.
  Lemma drop_tagged_succeeds cs tag l : (forall v, In v l -> exists c, cell_at cs v c) -> exists vs, drop_tagged cs tag l = Ok vs.
  Proof.
    induction l as [|a l IH]; intros H; simpl; [eauto|].
    destruct (H a) as (c & Hc); [left; auto|]. apply cell_of_at in Hc. rewrite Hc. cbn [bind].
    destruct IH as (r & ->); [intros; apply H; right; auto|]. cbn [bind]. eauto.
  Qed.

  (** cells after the edge half, seen from the original ones *)
  Lemma ed_keeps m f e i c : edges_done m f e -> cell_at (m_cells P m) i c -> exists c1,
    cell_at (ec_cells e) i c1 /\ c_dim c1 = c_dim c /\ c_id c1 = c_id c /\ c_mat c1 = c_mat c /\ c_nodes c1 = c_nodes c /\
    nth 0 (c_sub c1) [] = nth 0 (c_sub c) [] /\ (c_dim c <> 2 -> c1 = c) /\ length (c_sub c1) = length (c_sub c) /\
    nth 2 (c_sub c1) [] = nth 2 (c_sub c) [] /\
    (forall q, (c_dim c = 2 -> listed (ec_f e) (nth 1 (c_sub c) []) -> on_side P m f c q) ->
       c_dim c = 2 -> length (c_sub c) = 3 -> nth 1 (c_sub c1) [] =
         map (relabel (ec_f e) (length (m_cells P m) + if q then 0 else length (ec_f e))) (nth 1 (c_sub c) [])).
  Proof.
    intros ED Hc. destruct (ed_old _ _ _ ED i c Hc) as [(Hd & Hl & q & OS & H)|[N H]].
    - eexists. split; [exact H|]. unfold upd_e. cbn [set_sub c_dim c_id c_mat c_nodes c_sub].
      repeat (split; [reflexivity|]). rewrite !nth_set_at, length_set_at. cbn [Nat.eqb andb].
      split; auto. split; [intros X; congruence|]. split; auto. split; auto.
      intros q' H' _ L. rewrite L. cbn [Nat.ltb Nat.leb]. rewrite map_side_map.
      rewrite (on_side_fun _ _ _ _ _ OS (H' Hd Hl)). reflexivity.
    - exists c. split; [exact H|]. do 8 (split; [reflexivity|]).
      intros q _ Hd _. rewrite not_listed_relabel; auto.
  Qed.
  Lemma on_side_nodes (m : mesh) cs f c c1 q : c_nodes c1 = c_nodes c ->
    on_side P (mk_mesh P cs (m_points P m)) f c1 q <-> on_side P m f c q.
  Proof. intros E. unfold on_side. cbn [m_points]. rewrite E. tauto. Qed.
  Lemma edge_copy_eq tag c j i : c_dim c = 1 -> c_id c = i -> length (c_sub c) = 2 ->
    edge_copy tag c j = mk_cell 1 j (c_nodes c) (Some tag) [nth 0 (c_sub c) []; [j; i]].
  Proof.
    intros D I L. unfold edge_copy, set_sub. cbn [c_dim c_id c_nodes c_mat c_sub]. rewrite D, I.
    destruct (c_sub c) as [|a [|b [|? ?]]]; try discriminate. reflexivity.
  Qed.
  Lemma upd_v_nth mv mn c : 0 < length (c_sub c) -> nth 0 (c_sub (upd_v mv mn c)) [] = map (image mv) (nth 0 (c_sub c) []).
  Proof. intros L. unfold upd_v, set_nodes, set_sub. cbn [c_sub]. rewrite nth_set_at. destruct (Nat.ltb_spec 0 (length (c_sub c))); [auto|lia]. Qed.
  Lemma upd_v_nth_other mv mn c d : d <> 0 -> nth d (c_sub (upd_v mv mn c)) [] = nth d (c_sub c) [].
  Proof. intros L. unfold upd_v, set_nodes, set_sub. cbn [c_sub]. rewrite nth_set_at. destruct d; [lia|auto]. Qed.
  Lemma upd_v_fields mv mn c : c_dim (upd_v mv mn c) = c_dim c /\ c_id (upd_v mv mn c) = c_id c /\ c_mat (upd_v mv mn c) = c_mat c /\
    length (c_sub (upd_v mv mn c)) = length (c_sub c) /\ c_nodes (upd_v mv mn c) = map (image mn) (c_nodes c).
  Proof. unfold upd_v, set_nodes, set_sub. cbn. rewrite length_set_at. auto. Qed.

  Lemma pos_related (cs : cells) V T v t : aligned_mesh cs -> Forall2 (fun v t => exists c, cell_at cs v c /\ c_nodes c = [t]) V T ->
    (forall v, In v V -> exists c, cell_at cs v c /\ c_dim c = 0) ->
    (exists c, cell_at cs v c /\ c_dim c = 0 /\ c_nodes c = [t]) -> pos v V = pos t T.
  Proof.
    intros (_ & AL & _) F DV (c & Hc & Hd & Hn). induction F as [|v1 t1 V T (c1 & Hc1 & Hn1) F IH]; auto. simpl.
    destruct (DV v1) as (c1' & Hc1' & Hd1); [left; auto|]. assert (c1' = c1) by (unfold cell_at in *; congruence). subst c1'.
    assert (E : v = v1 <-> t = t1).
    { split; intros ->; [unfold cell_at in *; congruence|]. eapply AL; eauto. congruence. }
    rewrite IH by (intros; apply DV; right; auto).
    destruct (Nat.eqb_spec v v1), (Nat.eqb_spec t t1); try tauto.
  Qed.
  Lemma not_listed_nodes (cs : cells) V T c i : aligned_mesh cs -> layered_mesh cs -> cell_at cs i c -> c_dim c = 1 \/ c_dim c = 2 ->
    Forall2 (fun v t => exists c, cell_at cs v c /\ c_nodes c = [t]) V T ->
    (forall v, In v V -> exists c, cell_at cs v c /\ c_dim c = 0) ->
    ~ listed V (nth 0 (c_sub c) []) -> ~ listed T (c_nodes c).
  Proof.
    intros AL LM Hc Hd F DV NL (t & Ht & Hin). apply NL.
    destruct AL as (_ & INJ & AL). specialize (AL i c Hc Hd).
    destruct (Forall2_In_r _ _ _ _ AL Hin) as (v & Hv & cv & Hcv & Hnv).
    destruct (Forall2_In_r _ _ _ _ F Ht) as (v' & Hv' & cv' & Hcv' & Hnv').
    destruct LM as [_ LM]. destruct (LM i c Hc) as (_ & _ & _ & S).
    destruct (S 0 v) as (x & Hx & Hx0); [lia|auto|]. assert (x = cv) by (unfold cell_at in *; congruence). subst x.
    destruct (DV v' Hv') as (y & Hy & Hy0). assert (y = cv') by (unfold cell_at in *; congruence). subst y.
    assert (v = v') by (eapply INJ; eauto; congruence). subst v'. exists v. auto.
  Qed.

  (** no duplicated vertices *)
  Lemma effect_no_vertices m f e : cut_ready P m -> edges_done m f e ->
    increasing_list [] (duplicated_vertex (m_cells P m) (if_tag P f)) ->
    cut_effect P f m (mk_mesh P (ec_cells e) (m_points P m)) (ec_f e) [] [] [].
  Proof.
    intros (LM & AL & RG) ED IV. pose proof (ed_F _ _ _ ED) as IF.
    constructor; cbn [m_cells m_points length]; auto.
    - rewrite !app_nil_r. auto.
    - rewrite (ed_length _ _ _ ED). lia.
    - intros i c Hc. destruct (ed_keeps _ _ _ _ _ ED Hc) as (c1 & H1 & A1 & A2 & A3 & A4 & A5 & A6 & A7 & A8 & A9).
      destruct LM as [_ LM]. destruct (LM i c Hc) as (Hid & D3 & Ls & Sb).
      assert (Q : exists q, touched (ec_f e) [] i c -> on_side P m f c q).
      { destruct (ed_old _ _ _ ED i c Hc) as [(_ & _ & q & OS & _)|[N _]]; [exists q; auto|].
        exists true. intros [T|(_ & _ & v & [] & _)]. exfalso. apply N. exact T. }
      destruct Q as (q & Q). exists c1, q. split; [exact H1|]. repeat (split; [auto; fail|]).
      assert (R0 : forall n a, map (relabel [] n) a = a) by (intros; apply relabel_id; auto).
      split. { intros D2. apply A9; auto; [|lia]. intros _ (x & X1 & X2). apply Q. left. split; auto. exists x; auto. }
      split. { intros _ _. rewrite !R0. auto. }
      split. { intros [D|[D|D]]; apply A6; try lia. apply (proj2 IF) in D as (c' & Hc' & Hd' & _).
        assert (c' = c) by (unfold cell_at in *; congruence). subst; lia. }
      destruct (Nat.eq_dec (c_dim c) 2) as [D|D]; [rewrite D; auto|rewrite A6; auto].
    - intros q k i c Hk Hc. cbv zeta. pose proof (ed_new _ _ _ ED q k i c Hk Hc) as H. cbv zeta in H.
      assert (R0 : forall n a, map (relabel [] n) a = a) by (intros; apply relabel_id; auto). rewrite !R0.
      assert (IE : interface_edge (m_cells P m) (if_tag P f) i) by (apply IF; eapply nth_error_In; eauto).
      destruct IE as (c' & Hc' & Hd' & _). assert (c' = c) by (unfold cell_at in *; congruence). subst c'.
      destruct LM as [_ LM]. destruct (LM i c Hc) as (Hid & D3 & Ls & Sb).
      rewrite (edge_copy_eq _ c _ i) in H by (auto; lia). destruct q; exact H.
    - intros q [|k]; discriminate.
  Qed.

  Definition vertex_graph (d : nat) (l : list cell) := from_edgelist (flat_map (edges_of 0) (filter (fun c => c_dim c =? d) l)).
  Definition vertex_touched (F V : list nat) (i : nat) (c : cell) : Prop :=
    (c_dim c = 1 \/ c_dim c = 2) /\ ~ In i F /\ listed V (nth 0 (c_sub c) []).

  Lemma by_vertex_spec (cs : cells) l vs ls : layered_mesh cs -> map Some l = cs ->
    mapM (fun v => do a <- preds (vertex_graph 2 l) 0 [v]; do b <- preds (vertex_graph 1 l) 0 [v]; Ok (a ++ b)) vs = Ok ls ->
    forall i, In i (concat ls) <-> exists c, cell_at cs i c /\ (c_dim c = 1 \/ c_dim c = 2) /\ listed vs (nth 0 (c_sub c) []).
  Proof.
    intros LM M H i. apply mapM_Forall2 in H. induction H as [|v y vs ls Hv H IH]; simpl.
    - split; [tauto|]. intros (c & _ & _ & x & [] & _).
    - apply bind_Ok in Hv as (a & Ha & Hv). apply bind_Ok in Hv as (b & Hb & Hv). inversion Hv; subst y; clear Hv.
      rewrite in_app_iff, IH, in_app_iff, (preds_spec _ _ _ _ _ _ LM M Ha), (preds_spec _ _ _ _ _ _ LM M Hb). unfold listed. split.
      + intros [[(x & c & [E|[]] & ? & ? & ?)|(x & c & [E|[]] & ? & ? & ?)]|(c & ? & ? & x & ? & ?)];
          exists c; (split; [auto|split; [auto|]]); exists x; simpl; auto.
      + intros (c & Hc & [Hd|Hd] & x & [<-|Hx] & Hin).
        * left; right. exists v, c. simpl. auto.
        * right. exists c. eauto 7.
        * left; left. exists v, c. simpl. auto.
        * right. exists c. eauto 7.
  Qed.

  Lemma split_nodes (m : mesh) (cs : cells) V N :
    Forall2 (fun v x => (do c <- cell_of cs v; do t <- get_at (c_nodes c) 0; get_at (m_points P m) t) = Ok x) V N ->
    exists T, Forall2 (fun v t => exists c, cell_at cs v c /\ nth_error (c_nodes c) 0 = Some t) V T /\
              Forall2 (fun t x => nth_error (m_points P m) t = Some x) T N.
  Proof.
    induction 1 as [|v x V N Hv H (T & A & B)]; [exists []; auto|].
    apply bind_Ok in Hv as (c & Hc & Hv). apply bind_Ok in Hv as (t & Ht & Hv).
    apply cell_of_at in Hc. apply get_at_Ok in Ht. apply get_at_Ok in Hv.
    exists (t :: T). split; constructor; auto. exists c; auto.
  Qed.
  Lemma classify_In (m : mesh) f ids p n i : classify P m f ids = Ok (p, n) -> In i ids -> In i p \/ In i n.
  Proof.
    revert p n; induction ids as [|a ids IH]; intros p n Hcl Hi; [destruct Hi|].
    simpl in Hcl. apply bind_Ok in Hcl as (q & Hq & Hcl). apply bind_Ok in Hcl as ([p1 n1] & E1 & Hcl).
    destruct Hi as [->|Hi]; [destruct q; inversion Hcl; subst; simpl; auto|].
    destruct (IH _ _ E1 Hi); destruct q; inversion Hcl; subst; simpl; auto.
  Qed.

  Lemma cut_vertices_spec (m : mesh) f l e m' : cut_ready P m -> map Some l = m_cells P m -> edges_done m f e ->
    cut_vertices P m f (vertex_graph 2 l) (vertex_graph 1 l) e = Ok m' ->
    exists V T N, cut_effect P f m m' (ec_f e) V T N.
  Proof.
    intros RD M ED H. pose proof RD as (LM & AL & RG). pose proof (ed_F _ _ _ ED) as IF. unfold cut_vertices in H.
    apply bind_Ok in H as (fl & Hfl & H). apply mapM_cell_of in Hfl.
    apply bind_Ok in H as (ls & Hls & H). apply mapM_Forall2 in Hls.
    apply bind_Ok in H as (vs & Hvs & H).
    assert (CL : forall i c, cell_at (m_cells P m) i c -> c_id c = i /\ c_dim c <= 3 /\ length (c_sub c) = c_dim c + 1 /\
       forall d j, d < c_dim c -> In j (nth d (c_sub c) []) -> exists c', cell_at (m_cells P m) j c' /\ c_dim c' = d) by apply LM.
    assert (KEEP : forall i c, cell_at (m_cells P m) i c -> c_dim c <> 2 -> cell_at (ec_cells e) i c).
    { intros i c Hc Hd. destruct (ed_keeps _ _ _ _ _ ED Hc) as (c1 & H1 & A1 & A2 & A3 & A4 & A5 & A6 & _). rewrite <- A6; auto. }
    assert (EDGE : forall i, In i (ec_f e) -> exists c, cell_at (m_cells P m) i c /\ c_dim c = 1 /\ cell_at (ec_cells e) i c).
    { intros i Hi. apply IF in Hi as (c & Hc & Hd & _). exists c. split; auto. split; auto. apply KEEP; auto. lia. }
    assert (INL : forall v, In v (concat ls) <-> exists i c, In i (ec_f e) /\ cell_at (m_cells P m) i c /\ In v (nth 0 (c_sub c) [])).
    { intros v. rewrite in_concat. split.
      - intros (x & Hx & Hv). destruct (Forall2_In_r _ _ _ _ Hls Hx) as (c & Hc & Hg).
        destruct (Forall2_In_r _ _ _ _ Hfl Hc) as (i & Hi & Hci). destruct (EDGE i Hi) as (c' & H1 & _ & H2).
        assert (c' = c) by (unfold cell_at in *; congruence). subst c'. exists i, c. split; auto. split; auto.
        apply get_at_Ok in Hg. rewrite (nth_error_nth _ _ [] Hg). auto.
      - intros (i & c & Hi & Hc & Hv). destruct (EDGE i Hi) as (c' & H1 & _ & H2).
        assert (c' = c) by (unfold cell_at in *; congruence). subst c'.
        destruct (Forall2_In_l _ _ _ _ Hfl Hi) as (c'' & Hc'' & H3). assert (c'' = c) by (unfold cell_at in *; congruence). subst c''.
        destruct (Forall2_In_l _ _ _ _ Hls Hc'') as (x & Hx & Hg). exists x. split; auto.
        apply get_at_Ok in Hg. rewrite <- (nth_error_nth _ _ [] Hg). auto. }
    assert (VD : forall v, In v (concat ls) -> exists c, cell_at (m_cells P m) v c /\ c_dim c = 0 /\ cell_at (ec_cells e) v c).
    { intros v Hv. apply INL in Hv as (i & c & Hi & Hc & Hv). destruct (EDGE i Hi) as (c' & H1 & Hd & _).
      assert (c' = c) by (unfold cell_at in *; congruence). subst c'. destruct (CL i c Hc) as (_ & _ & _ & Sb).
      destruct (Sb 0 v) as (cv & Hcv & Hdv); [lia|auto|]. exists cv. split; auto. split; auto. apply KEEP; auto. lia. }
    destruct (np_unique_spec (concat ls)) as [NS NI].
    assert (IV : increasing_list vs (duplicated_vertex (m_cells P m) (if_tag P f))).
    { destruct (drop_tagged_spec _ _ _ _ Hvs) as [DA DB]. split; [apply DB; auto|].
      intros v. rewrite DA, NI. unfold duplicated_vertex. split.
      - intros [Hv (cv & Hcv & N)]. apply VD in Hv as HV. destruct HV as (cv' & H1 & H2 & H3).
        assert (cv' = cv) by (unfold cell_at in *; congruence). subst cv'.
        apply INL in Hv as (i & c & Hi & Hc & Hv). exists i, c, cv. split; [apply IF; auto|]. auto.
      - intros (i & c & cv & Hi & Hc & Hv & Hcv & N). apply IF in Hi.
        assert (HL : In v (concat ls)) by (apply INL; eauto). split; auto. exists cv. split; auto.
        apply VD in HL as (cv' & H1 & H2 & H3). assert (cv' = cv) by (unfold cell_at in *; congruence). subst; auto. }
    assert (VC : forall v, In v vs -> exists c, cell_at (m_cells P m) v c /\ c_dim c = 0 /\ cell_at (ec_cells e) v c).
    { intros v Hv. apply VD. destruct (drop_tagged_spec _ _ _ _ Hvs) as [DA _]. apply DA in Hv as [Hv _]. apply NI. auto. }
    clear Hvs INL VD NS NI Hls Hfl ls fl.
    destruct vs as [|v0 vs0].
    { inversion H; subst. exists [], [], []. apply effect_no_vertices; auto. }
    set (V := v0 :: vs0) in *. clearbody V. clear v0 vs0.
    apply bind_Ok in H as (bv & Hbv & H). apply bind_Ok in H as ([cp cn] & Hcl & H).
    apply bind_Ok in H as (N & HN & H). apply bind_Ok in H as ([[cs1 vp] np] & H1 & H).
    apply bind_Ok in H as ([[cs2 vn] nn] & H2 & H). apply bind_Ok in H as (cs3 & H3 & H).
    apply bind_Ok in H as (cs4 & H4 & H). apply bind_Ok in H as (cs5 & H5 & H). apply bind_Ok in H as (cs6 & H6 & H).
    inversion H; subst m'; clear H.
    apply mapM_Forall2 in HN. apply split_nodes in HN as (T & HT & HTN).
    (* nodes of the vertices *)
    assert (TT : Forall2 (fun v t => exists c, cell_at (m_cells P m) v c /\ c_nodes c = [t]) V T).
    { clear - HT VC AL. induction HT as [|v t V T (c & Hc & Ht) HT IH]; constructor; [|apply IH; intros; apply VC; right; auto].
      destruct (VC v) as (c' & H1 & H2 & H3); [left; auto|]. assert (c' = c) by (unfold cell_at in *; congruence). subst c'.
      exists c. split; auto. destruct AL as (A0 & _). destruct (A0 _ _ H1 H2) as (t' & E). rewrite E in *. simpl in Ht. congruence. }
    assert (LT : length T = length V) by (symmetry; apply (Forall2_app_nth _ _ _) in TT; apply TT).
    pose proof (StronglySorted_lt_NoDup _ (proj1 IV)) as NDV.
    assert (NDT : NoDup T).
    { clear - TT NDV VC AL. destruct AL as (_ & INJ & _).
      induction TT as [|v t V T (c & Hc & Hn) TT IH]; inversion NDV; subst; constructor; [|apply IH; auto; intros; apply VC; right; auto].
      intros Ht. destruct (Forall2_In_r _ _ _ _ TT Ht) as (v' & Hv' & c' & Hc' & Hn').
      destruct (VC v) as (x & X1 & X2 & _); [left; auto|]. destruct (VC v') as (y & Y1 & Y2 & _); [right; auto|].
      assert (x = c) by (unfold cell_at in *; congruence). assert (y = c') by (unfold cell_at in *; congruence). subst x y.
      assert (v = v') by (eapply INJ; eauto; congruence). subst. auto. }
    destruct (cells_of_positions (ec_cells e) V) as (vl & FV & _).
    { intros v Hv. destruct (VC v Hv) as (c & _ & _ & Hc). eauto. }
    assert (LV : length vl = length V) by (symmetry; apply (Forall2_app_nth _ _ _) in FV; apply FV).
    assert (GV : Forall2 (fun c t => exists r, c_nodes c = t :: r) vl T).
    { clear - FV HT. revert T HT. induction FV as [|v c V vl Hc FV IH]; intros T HT; inversion HT as [|? t ? ? (c' & Hc' & Ht)]; subst; constructor; auto.
      assert (c' = c) by (unfold cell_at in *; congruence). subst. destruct (c_nodes c) as [|t0 r]; simpl in Ht; [discriminate|]. inversion Ht. eauto. }
    set (b := length (m_cells P m)) in *. set (kF := length (ec_f e)) in *. set (kV := length V) in *.
    assert (BASE : length (ec_cells e) = b + 2 * kF) by apply (ed_length _ _ _ ED).
    set (np0 := length (m_points P m)) in *.
    rewrite (clone_vertices_eq _ _ _ vl T) in H1 by auto. inversion H1; subst cs1 vp np; clear H1.
    rewrite (clone_vertices_eq _ _ _ vl T) in H2.
    2:{ eapply Forall2_impl; [|exact FV]. intros x y Hxy. apply cell_at_app; auto. eapply cell_at_lt; eauto. }
    2:{ auto. }
    inversion H2; subst cs2 vn nn; clear H2.
    fold kV in H3, H4, H5, H6. assert (LT' : kV = length T) by (unfold kV; auto).
    assert (FOLD : forall n, fold_left (fun d kv => dset d (fst kv) (snd kv)) (combine V (seq n kV)) [] = combine V (seq n kV)).
    { intros n. unfold kV. rewrite fold_dset_fresh; auto. }
    assert (FOLDT : forall n, fold_left (fun d kv => dset d (fst kv) (snd kv)) (combine T (seq n kV)) [] = combine T (seq n kV)).
    { intros n. rewrite LT'. rewrite fold_dset_fresh; auto. }
    rewrite !FOLD, !FOLDT in H3, H4, H5, H6. clear FOLD FOLDT. rewrite BASE in H3, H4, H5, H6.
    assert (SV : forall q : bool, combine V (seq (b + 2 * kF + if q then 0 else kV) kV) = side_map V (b + 2 * kF) q) by reflexivity.
    assert (STT : forall q : bool, combine T (seq (np0 + if q then 0 else kV) kV) = side_map T np0 q) by (intros; unfold side_map; rewrite LT'; auto).
    pose proof (SV true) as SVt. pose proof (SV false) as SVf. pose proof (STT true) as STt. pose proof (STT false) as STf.
    cbv iota in SVt, SVf, STt, STf. rewrite Nat.add_0_r in SVt, STt. 
    rewrite SVt, STt in H3, H5. rewrite SVf, STf in H4, H6.
    clear SVt SVf STt STf SV STT.
    rewrite (ed_p _ _ _ ED) in H5. rewrite (ed_n _ _ _ ED) in H6.
    assert (DV : forall q : bool, dvals (side_map (ec_f e) b q) = seq (b + if q then 0 else kF) kF) by (intros; apply dvals_combine_seq).
    fold b in H5, H6. rewrite DV in H5, H6. cbv iota in H5, H6. rewrite Nat.add_0_r in H5.
    assert (VB : forall y, In y V -> y < b).
    { intros y Hy. destruct (VC y Hy) as (c & Hc & _). eapply cell_at_lt; eauto. }
    assert (TB : forall y, In y T -> y < np0).
    { intros y Hy. destruct (Forall2_In_l _ _ _ _ HTN Hy) as (x & _ & Hx). apply nth_error_Some. congruence. }
    assert (IDV : forall q x, image (side_map V (b + 2 * kF) q) (image (side_map V (b + 2 * kF) q) x) = image (side_map V (b + 2 * kF) q) x).
    { intros. apply side_map_idem. intros y Hy. apply VB in Hy. lia. }
    assert (IDT : forall q x, image (side_map T np0 q) (image (side_map T np0 q) x) = image (side_map T np0 q) x).
    { intros. apply side_map_idem. auto. }
    destruct (update_vertices_spec _ _ (IDV true) (IDT true) _ _ _ H3) as [L3 U3].
    destruct (update_vertices_spec _ _ (IDV false) (IDT false) _ _ _ H4) as [L4 U4].
    destruct (update_vertices_spec _ _ (IDV true) (IDT true) _ _ _ H5) as [L5 U5].
    destruct (update_vertices_spec _ _ (IDV false) (IDT false) _ _ _ H6) as [L6 U6].
    clear H3 H4 H5 H6.
    set (A1 := map Some (map2 (vertex_copy (p_tag (if_tag P f))) vl (combine (seq (b + 2 * kF) kV) (seq np0 kV)))) in *.
    set (A2 := map Some (map2 (vertex_copy (n_tag (if_tag P f))) vl (combine (seq (b + 2 * kF + kV) kV) (seq (np0 + kV) kV)))) in *.
    assert (LA1 : length A1 = kV). { unfold A1. rewrite map_length, length_map2; auto. rewrite combine_length, !seq_length, LV, Nat.min_id. auto. }
    assert (LA2 : length A2 = kV). { unfold A2. rewrite map_length, length_map2; auto. rewrite combine_length, !seq_length, LV, Nat.min_id. auto. }
    destruct (classify_spec _ _ _ _ _ _ Hcl) as [CP CN].
    assert (CIN := fun i => classify_In _ _ _ _ _ i Hcl).
    assert (NE : forall i, In i (np_unique (filter (fun i => negb (memb i (ec_ids e))) (concat bv))) <->
       exists c, cell_at (m_cells P m) i c /\ vertex_touched (ec_f e) V i c).
    { intros i. rewrite (proj2 (np_unique_spec _) i), filter_In, (by_vertex_spec _ _ _ _ LM M Hbv i), (ed_ids _ _ _ ED).
      unfold vertex_touched. rewrite negb_true_iff, memb_notIn. split.
      - intros [(c & ? & ? & ?) ?]. eauto 6.
      - intros (c & ? & ? & ? & ?). split; [eauto|auto]. }
    set (ne := np_unique (filter (fun i => negb (memb i (ec_ids e))) (concat bv))) in *. clearbody ne.
    assert (NEW : forall j, b <= j -> ~ In j cp /\ ~ In j cn).
    { intros j Hj. assert (X : ~ In j ne). { intros X. apply NE in X as (c & Hc & _). apply cell_at_lt in Hc. fold b in Hc. lia. }
      rewrite CP, CN. tauto. }
    exists V, T, N. constructor; auto; cbn [m_cells m_points].
    - rewrite L6, L5, L4, L3, !app_length, LA1, LA2, BASE. fold b kF kV. lia.
    - (* old cells *)
      intros i c Hc. pose proof (cell_at_lt _ _ _ Hc) as Li. fold b in Li.
      destruct (ed_keeps _ _ _ _ _ ED Hc) as (c1 & E1 & B1 & B2 & B3 & B4 & B5 & B6 & B7 & B8 & B9).
      destruct (CL i c Hc) as (Hid & D3 & Ls & Sb).
      assert (C2 : forall x, cell_at ((ec_cells e ++ A1) ++ A2) i x <-> cell_at (ec_cells e) i x).
      { intros x. rewrite !cell_at_app; [tauto|rewrite BASE; lia|rewrite app_length, BASE; lia]. }
      destruct (U3 i) as [P3 N3]. destruct (U4 i) as [P4 N4]. destruct (U5 i) as [_ N5]. destruct (U6 i) as [_ N6].
      assert (S5 : ~ In i (seq b kF)) by (rewrite in_seq; lia). assert (S6 : ~ In i (seq (b + kF) kF)) by (rewrite in_seq; lia).
      assert (Q : exists q, (touched (ec_f e) V i c -> on_side P m f c q) /\
         (vertex_touched (ec_f e) V i c -> cell_at cs6 i (upd_v (side_map V (b + 2 * kF) q) (side_map T np0 q) c1)) /\
         (~ vertex_touched (ec_f e) V i c -> cell_at cs6 i c1)).
      { destruct (in_dec Nat.eq_dec i ne) as [Hi|Hi].
        - apply NE in Hi as HH. destruct HH as (c' & Hc' & VT). assert (c' = c) by (unfold cell_at in *; congruence). subst c'.
          assert (QP : forall q, positive_q P (mk_mesh P (ec_cells e) (m_points P m)) f i = Ok q -> on_side P m f c q).
          { intros q PQ. apply positive_q_spec in PQ as (x & Hx & OS). cbn [m_cells] in Hx.
            assert (x = c1) by (unfold cell_at in *; congruence). subst x. exact (proj1 (on_side_nodes m (ec_cells e) f c c1 q B4) OS). }
          destruct (in_dec Nat.eq_dec i cp) as [Ip|Ip].
          + destruct (proj1 (CP i) Ip) as [_ PQ]. assert (NN : ~ In i cn) by (intros X; apply CN in X as [_ X]; congruence).
            exists true. split; [intros _; auto|]. split; [intros _|tauto].
            destruct (P3 Ip) as (y & Hy & Hy2). apply C2 in Hy. assert (y = c1) by (unfold cell_at in *; congruence). subst y.
            unfold cell_at. rewrite N6, N5, N4 by auto. exact Hy2.
          + assert (I' : In i cn) by (destruct (CIN i Hi); tauto). destruct (proj1 (CN i) I') as [_ PQ].
            exists false. split; [intros _; auto|]. split; [intros _|tauto].
            destruct (P4 I') as (y & Hy & Hy2). unfold cell_at in Hy. rewrite N3 in Hy by auto. apply C2 in Hy.
            assert (y = c1) by (unfold cell_at in *; congruence). subst y. unfold cell_at. rewrite N6, N5 by auto. exact Hy2.
        - assert (NV : ~ vertex_touched (ec_f e) V i c) by (intros X; apply Hi, NE; eauto).
          assert (K : cell_at cs6 i c1).
          { assert (X1 : ~ In i cp) by (rewrite CP; tauto). assert (X2 : ~ In i cn) by (rewrite CN; tauto).
            unfold cell_at. rewrite N6, N5, N4, N3 by assumption. apply C2; auto. }
          destruct (ed_old _ _ _ ED i c Hc) as [(_ & _ & q & OS & _)|[NN _]].
          + exists q. split; [auto|]. split; [tauto|auto].
          + exists true. split; [|split; [tauto|auto]]. intros [X|(X1 & X2 & X3)]; exfalso; [apply NN; exact X|].
            apply NV. split; auto. }
      destruct Q as (q & Q1 & Q2 & Q3).
      assert (DN : forall v, In v V -> exists c, cell_at (m_cells P m) v c /\ c_dim c = 0).
      { intros v Hv. destruct (VC v Hv) as (x & ? & ? & _). eauto. }
      assert (VTD : {vertex_touched (ec_f e) V i c} + {~ vertex_touched (ec_f e) V i c}).
      { unfold vertex_touched. destruct (listed_dec V (nth 0 (c_sub c) [])); [|right; tauto].
        destruct (in_dec Nat.eq_dec i (ec_f e)); [right; tauto|].
        destruct (Nat.eq_dec (c_dim c) 1); [left; tauto|]. destruct (Nat.eq_dec (c_dim c) 2); [left; tauto|right; tauto]. }
      destruct VTD as [VT|NVT].
      + specialize (Q2 VT). destruct VT as (VT1 & VT2 & VT3).
        destruct (upd_v_fields (side_map V (b + 2 * kF) q) (side_map T np0 q) c1) as (F1 & F2 & F3 & F4 & F5).
        exists (upd_v (side_map V (b + 2 * kF) q) (side_map T np0 q) c1), q.
        split; [exact Q2|]. split; [congruence|]. split; [congruence|]. split; [congruence|]. split; [congruence|]. split; [exact Q1|].
        split. { intros D2. rewrite upd_v_nth_other by lia. apply B9; auto; [|lia]. intros _ (x & X1 & X2). apply Q1. left. split; auto. exists x; auto. }
        split. { intros _ _. rewrite upd_v_nth by lia. rewrite map_side_map, B5. split; auto.
          rewrite F5, map_side_map, B4. fold np0 kV. rewrite LT'. auto. }
        split. { intros [D|[D|D]]; [lia|lia|tauto]. }
        rewrite upd_v_nth_other by lia. destruct VT1 as [D|D]; [rewrite B6 by lia; auto|rewrite D; auto].
      + specialize (Q3 NVT). exists c1, q. split; [exact Q3|].
        split; [exact B1|]. split; [exact B2|]. split; [exact B3|]. split; [exact B7|]. split; [exact Q1|].
        split. { intros D2. apply B9; auto; [|lia]. intros _ (x & X1 & X2). apply Q1. left. split; auto. exists x; auto. }
        split. { intros D NF. assert (NL : ~ listed V (nth 0 (c_sub c) [])) by (intros X; apply NVT; split; auto).
          rewrite (not_listed_relabel V) by auto. rewrite (not_listed_relabel T); [auto|].
          eapply not_listed_nodes; eauto. }
        split. { intros [D|[D|D]]; apply B6; try lia. apply EDGE in D as (c' & Hc' & Hd' & _).
          assert (c' = c) by (unfold cell_at in *; congruence). subst; lia. }
        destruct (Nat.eq_dec (c_dim c) 2) as [D|D]; [rewrite D; auto|rewrite B6; auto].
    - (* edge copies *)
      intros q k i c Hk Hc. cbv zeta. fold b kF kV np0.
      pose proof (ed_new _ _ _ ED q k i c Hk Hc) as E0. cbv zeta in E0. fold b kF in E0.
      assert (Lk : k < kF) by (apply nth_error_Some; congruence).
      destruct (EDGE i) as (c' & Hc' & Hd' & _); [eapply nth_error_In; eauto|].
      assert (c' = c) by (unfold cell_at in *; congruence). subst c'. destruct (CL i c Hc) as (Hid & D3 & Ls & Sb).
      rewrite (edge_copy_eq _ c _ i) in E0 by (auto; lia).
      set (j := b + (if q then 0 else kF) + k) in *.
      assert (Bj : b <= j < b + 2 * kF) by (unfold j; destruct q; lia).
      destruct (NEW j) as [NP NN]; [lia|].
      destruct (U3 j) as [_ N3]. destruct (U4 j) as [_ N4]. destruct (U5 j) as [P5 N5]. destruct (U6 j) as [P6 N6].
      assert (C2 : forall x, cell_at ((ec_cells e ++ A1) ++ A2) j x <-> cell_at (ec_cells e) j x).
      { intros x. rewrite !cell_at_app; [tauto|rewrite BASE; lia|rewrite app_length, BASE; lia]. }
      assert (FIN : cell_at cs6 j (upd_v (side_map V (b + 2 * kF) q) (side_map T np0 q)
        (mk_cell 1 j (c_nodes c) (Some (if q then p_tag (if_tag P f) else n_tag (if_tag P f))) [nth 0 (c_sub c) []; [j; i]]))).
      { destruct q.
        - assert (I5 : In j (seq b kF)) by (rewrite in_seq; unfold j; lia).
          assert (I6 : ~ In j (seq (b + kF) kF)) by (rewrite in_seq; unfold j; lia).
          destruct (P5 I5) as (y & Hy & Hy2). unfold cell_at in Hy. rewrite N4, N3 in Hy by auto. apply C2 in Hy.
          assert (Ey : Some (Some y) = Some (Some (mk_cell 1 j (c_nodes c) (Some (p_tag (if_tag P f))) [nth 0 (c_sub c) []; [j; i]])))
            by (unfold cell_at in *; congruence).
          inversion Ey. subst y. unfold cell_at. rewrite N6 by auto. exact Hy2.
        - assert (I5 : ~ In j (seq b kF)) by (rewrite in_seq; unfold j; lia).
          assert (I6 : In j (seq (b + kF) kF)) by (rewrite in_seq; unfold j; lia).
          destruct (P6 I6) as (y & Hy & Hy2). unfold cell_at in Hy. rewrite N5, N4, N3 in Hy by auto. apply C2 in Hy.
          assert (Ey : Some (Some y) = Some (Some (mk_cell 1 j (c_nodes c) (Some (n_tag (if_tag P f))) [nth 0 (c_sub c) []; [j; i]])))
            by (unfold cell_at in *; congruence).
          inversion Ey. subst y. exact Hy2. }
      unfold upd_v, set_nodes, set_sub in FIN. cbn [c_dim c_id c_nodes c_mat c_sub nth set_at] in FIN.
      rewrite !map_side_map in FIN. rewrite <- LT' in FIN. fold kV in FIN. destruct q; exact FIN.
    - (* vertex copies *)
      intros q k v c Hk Hc. cbv zeta. fold b kF kV np0.
      assert (Lk : k < kV) by (apply nth_error_Some; congruence).
      set (j := b + 2 * kF + (if q then 0 else kV) + k) in *.
      destruct (NEW j) as [NP NN]; [unfold j; lia|].
      destruct (U3 j) as [_ N3]. destruct (U4 j) as [_ N4]. destruct (U5 j) as [_ N5]. destruct (U6 j) as [_ N6].
      unfold cell_at. rewrite N6, N5, N4, N3; auto; try (rewrite in_seq; unfold j; lia).
      destruct (Forall2_nth_l _ _ _ _ _ FV Hk) as (c' & Hk' & Hc').
      destruct (VC v) as (c'' & X1 & _ & X2); [eapply nth_error_In; eauto|].
      assert (c'' = c) by (unfold cell_at in *; congruence). subst c''. assert (c' = c) by (unfold cell_at in *; congruence). subst c'.
      unfold j. destruct q.
      + rewrite <- app_assoc. replace (b + 2 * kF + 0 + k) with (length (ec_cells e) + k) by lia. rewrite nth_error_app_r.
        rewrite nth_error_app1 by lia. unfold A1. rewrite nth_error_map, nth_error_map2, Hk'.
        rewrite (nth_error_combine _ _ k (b + 2 * kF + k) (np0 + k)) by (apply nth_error_seq; auto). cbn [option_map]. unfold vertex_copy.
        cbn [fst snd]. replace (np0 + 0 + k) with (np0 + k) by lia. rewrite BASE. reflexivity.
      + replace (b + 2 * kF + kV) with (length (ec_cells e ++ A1)) at 1 by (rewrite app_length; lia). rewrite nth_error_app_r.
        unfold A2. rewrite nth_error_map, nth_error_map2, Hk'.
        rewrite (nth_error_combine _ _ k (b + 2 * kF + kV + k) (np0 + kV + k)) by (apply nth_error_seq; auto). reflexivity.
  Qed.
End Cut.
