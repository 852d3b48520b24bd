(** * Lemmas: cutting along embedded shapes, C31-C34 *)
From Coq Require Import List Arith ZArith Bool Lia Sorted Permutation.
From Verif Require Import Base BaseProof MeshModel MeshSpec GraphModel GraphProof CutModel CutSpec.
Import ListNotations.

(** ** replacing entries *)
Lemma replace_entries_spec m suf : forall pre,
  fold_left (replace_entry m) (seq (length pre) (length suf)) (pre ++ suf) = pre ++ map (image m) suf.
Proof.
  induction suf as [|x suf IH]; intros pre; simpl; [rewrite app_nil_r; auto|].
  assert (E : replace_entry m (pre ++ x :: suf) (length pre) = (pre ++ [image m x]) ++ suf).
  { unfold replace_entry, image. rewrite nth_error_app2 by auto. rewrite Nat.sub_diag. cbn [nth_error].
    rewrite <- app_assoc. cbn [app]. destruct (dget m x); auto.
    clear IH. induction pre; simpl; auto. f_equal. auto. }
  rewrite E. specialize (IH (pre ++ [image m x])). rewrite app_length in IH. simpl in IH.
  replace (S (length pre)) with (length pre + 1) by lia. rewrite IH, <- app_assoc. reflexivity.
Qed.
Lemma replace_entries_map m a : replace_entries m a = map (image m) a.
Proof. exact (replace_entries_spec m a []). Qed.

Lemma get_at_Ok {A} (l : list A) i x : get_at l i = Ok x <-> nth_error l i = Some x.
Proof. unfold get_at. destruct (nth_error l i); split; congruence. Qed.
Lemma get_at_nth {A} (l : list A) i d : i < length l -> get_at l i = Ok (nth i l d).
Proof. intros. apply get_at_Ok. apply nth_error_nth'. auto. Qed.

Lemma update_entity_Ok dim cs id m cs' : update_entity_with_dimension dim cs id m = Ok cs' <->
  exists c, cell_at cs id c /\ dim < length (c_sub c) /\
    cs' = set_at cs id (Some (set_sub c dim (map (image m) (nth dim (c_sub c) [])))).
Proof.
  unfold update_entity_with_dimension. split.
  - intros H. apply bind_Ok in H as (c & Hc & H). apply bind_Ok in H as (ids & Hi & H). inversion H.
    apply cell_of_at in Hc. apply get_at_Ok in Hi. exists c. split; auto. split.
    + apply nth_error_Some. congruence.
    + rewrite replace_entries_map, (nth_error_nth _ _ [] Hi). auto.
  - intros (c & Hc & Hd & ->). apply cell_of_at in Hc. rewrite Hc. cbn [bind]. rewrite (get_at_nth _ _ []) by auto.
    cbn [bind]. rewrite replace_entries_map. auto.
Qed.
Lemma update_nodes_Ok cs id m cs' : update_nodes_ids cs id m = Ok cs' <->
  exists c, cell_at cs id c /\ cs' = set_at cs id (Some (set_nodes c (map (image m) (c_nodes c)))).
Proof.
  unfold update_nodes_ids. split.
  - intros H. apply bind_Ok in H as (c & Hc & H). inversion H. apply cell_of_at in Hc. exists c. split; auto.
    rewrite replace_entries_map. auto.
  - intros (c & Hc & ->). apply cell_of_at in Hc. rewrite Hc. cbn [bind]. rewrite replace_entries_map. auto.
Qed.

(** ** loops that modify cells in place *)
Lemma cell_at_lt (cs : cells) i c : cell_at cs i c -> i < length cs.
Proof. unfold cell_at. intros. apply nth_error_Some. congruence. Qed.
Lemma cell_at_set (cs : cells) i (c : cell) j : i < length cs ->
  nth_error (set_at cs i (Some c)) j = if i =? j then Some (Some c) else nth_error cs j.
Proof.
  intros H. rewrite nth_error_set_at. destruct (Nat.eqb_spec i j) as [->|].
  - destruct (Nat.eq_dec j j); [|lia]. destruct (Nat.ltb_spec j (length cs)); [auto|lia].
  - destruct (Nat.eq_dec i j); [lia|auto].
Qed.
Lemma modify_all (step : cells -> nat -> res cells) (u : cell -> cell) :
  (forall cs i cs', step cs i = Ok cs' -> exists c, cell_at cs i c /\ cs' = set_at cs i (Some (u c))) ->
  (forall c, u (u c) = u c) ->
  forall ids cs cs', foldM step ids cs = Ok cs' ->
  length cs' = length cs /\ forall i,
    (In i ids -> exists c, cell_at cs i c /\ cell_at cs' i (u c)) /\
    (~ In i ids -> nth_error cs' i = nth_error cs i).
Proof.
  intros ST ID. induction ids as [|a ids IH]; intros cs cs' H; simpl in H.
  - inversion H; subst. split; auto. intros i. split; [intros []|auto].
  - apply bind_Ok in H as (cs1 & H1 & H2). apply ST in H1 as (c & Hc & ->).
    pose proof (cell_at_lt _ _ _ Hc) as L.
    destruct (IH _ _ H2) as (LN & IHi). rewrite length_set_at in LN. split; auto. intros i.
    destruct (IHi i) as [A B]. destruct (in_dec Nat.eq_dec i ids) as [I|I].
    + split; [|simpl; tauto]. intros _. destruct (A I) as (c1 & H3 & H4).
      unfold cell_at in H3. rewrite cell_at_set in H3 by auto. destruct (Nat.eqb_spec a i) as [->|].
      * inversion H3; subst. exists c. split; auto. rewrite <- ID. auto.
      * exists c1. auto.
    + specialize (B I). rewrite cell_at_set in B by auto. split.
      * intros [->|]; [|tauto]. exists c. split; auto. rewrite Nat.eqb_refl in B. exact B.
      * intros NI. destruct (Nat.eqb_spec a i) as [->|]; [simpl in NI; tauto|auto].
Qed.
Lemma modify_succeeds (step : cells -> nat -> res cells) (u : cell -> cell) (good : cell -> Prop) :
  (forall cs i c, cell_at cs i c -> good c -> step cs i = Ok (set_at cs i (Some (u c)))) ->
  (forall c, good c -> good (u c)) ->
  forall ids cs, (forall i, In i ids -> exists c, cell_at cs i c /\ good c) -> exists cs', foldM step ids cs = Ok cs'.
Proof.
  intros ST GD. induction ids as [|a ids IH]; intros cs H; simpl; [eauto|].
  destruct (H a) as (c & Hc & G); [left; auto|]. rewrite (ST _ _ _ Hc G). cbn [bind].
  apply IH. intros i Hi. destruct (H i) as (c1 & Hc1 & G1); [right; auto|].
  unfold cell_at. rewrite cell_at_set by (eapply cell_at_lt; eauto).
  destruct (Nat.eqb_spec a i) as [->|]; [exists (u c)|exists c1]; auto.
Qed.

(** ** numbers *)
Lemma StronglySorted_lt_NoDup l : StronglySorted lt l -> NoDup l.
Proof.
  induction 1; constructor; auto. intros H1. rewrite Forall_forall in H0. specialize (H0 _ H1). lia.
Qed.
Lemma StronglySorted_le_Sorted l : Sorted le l -> StronglySorted le l.
Proof. apply Sorted_StronglySorted. intros a b c; lia. Qed.
Lemma dedup_sorted_spec l : StronglySorted le l ->
  StronglySorted lt (dedup_sorted l) /\ forall x, In x (dedup_sorted l) <-> In x l.
Proof.
  induction l as [|x l IH]; intros S; [split; [constructor|tauto]|].
  inversion S as [|? ? S1 F]; subst. destruct (IH S1) as [A B]. destruct l as [|y l].
  - split; [repeat constructor|tauto].
  - cbn [dedup_sorted]. destruct (Nat.eqb_spec x y) as [->|N].
    + split; auto. intros z. rewrite B. simpl. tauto.
    + split.
      * constructor; auto. rewrite Forall_forall in *. intros z Hz. apply B in Hz.
        assert (x <= y) by (apply F; left; auto).
        assert (y <= z). { inversion S1; subst. destruct Hz as [->|Hz]; auto. rewrite Forall_forall in *; auto. }
        lia.
      * intros z. split; intros [->|H]; [left; auto|right; apply B; auto|left; auto|right; apply B; auto].
Qed.
Lemma np_unique_spec l : StronglySorted lt (np_unique l) /\ forall x, In x (np_unique l) <-> In x l.
Proof.
  unfold np_unique. destruct (dedup_sorted_spec (sort_nat l)) as [A B].
  - apply StronglySorted_le_Sorted, sort_nat_sorted.
  - split; auto. intros x. rewrite B. split; apply Permutation_in; [|apply Permutation_sym]; apply sort_nat_perm.
Qed.

(** ** relabelling *)
Lemma pos_In x l : (exists k, pos x l = Some k) <-> In x l.
Proof.
  induction l as [|y l IH]; simpl.
  - split; [intros (k & H); discriminate|tauto].
  - destruct (Nat.eqb_spec x y) as [->|N]; [split; eauto|]. split.
    + intros (k & H). right. apply IH. destruct (pos x l); simpl in H; [eauto|discriminate].
    + intros [H|H]; [congruence|]. apply IH in H as (k & ->). simpl; eauto.
Qed.
Lemma pos_None x l : pos x l = None <-> ~ In x l.
Proof.
  rewrite <- pos_In. destruct (pos x l); split; try congruence; auto.
  - intros H. exfalso. apply H. eauto.
  - intros _ (k & H). discriminate.
Qed.
Lemma pos_nth x l k : NoDup l -> pos x l = Some k <-> nth_error l k = Some x.
Proof.
  revert k; induction l as [|y l IH]; intros k ND; simpl.
  - split; [discriminate|destruct k; discriminate].
  - inversion ND; subst. destruct (Nat.eqb_spec x y) as [->|N].
    + split; [intros E; inversion E; auto|]. intros E. destruct k; auto. simpl in E. apply nth_error_In in E. tauto.
    + destruct k; simpl.
      * split; [destruct (pos x l); discriminate|congruence].
      * rewrite <- IH by auto. destruct (pos x l); simpl; split; congruence.
Qed.
Lemma pos_lt x l k : pos x l = Some k -> k < length l.
Proof.
  revert k; induction l as [|y l IH]; simpl; intros k H; [discriminate|].
  destruct (x =? y); [inversion H; lia|]. destruct (pos x l); simpl in H; [|discriminate]. inversion H.
  specialize (IH _ eq_refl). lia.
Qed.
Lemma dget_combine_seq l base x : dget (combine l (seq base (length l))) x = option_map (fun k => base + k) (pos x l).
Proof.
  revert base; induction l as [|y l IH]; intros base; simpl; auto.
  destruct (eq_dec x y) as [->|N]; [rewrite Nat.eqb_refl; simpl; f_equal; lia|].
  destruct (Nat.eqb_spec x y); [congruence|]. rewrite IH. destruct (pos x l); simpl; auto.
Qed.
Lemma image_relabel l base x : image (combine l (seq base (length l))) x = relabel l base x.
Proof. unfold image, relabel. rewrite dget_combine_seq. destruct (pos x l); auto. Qed.
Lemma relabel_other l base x : ~ In x l -> relabel l base x = x.
Proof. intros H. unfold relabel. apply pos_None in H. rewrite H. auto. Qed.
Lemma relabel_fresh l base x : (forall y, In y l -> y < base) -> relabel l base (relabel l base x) = relabel l base x.
Proof.
  intros H. destruct (in_dec Nat.eq_dec x l) as [I|I].
  - apply relabel_other. intros J. apply H in J. unfold relabel in J. apply pos_In in I as (k & E). rewrite E in J. lia.
  - rewrite !(relabel_other l base x); auto.
Qed.
Lemma relabel_id l base a : (forall x, In x a -> ~ In x l) -> map (relabel l base) a = a.
Proof. intros H. rewrite <- (map_id a) at 2. apply map_ext_in. intros x Hx. apply relabel_other. auto. Qed.
Lemma map_image_relabel l base a : map (image (combine l (seq base (length l)))) a = map (relabel l base) a.
Proof. apply map_ext. intros; apply image_relabel. Qed.
Lemma fold_dset_fresh (l : list nat) : forall base (d : dict nat nat), NoDup l -> (forall x, In x l -> dget d x = None) ->
  fold_left (fun d kv => dset d (fst kv) (snd kv)) (combine l (seq base (length l))) d = d ++ combine l (seq base (length l)).
Proof.
  induction l as [|x l IH]; intros base d ND H; simpl; [rewrite app_nil_r; auto|].
  inversion ND; subst. rewrite dset_new by (apply H; left; auto). rewrite IH.
  - rewrite <- app_assoc. reflexivity.
  - auto.
  - intros y Hy. rewrite dget_app, (H y) by (right; auto). simpl. destruct (eq_dec y x); congruence.
Qed.

(** ** graphs of layered meshes *)
Lemma gather_layered fuel cs k i c :
  layered_mesh cs -> cell_at cs i c -> k < c_dim c ->
  gather_graph_edges (S fuel) cs (Z.of_nat k) c = Ok (edges_of k c).
Proof.
  intros [_ CL] Hc Hk. destruct (CL i c Hc) as (Hid & D3 & Ls & Hsub).
  cbn [gather_graph_edges]. rewrite memb_dim by lia. rewrite Nat2Z.id.
  unfold get_at. rewrite (nth_error_nth' (c_sub c) []) by lia. cbn [bind].
  rewrite (mapM_Ok_map _ (fun j => [(index c, (k, j) : vid)])).
  - simpl. f_equal. unfold edges_of. induction (nth k (c_sub c) []); simpl; auto. f_equal; auto.
  - intros j Hj. destruct (Hsub k j Hk Hj) as (c' & Hc' & Hd').
    rewrite (proj2 (cell_of_at cs j c') Hc'). cbn [bind].
    rewrite Hd', Z.eqb_refl. destruct (CL j c' Hc') as (Hid' & _).
    unfold index. rewrite Hd', Hid'. reflexivity.
Qed.
Lemma all_cells_layered cs : layered_mesh cs -> exists l, all_cells cs = Ok l /\ map Some l = cs.
Proof.
  intros [CF _]. unfold all_cells.
  assert (H : forall c, In c cs -> exists x, c = Some x).
  { intros o Ho. apply In_nth_error in Ho as (i & Hi).
    destruct (CF i) as (x & Hx); [apply nth_error_Some; congruence|].
    unfold cell_at in Hx. exists x; congruence. }
  clear CF. induction cs as [|o cs IH].
  - exists []; auto.
  - destruct IH as (l & E & M); [intros; apply H; right; auto|].
    destruct (H o (or_introl eq_refl)) as (x & ->).
    exists (x :: l). simpl. rewrite E. simpl. rewrite M. auto.
Qed.
Lemma build_graph_layered fuel cs d k : layered_mesh cs -> k < d ->
  exists l, map Some l = cs /\
    build_graph (S fuel) cs (Z.of_nat d) (Z.of_nat d - Z.of_nat k)
    = Ok (from_edgelist (flat_map (edges_of k) (filter (fun c => c_dim c =? d) l))).
Proof.
  intros CL Hk. destruct (all_cells_layered cs CL) as (l & E & M). exists l; split; auto.
  unfold build_graph. rewrite E. cbn [bind]. unfold graph_of.
  replace (Z.of_nat d - (Z.of_nat d - Z.of_nat k))%Z with (Z.of_nat k) by lia.
  assert (FE : filter (fun c => (Z.of_nat (c_dim c) =? Z.of_nat d)%Z) l = filter (fun c => c_dim c =? d) l).
  { apply filter_ext. intros c. destruct (c_dim c =? d) eqn:Q; [apply Nat.eqb_eq in Q|apply Nat.eqb_neq in Q]; lia. }
  rewrite FE. rewrite (mapM_Ok_map _ (edges_of k)).
  - cbn [bind]. rewrite flat_map_concat_map. reflexivity.
  - intros c Hc. apply filter_In in Hc as [Hc Hd]. apply Nat.eqb_eq in Hd.
    apply (In_all_cells cs l c M) in Hc as (i & Hi). eapply gather_layered; eauto. lia.
Qed.
Lemma In_edges_layered cs l d k j e : layered_mesh cs -> map Some l = cs ->
  In ((d, j), (k, e)) (flat_map (edges_of k) (filter (fun c => c_dim c =? d) l)) <->
  exists c, cell_at cs j c /\ c_dim c = d /\ In e (nth k (c_sub c) []).
Proof.
  intros [_ CL] M. rewrite in_flat_map. split.
  - intros (c & Hc & H). apply filter_In in Hc as [Hc Hd]. apply Nat.eqb_eq in Hd.
    apply (In_all_cells cs l c M) in Hc as (i & Hi). unfold edges_of in H. apply in_map_iff in H as (x & Hx & Hin).
    unfold index in Hx. inversion Hx; subst. destruct (CL i c Hi) as (<- & _). exists c; auto.
  - intros (c & Hc & Hd & Hin). exists c. split.
    + apply filter_In. split; [apply (In_all_cells cs l c M); eauto|]. apply Nat.eqb_eq. auto.
    + unfold edges_of. apply in_map_iff. exists e. split; auto. unfold index. destruct (CL j c Hc) as (-> & _). subst; auto.
Qed.
(** predecessors of a list of nodes *)
Lemma preds_spec cs l d k ids r : layered_mesh cs -> map Some l = cs ->
  preds (from_edgelist (flat_map (edges_of k) (filter (fun c => c_dim c =? d) l))) k ids = Ok r ->
  forall j, In j r <-> exists e c, In e ids /\ cell_at cs j c /\ c_dim c = d /\ In e (nth k (c_sub c) []).
Proof.
  intros CL M H j. unfold preds in H. apply bind_Ok in H as (ls & H & E). inversion E; subst r; clear E.
  apply mapM_Forall2 in H. rewrite in_map_iff. split.
  - intros ([a b] & E & Hin). simpl in E; subst b. apply in_concat in Hin as (xs & Hxs & Hin).
    clear - H CL M Hxs Hin. induction H as [|e y ids ls He H IH]; [destruct Hxs|].
    destruct Hxs as [->|Hxs].
    + apply predecessors_spec in He as [_ He]. apply He in Hin.
      assert (a = d).
      { apply in_flat_map in Hin as (c & Hc & Hin). apply filter_In in Hc as [_ Hc]. apply Nat.eqb_eq in Hc.
        unfold edges_of in Hin. apply in_map_iff in Hin as (x & Hx & _). unfold index in Hx. inversion Hx. congruence. }
      subst a. eapply In_edges_layered in Hin as (c & Hc); eauto. exists e, c. simpl. tauto.
    + destruct (IH Hxs) as (e' & c & ? & ?). exists e', c. simpl. tauto.
  - intros (e & c & He & Hc & Hd & Hin). exists (d, j). split; auto. apply in_concat.
    clear - H CL M He Hc Hd Hin. induction H as [|e' y ids ls Hp H IH]; [destruct He|].
    destruct He as [->|He].
    + exists y. split; [left; auto|]. apply predecessors_spec in Hp as [_ Hp]. apply Hp.
      eapply In_edges_layered; eauto.
    + destruct (IH He) as (x & ? & ?). exists x. simpl. auto.
Qed.
Lemma preds_succeeds cs l d k ids : layered_mesh cs -> map Some l = cs ->
  (forall e, In e ids -> exists j c, cell_at cs j c /\ c_dim c = d /\ In e (nth k (c_sub c) [])) ->
  exists r, preds (from_edgelist (flat_map (edges_of k) (filter (fun c => c_dim c =? d) l))) k ids = Ok r.
Proof.
  intros CL M H. unfold preds.
  assert (X : exists ls, mapM (fun id => predecessors (from_edgelist (flat_map (edges_of k) (filter (fun c => c_dim c =? d) l))) (k, id)) ids = Ok ls).
  { induction ids as [|e ids IH]; [exists []; reflexivity|].
    destruct IH as (ls & E); [intros; apply H; right; auto|].
    destruct (H e) as (j & c & Hc & Hd & Hin); [left; auto|].
    cbn [mapM]. unfold predecessors at 1.
    assert (MB : memb ((k, e) : vid) (g_nodes (from_edgelist (flat_map (edges_of k) (filter (fun c => c_dim c =? d) l)))) = true).
    { apply memb_In. apply In_nodes_from_edgelist. exists ((d, j), (k, e)). split; auto. eapply In_edges_layered; eauto. }
    change (nat * nat)%type with vid in *. rewrite MB. cbn [bind]. rewrite E. cbn [bind]. eauto. }
  destruct X as (ls & ->). cbn [bind]. eauto.
Qed.

(** ** interface edges *)
Lemma filter_positions_sorted (Q : cell * nat -> bool) l k n :
  StronglySorted lt (map snd (filter Q (combine l (seq k n)))).
Proof.
  revert k n; induction l as [|c l IH]; intros k [|n]; simpl; try constructor.
  assert (G : forall j, In j (map snd (filter Q (combine l (seq (S k) n)))) -> k < j).
  { intros j Hj. apply in_map_iff in Hj as ([x y] & E & Hj). simpl in E; subst. apply filter_In in Hj as [Hj _].
    apply in_combine_r in Hj. apply in_seq in Hj. lia. }
  destruct (Q (c, k)); simpl; auto. constructor; auto. apply Forall_forall. auto.
Qed.
Lemma In_combine_seq {A} (l : list A) x i k : In (x, i) (combine l (seq k (length l))) <-> k <= i /\ nth_error l (i - k) = Some x.
Proof.
  revert k; induction l as [|a l IH]; intros k; simpl.
  - split; [tauto|]. intros [_ H]. destruct (i - k); discriminate.
  - rewrite IH. split.
    + intros [E|[H1 H2]]; [inversion E; subst; rewrite Nat.sub_diag; auto|].
      split; [lia|]. replace (i - k) with (S (i - S k)) by lia. auto.
    + intros [H1 H2]. destruct (Nat.eq_dec i k) as [->|N].
      * rewrite Nat.sub_diag in H2. inversion H2. auto.
      * right. split; [lia|]. replace (i - k) with (S (i - S k)) in H2 by lia. auto.
Qed.
Lemma f_positions_spec cs tag : layered_mesh cs ->
  exists fs, f_positions cs tag = Ok fs /\ increasing_list fs (interface_edge cs tag).
Proof.
  intros CL. destruct (all_cells_layered cs CL) as (l & E & M). unfold f_positions. rewrite E. cbn [bind].
  eexists. split; [reflexivity|]. split; [apply filter_positions_sorted|].
  intros i. rewrite in_map_iff. unfold interface_edge, cell_at. split.
  - intros ([c j] & Ej & H). simpl in Ej; subst j. apply filter_In in H as [H Q]. apply In_combine_seq in H as [_ H].
    rewrite Nat.sub_0_r in H. simpl in Q. apply andb_prop in Q as [Q1 Q2]. rewrite eqb_true in Q1. apply Nat.eqb_eq in Q2.
    exists c. rewrite <- M, nth_error_map, H. auto.
  - intros (c & Hc & Hd & Hm). exists (c, i). split; auto. apply filter_In. split.
    + apply In_combine_seq. rewrite Nat.sub_0_r. split; [lia|]. rewrite <- M, nth_error_map in Hc.
      destruct (nth_error l i); [|discriminate]. simpl in Hc. congruence.
    + simpl. rewrite Hm, eqb_refl, Hd. auto.
Qed.

(** ** copies *)
Definition edge_copy (tag : Z) (c : cell) (new : nat) : cell :=
  set_sub (mk_cell (c_dim c) new (c_nodes c) (Some tag) (c_sub c)) (c_dim c) [new; c_id c].
Fixpoint map2 {A B C} (f : A -> B -> C) (l : list A) (l' : list B) : list C :=
  match l, l' with a :: l, b :: l' => f a b :: map2 f l l' | _, _ => [] end.
Lemma nth_error_map2 {A B C} (f : A -> B -> C) l l' k :
  nth_error (map2 f l l') k = match nth_error l k, nth_error l' k with Some a, Some b => Some (f a b) | _, _ => None end.
Proof.
  revert l' k; induction l; intros [|b l'] [|k]; simpl; auto.
  - destruct (nth_error l k); auto.
Qed.
Lemma length_map2 {A B C} (f : A -> B -> C) l l' : length l = length l' -> length (map2 f l l') = length l.
Proof. revert l'; induction l; destruct l'; simpl; intros; try discriminate; auto. Qed.
Lemma cell_at_app cs cs' i c : i < length cs -> cell_at (cs ++ cs') i c <-> cell_at cs i c.
Proof. intros. unfold cell_at. rewrite nth_error_app1; tauto. Qed.

Lemma clone_edges_eq tag fs : forall cs l new m, Forall2 (cell_at cs) fs l ->
  clone_edges cs fs new tag m =
  Ok (cs ++ map Some (map2 (edge_copy tag) l (seq new (length fs))),
      fold_left (fun d kv => dset d (fst kv) (snd kv)) (combine (map c_id l) (seq new (length fs))) m).
Proof.
  induction fs as [|i fs IH]; intros cs l new m F; inversion F; subst; cbn [clone_edges length seq map map2 combine fold_left].
  - rewrite app_nil_r. auto.
  - rewrite (proj2 (cell_of_at cs i y)) by auto. cbn [bind].
    rewrite (IH _ l').
    + f_equal. f_equal.
      * rewrite <- app_assoc. cbn [app]. unfold edge_copy at 2. f_equal. f_equal. f_equal. f_equal. f_equal. lia.
      * cbn [fst snd]. do 3 f_equal. lia.
    + eapply Forall2_impl; [|eauto]. intros a b Hab. apply cell_at_app; auto. eapply cell_at_lt; eauto.
Qed.
Definition vertex_copy (tag : Z) (c : cell) (ni : nat * nat) : cell :=
  mk_cell 0 (fst ni) [snd ni] (match c_mat c with None => None | Some _ => Some tag end) [[snd ni]].
Lemma clone_vertices_eq tag vs : forall cs l ts new node mv mn,
  Forall2 (cell_at cs) vs l -> Forall2 (fun c t => exists r, c_nodes c = t :: r) l ts ->
  clone_vertices cs vs new node tag mv mn =
  Ok (cs ++ map Some (map2 (vertex_copy tag) l (combine (seq new (length vs)) (seq node (length vs)))),
      fold_left (fun d kv => dset d (fst kv) (snd kv)) (combine vs (seq new (length vs))) mv,
      fold_left (fun d kv => dset d (fst kv) (snd kv)) (combine ts (seq node (length vs))) mn).
Proof.
  induction vs as [|v vs IH]; intros cs l ts new node mv mn F G; inversion F; subst; inversion G; subst;
    cbn [clone_vertices length seq map map2 combine fold_left].
  - rewrite app_nil_r. auto.
  - rewrite (proj2 (cell_of_at cs v y)) by auto. cbn [bind].
    rewrite (proj2 (cell_of_at (cs ++ _) v y)) by (apply cell_at_app; auto; eapply cell_at_lt; eauto). cbn [bind].
    match goal with X : exists r, c_nodes y = _ |- _ => destruct X as (r & Hr); rewrite Hr end. cbn [get_at nth_error bind].
    rewrite (IH _ l' l'0); auto.
    + cbn [fst snd]. rewrite <- app_assoc. cbn [app]. replace (new + 1) with (S new) by lia. replace (node + 1) with (S node) by lia.
      reflexivity.
    + eapply Forall2_impl; [|eauto]. intros a b Hab. apply cell_at_app; auto. eapply cell_at_lt; eauto.
Qed.

Section Cut.
  Variable P : Type.
  Notation mesh := (mesh P).
  Notation interface := (interface P).

  Lemma positive_q_spec (m : mesh) f id q : positive_q P m f id = Ok q <->
    exists c, cell_at (m_cells P m) id c /\ on_side P m f c q.
  Proof.
    unfold positive_q, on_side. split.
    - intros H. apply bind_Ok in H as (c & Hc & H). apply bind_Ok in H as (pts & Hp & H). inversion H.
      apply cell_of_at in Hc. exists c. split; auto. exists pts. split; auto. apply mapM_Forall2 in Hp.
      eapply Forall2_impl; [|eauto]. intros; apply get_at_Ok; auto.
    - intros (c & Hc & pts & Hp & <-). apply cell_of_at in Hc. rewrite Hc. cbn [bind].
      rewrite (proj2 (mapM_Forall2 _ _ pts)); auto.
      eapply Forall2_impl; [|eauto]. intros; apply get_at_Ok; auto.
  Qed.
  Lemma classify_spec (m : mesh) f ids : forall p n, classify P m f ids = Ok (p, n) ->
    (forall i, In i p <-> In i ids /\ positive_q P m f i = Ok true) /\
    (forall i, In i n <-> In i ids /\ positive_q P m f i = Ok false).
  Proof.
    induction ids as [|a ids IH]; intros p n H; simpl in H.
    - inversion H; subst. split; intros i; simpl; tauto.
    - apply bind_Ok in H as (q & Hq & H). apply bind_Ok in H as ([p1 n1] & H1 & H).
      destruct (IH _ _ H1) as [A B]. destruct q; inversion H; subst; split; intros i; simpl.
      + rewrite A. split; [intros [<-|[? ?]]; auto|intros [[<-|?] ?]; auto].
      + rewrite B. split; [tauto|]. intros [[<-|?] ?]; auto. congruence.
      + rewrite A. split; [tauto|]. intros [[<-|?] ?]; auto. congruence.
      + rewrite B. split; [intros [<-|[? ?]]; auto|intros [[<-|?] ?]; auto].
  Qed.
  Lemma classify_succeeds (m : mesh) f ids : (forall i, In i ids -> exists q, positive_q P m f i = Ok q) ->
    exists p n, classify P m f ids = Ok (p, n).
  Proof.
    induction ids as [|a ids IH]; intros H; simpl; [eauto|].
    destruct (H a) as (q & ->); [left; auto|]. cbn [bind].
    destruct IH as (p & n & ->); [intros; apply H; right; auto|]. cbn [bind]. destruct q; eauto.
  Qed.

  (** the updates *)
  Definition upd_e (mp : dict nat nat) (c : cell) : cell := set_sub c 1 (map (image mp) (nth 1 (c_sub c) [])).
  Definition upd_v (mv mn : dict nat nat) (c : cell) : cell :=
    set_nodes (set_sub c 0 (map (image mv) (nth 0 (c_sub c) []))) (map (image mn) (c_nodes c)).
  Lemma nth_set_at {A} (l : list A) i v j d : nth j (set_at l i v) d = if (i =? j) && (j <? length l) then v else nth j l d.
  Proof.
    revert i j; induction l as [|a l IH]; intros [|i] [|j]; simpl; auto.
    - rewrite andb_false_r. auto.
    - rewrite IH. auto.
  Qed.
  Lemma set_at_twice {A} (l : list A) i v w : set_at (set_at l i v) i w = set_at l i w.
  Proof. revert i; induction l; intros [|i]; simpl; auto. f_equal; auto. Qed.
  Lemma set_at_self {A} (l : list A) i d : i < length l -> set_at l i (nth i l d) = l.
  Proof. revert i; induction l; intros [|i] H; simpl in *; auto; try lia. f_equal. apply IHl. lia. Qed.
  Lemma image_idem_map mp a : (forall x, image mp (image mp x) = image mp x) -> map (image mp) (map (image mp) a) = map (image mp) a.
  Proof. intros H. rewrite map_map. apply map_ext. auto. Qed.
  Lemma set_at_over {A} (l : list A) i v : length l <= i -> set_at l i v = l.
  Proof. revert i; induction l; intros [|i] H; simpl in *; auto; try lia. f_equal. apply IHl. lia. Qed.
  Lemma upd_e_idem mp c : (forall x, image mp (image mp x) = image mp x) -> upd_e mp (upd_e mp c) = upd_e mp c.
  Proof.
    intros H. unfold upd_e, set_sub. cbn [c_sub c_dim c_id c_nodes c_mat]. f_equal.
    destruct (Nat.lt_ge_cases 1 (length (c_sub c))) as [L|L].
    - rewrite nth_set_at. destruct (Nat.ltb_spec 1 (length (c_sub c))); [|lia]. simpl (1 =? 1). cbn [andb].
      rewrite set_at_twice, image_idem_map; auto.
    - rewrite !set_at_over; auto; rewrite set_at_over; auto.
  Qed.
  Lemma upd_v_idem mv mn c : (forall x, image mv (image mv x) = image mv x) -> (forall x, image mn (image mn x) = image mn x) ->
    upd_v mv mn (upd_v mv mn c) = upd_v mv mn c.
  Proof.
    intros H H'. unfold upd_v, set_nodes, set_sub. cbn [c_sub c_dim c_id c_nodes c_mat]. f_equal.
    - apply image_idem_map; auto.
    - destruct (Nat.lt_ge_cases 0 (length (c_sub c))) as [L|L].
      + rewrite nth_set_at. destruct (Nat.ltb_spec 0 (length (c_sub c))); [|lia]. simpl (0 =? 0). cbn [andb].
        rewrite set_at_twice, image_idem_map; auto.
      + rewrite !set_at_over; auto; rewrite set_at_over; auto.
  Qed.
  Lemma update_edges_spec mp : (forall x, image mp (image mp x) = image mp x) ->
    forall ids cs cs', update_edges cs ids mp = Ok cs' ->
    length cs' = length cs /\ forall i,
      (In i ids -> exists c, cell_at cs i c /\ cell_at cs' i (upd_e mp c)) /\
      (~ In i ids -> nth_error cs' i = nth_error cs i).
  Proof.
    intros ID. apply (modify_all (fun cs id => update_entity_with_dimension 1 cs id mp) (upd_e mp)).
    - intros cs i cs' H. apply update_entity_Ok in H as (c & Hc & _ & ->). exists c. auto.
    - intros. apply upd_e_idem. auto.
  Qed.
  Lemma update_v_step mv mn cs id cs' :
    (do cs1 <- update_entity_with_dimension 0 cs id mv; update_nodes_ids cs1 id mn) = Ok cs' <->
    exists c, cell_at cs id c /\ 0 < length (c_sub c) /\ cs' = set_at cs id (Some (upd_v mv mn c)).
  Proof.
    split.
    - intros H. apply bind_Ok in H as (cs1 & H1 & H2). apply update_entity_Ok in H1 as (c & Hc & L & ->).
      apply update_nodes_Ok in H2 as (c1 & Hc1 & ->).
      unfold cell_at in Hc1. rewrite cell_at_set, Nat.eqb_refl in Hc1 by (eapply cell_at_lt; eauto).
      inversion Hc1; subst. exists c. split; auto. split; auto. rewrite set_at_twice. reflexivity.
    - intros (c & Hc & L & ->).
      rewrite (proj2 (update_entity_Ok 0 cs id mv (set_at cs id (Some (set_sub c 0 (map (image mv) (nth 0 (c_sub c) []))))))) by eauto.
      cbn [bind]. apply update_nodes_Ok. eexists. split.
      + unfold cell_at. rewrite cell_at_set, Nat.eqb_refl by (eapply cell_at_lt; eauto). reflexivity.
      + rewrite set_at_twice. reflexivity.
  Qed.
  Lemma update_vertices_spec mv mn : (forall x, image mv (image mv x) = image mv x) -> (forall x, image mn (image mn x) = image mn x) ->
    forall ids cs cs', update_vertices cs ids mv mn = Ok cs' ->
    length cs' = length cs /\ forall i,
      (In i ids -> exists c, cell_at cs i c /\ cell_at cs' i (upd_v mv mn c)) /\
      (~ In i ids -> nth_error cs' i = nth_error cs i).
  Proof.
    intros I1 I2. apply modify_all with (u := upd_v mv mn).
    - intros cs i cs' H. apply update_v_step in H as (c & Hc & _ & ->). exists c. auto.
    - intros. apply upd_v_idem; auto.
  Qed.
End Cut.
