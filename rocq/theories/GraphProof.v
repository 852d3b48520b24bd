(** * Lemmas: incidence graphs and topology *)
From Coq Require Import List Arith ZArith Bool Lia Permutation.
From Verif Require Import Base BaseProof MeshModel MeshSpec GraphModel.
Import ListNotations.

Definition edges_of (k : nat) (c : cell) : list (vid * vid) :=
  map (fun j => (index c, (k, j) : vid)) (nth k (c_sub c) []).

Lemma cell_of_at cs i c : cell_of cs i = Ok c <-> cell_at cs i c.
Proof.
  unfold cell_of, cell_at, get_at. destruct (nth_error cs i) as [[x|]|]; simpl; split; congruence.
Qed.

Lemma memb_dim k : k <= 3 -> memb (Z.of_nat k) [0; 1; 2; 3]%Z = true.
Proof. intros. apply memb_In. simpl. lia. Qed.

Lemma gather_closed fuel cs k i c :
  closed_mesh cs -> cell_at cs i c -> k <= c_dim c ->
  gather_graph_edges (S fuel) cs (Z.of_nat k) c = Ok (edges_of k c).
Proof.
  intros [_ CL] Hc Hk. destruct (CL i c Hc) as (Hid & D3 & Ls & Hsub).
  cbn [gather_graph_edges]. rewrite memb_dim by lia. rewrite Nat2Z.id.
  unfold get_at. rewrite (nth_error_nth' (c_sub c) []) by lia. cbn [bind].
  rewrite (mapM_Ok_map _ (fun j => [(index c, (k, j) : vid)])).
  - simpl. f_equal. unfold edges_of. induction (nth k (c_sub c) []); simpl; auto. f_equal; auto.
  - intros j Hj. destruct (Hsub k j Hk Hj) as (c' & Hc' & Hd').
    rewrite (proj2 (cell_of_at cs j c') Hc'). cbn [bind].
    rewrite Hd', Z.eqb_refl. destruct (CL j c' Hc') as (Hid' & _).
    unfold index. rewrite Hd', Hid'. reflexivity.
Qed.

(** the cells of a mesh without holes, in order *)
Lemma all_cells_closed cs : closed_mesh cs -> exists l, all_cells cs = Ok l /\ map Some l = cs.
Proof.
  intros [CF _]. unfold all_cells.
  assert (H : forall c, In c cs -> exists x, c = Some x).
  { intros o Ho. apply In_nth_error in Ho as (i & Hi).
    destruct (CF i) as (x & Hx); [apply nth_error_Some; congruence|].
    unfold cell_at in Hx. exists x; congruence. }
  clear CF. induction cs as [|o cs IH].
  - exists []; auto.
  - destruct IH as (l & E & M); [intros; apply H; right; auto|].
    destruct (H o (or_introl eq_refl)) as (x & ->).
    exists (x :: l). simpl. rewrite E. simpl. rewrite M. auto.
Qed.
Lemma In_all_cells cs l c : map Some l = cs -> (In c l <-> exists i, cell_at cs i c).
Proof.
  intros <-. unfold cell_at. split.
  - intros H. apply In_nth_error in H as (i & Hi). exists i. rewrite nth_error_map, Hi; auto.
  - intros (i & Hi). rewrite nth_error_map in Hi. destruct (nth_error l i) eqn:E; [|discriminate].
    simpl in Hi. inversion Hi; subst. eapply nth_error_In; eauto.
Qed.
Lemma NoDup_ids cs l : closed_mesh cs -> map Some l = cs -> NoDup (map c_id l).
Proof.
  intros [_ CL] M. assert (map c_id l = seq 0 (length l)) as ->; [|apply seq_NoDup].
  apply nth_ext with (d := 0) (d' := 0); [rewrite map_length, seq_length; auto|].
  intros i Hi. rewrite map_length in Hi. rewrite seq_nth by auto. simpl.
  destruct (nth_error l i) as [c|] eqn:E; [|apply nth_error_None in E; lia].
  assert (cell_at cs i c) by (unfold cell_at; rewrite <- M, nth_error_map, E; auto).
  destruct (CL i c H) as [Hid _].
  apply nth_error_nth. rewrite nth_error_map, E. simpl. congruence.
Qed.

Lemma graph_of_closed fuel cs d co k sel :
  closed_mesh cs -> (d - co = Z.of_nat k)%Z ->
  (forall c, In c sel -> (exists i, cell_at cs i c) /\ k <= c_dim c) ->
  graph_of (S fuel) cs d co sel = Ok (from_edgelist (flat_map (edges_of k) sel)).
Proof.
  intros CL E H. unfold graph_of. rewrite E.
  rewrite (mapM_Ok_map _ (edges_of k)).
  - simpl. rewrite flat_map_concat_map. reflexivity.
  - intros c Hc. destruct (H c Hc) as ((i & Hi) & Hk). eapply gather_closed; eauto.
Qed.

Lemma build_graph_closed fuel cs d k :
  closed_mesh cs -> k <= d ->
  exists l, map Some l = cs /\
    build_graph (S fuel) cs (Z.of_nat d) (Z.of_nat d - Z.of_nat k)
    = Ok (from_edgelist (flat_map (edges_of k) (filter (fun c => c_dim c =? d) l))).
Proof.
  intros CL Hk. destruct (all_cells_closed cs CL) as (l & E & M). exists l; split; auto.
  unfold build_graph. rewrite E. cbn [bind].
  rewrite (graph_of_closed fuel cs _ _ k); auto; [|lia|].
  - f_equal. f_equal. f_equal. apply filter_ext. intros c.
    destruct (c_dim c =? d) eqn:Q; [apply Nat.eqb_eq in Q|apply Nat.eqb_neq in Q]; lia.
  - intros c Hc. apply filter_In in Hc as [Hc Hd]. split.
    + apply (In_all_cells cs l c M); auto.
    + lia.
Qed.
Lemma build_graph_tags_closed fuel cs tags d k :
  closed_mesh cs -> k <= d ->
  exists l, map Some l = cs /\
    build_graph_on_physical_tags (S fuel) cs tags (Z.of_nat d) (Z.of_nat d - Z.of_nat k)
    = Ok (from_edgelist (flat_map (edges_of k)
            (filter (fun c => (c_dim c =? d) && memb (c_mat c) tags) l))).
Proof.
  intros CL Hk. destruct (all_cells_closed cs CL) as (l & E & M). exists l; split; auto.
  unfold build_graph_on_physical_tags. rewrite E. cbn [bind].
  rewrite (graph_of_closed fuel cs _ _ k); auto; [|lia|].
  - f_equal. f_equal. f_equal. apply filter_ext. intros c. f_equal.
    destruct (c_dim c =? d) eqn:Q; [apply Nat.eqb_eq in Q|apply Nat.eqb_neq in Q]; lia.
  - intros c Hc. apply filter_In in Hc as [Hc Hd]. apply andb_true_iff in Hd as [Hd _]. split.
    + apply (In_all_cells cs l c M); auto.
    + lia.
Qed.

(** membership of edges *)
Lemma In_edges_sel cs l k (P : cell -> bool) u v :
  closed_mesh cs -> map Some l = cs ->
  In (u, v) (flat_map (edges_of k) (filter P l)) <->
  exists i c j, cell_at cs i c /\ P c = true /\ In j (nth k (c_sub c) []) /\
                u = (c_dim c, i) /\ v = (k, j).
Proof.
  intros [_ CL] M. rewrite in_flat_map. split.
  - intros (c & Hc & He). apply filter_In in Hc as [Hc Hp].
    apply (In_all_cells cs l c M) in Hc as (i & Hi).
    apply in_map_iff in He as (j & E & Hj). inversion E; subst.
    destruct (CL i c Hi) as [Hid _]. exists i, c, j. unfold index. rewrite Hid. auto.
  - intros (i & c & j & Hi & Hp & Hj & -> & ->). exists c. split.
    + apply filter_In; split; auto. apply (In_all_cells cs l c M); eauto.
    + destruct (CL i c Hi) as [Hid _]. apply in_map_iff. exists j. unfold index. rewrite Hid; auto.
Qed.

(** successors of a selected cell, in order *)
Lemma filter_edges_of k c u :
  filter (fun e => eqb (fst e) u) (edges_of k c) = if eqb (index c) u then edges_of k c else [].
Proof.
  unfold edges_of. induction (nth k (c_sub c) []) as [|j l IH]; simpl.
  - destruct (eqb (index c) u); auto.
  - rewrite IH. destruct (eqb (index c) u); auto.
Qed.
Lemma index_neq b c : c_id b <> c_id c -> eqb (index b) (index c) = false.
Proof. intros. apply eqb_false. unfold index. congruence. Qed.
Lemma filter_flat_edges k sel c :
  NoDup (map c_id sel) -> In c sel ->
  filter (fun e => eqb (fst e) (index c)) (flat_map (edges_of k) sel) = edges_of k c.
Proof.
  induction sel as [|a sel IH]; simpl; intros ND Hc; [tauto|].
  inversion ND; subst. rewrite filter_app, filter_edges_of. destruct Hc as [->|Hc].
  - rewrite eqb_refl. rewrite <- app_nil_r. f_equal.
    clear IH ND H2. induction sel as [|b sel IH]; simpl; auto.
    rewrite filter_app, filter_edges_of. simpl in H1.
    rewrite index_neq by tauto. apply IH; tauto.
  - rewrite index_neq; [apply IH; auto|].
    intros E. apply H1. rewrite E. apply in_map; auto.
Qed.

Lemma map_snd_uniq_edges k c : map snd (uniq (edges_of k c)) = map (pair k) (uniq (nth k (c_sub c) [])).
Proof.
  unfold uniq, edges_of. generalize (nth k (c_sub c) []) as l.
  assert (H : forall l seen,
    map snd (uniq_acc (map (fun j => (index c, (k, j) : vid)) seen)
                      (map (fun j => (index c, (k, j) : vid)) l))
    = map (pair k) (uniq_acc seen l)).
  { induction l as [|j l IH]; intros seen; simpl; auto.
    replace (memb (index c, (k, j) : vid) (map (fun j0 => (index c, (k, j0) : vid)) seen))
      with (memb j seen).
    2:{ destruct (memb j seen) eqn:E.
        - apply memb_In in E. symmetry; apply memb_In. apply in_map_iff; eauto.
        - apply memb_notIn in E. symmetry; apply memb_notIn. intros Hi.
          apply in_map_iff in Hi as (x & Ex & Hx). inversion Ex; subst; contradiction. }
    destruct (memb j seen); [apply IH|]. simpl. f_equal.
    rewrite <- IH, map_app. reflexivity. }
  intros l. apply (H l []).
Qed.

Lemma successors_sel k sel c :
  NoDup (map c_id sel) -> In c sel -> nth k (c_sub c) [] <> [] ->
  successors (from_edgelist (flat_map (edges_of k) sel)) (index c)
  = Ok (map (pair k) (uniq (nth k (c_sub c) []))).
Proof.
  intros ND Hc NE. unfold successors.
  replace (memb (index c) _) with true.
  - cbn [g_edges from_edgelist]. rewrite filter_uniq, filter_flat_edges by auto.
    rewrite map_snd_uniq_edges. reflexivity.
  - symmetry; apply memb_In, In_nodes_from_edgelist.
    destruct (nth k (c_sub c) []) as [|j l] eqn:E; [tauto|].
    exists (index c, (k, j) : vid). split; [|left; reflexivity].
    apply in_flat_map. exists c; split; auto. unfold edges_of. rewrite E. left; auto.
Qed.

Lemma NoDup_filter_map {A B} (f : A -> B) (P : A -> bool) l : NoDup (map f l) -> NoDup (map f (filter P l)).
Proof.
  induction l; simpl; intros ND; auto. inversion ND; subst. destruct (P a); simpl; auto.
  constructor; auto. intros Hi. apply in_map_iff in Hi as (x & E & Hx).
  apply filter_In in Hx as [Hx _]. apply H1. rewrite <- E. apply in_map; auto.
Qed.

(** ** C09 *)
Lemma C09_lemma fuel cs d k :
  closed_mesh cs -> k <= d -> d <= 3 ->
  exists g, build_graph (S fuel) cs (Z.of_nat d) (Z.of_nat d - Z.of_nat k) = Ok g /\
    NoDup (g_edges g) /\ NoDup (g_nodes g) /\
    (forall u v, In (u, v) (g_edges g) <->
       exists i c j, cell_at cs i c /\ c_dim c = d /\ In j (nth k (c_sub c) []) /\
                     u = (d, i) /\ v = (k, j)) /\
    (forall w, In w (g_nodes g) <-> exists u v, In (u, v) (g_edges g) /\ (w = u \/ w = v)) /\
    (forall i c, cell_at cs i c -> c_dim c = d -> NoDup (nth k (c_sub c) []) ->
       nth k (c_sub c) [] <> [] ->
       successors g (d, i) = Ok (map (pair k) (nth k (c_sub c) []))).
Proof.
  intros CL Hk Hd. destruct (build_graph_closed fuel cs d k CL Hk) as (l & M & E).
  eexists; split; [exact E|]. split; [apply NoDup_uniq|]. split; [apply NoDup_uniq|]. split; [|split].
  - intros u v. rewrite In_edges_from_edgelist.
    rewrite (In_edges_sel cs l k _ u v CL M). split.
    + intros (i & c & j & H1 & H2 & H3 & -> & ->). apply Nat.eqb_eq in H2.
      exists i, c, j. rewrite H2. auto.
    + intros (i & c & j & H1 & H2 & H3 & -> & ->). exists i, c, j. rewrite H2, Nat.eqb_refl. auto.
  - intros w. rewrite In_nodes_from_edgelist. split.
    + intros ([u v] & He & Hw). exists u, v. rewrite In_edges_from_edgelist. simpl in Hw.
      intuition.
    + intros (u & v & He & Hw). rewrite In_edges_from_edgelist in He. exists (u, v). simpl. intuition.
  - intros i c Hi Hdim ND NE. destruct CL as [CF CL]. destruct (CL i c Hi) as [Hid _].
    replace (d, i) with (index c) by (unfold index; congruence).
    rewrite successors_sel; auto.
    + rewrite uniq_NoDup; auto.
    + apply NoDup_filter_map. eapply NoDup_ids; eauto. split; auto.
    + apply filter_In. split; [apply (In_all_cells cs l c M); eauto|]. apply Nat.eqb_eq; auto.
Qed.

(** ** C10 *)
Lemma C10_lemma fuel cs tags d k :
  closed_mesh cs -> k <= d -> d <= 3 ->
  exists g gt, build_graph (S fuel) cs (Z.of_nat d) (Z.of_nat d - Z.of_nat k) = Ok g /\
    build_graph_on_physical_tags (S fuel) cs tags (Z.of_nat d) (Z.of_nat d - Z.of_nat k) = Ok gt /\
    forall u v, In (u, v) (g_edges gt) <->
      In (u, v) (g_edges g) /\ exists c, cell_at cs (snd u) c /\ In (c_mat c) tags.
Proof.
  intros CL Hk Hd. destruct (build_graph_closed fuel cs d k CL Hk) as (l & M & E).
  destruct (build_graph_tags_closed fuel cs tags d k CL Hk) as (l' & M' & E').
  eexists; eexists; split; [exact E|split; [exact E'|]].
  intros u v. rewrite !In_edges_from_edgelist.
  rewrite (In_edges_sel cs l k _ u v CL M), (In_edges_sel cs l' k _ u v CL M'). split.
  - intros (i & c & j & H1 & H2 & H3 & -> & ->). apply andb_true_iff in H2 as [H2 H4].
    apply memb_In in H4. split; [|exists c; auto]. exists i, c, j; auto.
  - intros ((i & c & j & H1 & H2 & H3 & -> & ->) & (c' & H4 & H5)). simpl in H4.
    assert (c' = c) by (unfold cell_at in *; congruence). subst c'.
    exists i, c, j. rewrite H2. rewrite (proj2 (memb_In _ _) H5). auto.
Qed.

(** ** the topology *)
Definition selected (cs : cells) (dim : nat) (tags : list (option Z)) (i : nat) (c : cell) : Prop :=
  cell_at cs i c /\ c_dim c = dim /\ In (c_mat c) tags.

Record topo_ok (cs : cells) (dim : nat) (tags : list (option Z)) (t : topology) : Prop := {
  to_cells : t_cells t = cs;
  to_dim : t_dim t = dim;
  to_map : forall d, d <= dim -> exists l, map Some l = cs /\
     entity_map_by_dimension t d
     = Ok (from_edgelist (flat_map (edges_of d)
            (filter (fun c => (c_dim c =? dim) && memb (c_mat c) tags) l)));
  to_ids : forall d, d <= dim -> exists g, entity_map_by_dimension t d = Ok g /\
     entities_by_dimension t d = Ok (map snd (filter (fun v : vid => fst v =? d) (g_nodes g))) }.

Lemma nth_error_mapM {A B} (f : A -> res B) l ys i x :
  mapM f l = Ok ys -> nth_error l i = Some x -> exists y, f x = Ok y /\ nth_error ys i = Some y.
Proof.
  intros H; apply mapM_Forall2 in H. revert i; induction H; intros [|i] Hi; simpl in *; try discriminate.
  - inversion Hi; subst; eauto.
  - auto.
Qed.
Lemma nth_error_seq s n i : i < n -> nth_error (seq s n) i = Some (s + i).
Proof.
  intros H. rewrite (nth_error_nth' _ 0) by (rewrite seq_length; auto). rewrite seq_nth; auto.
Qed.

Lemma build_topology_ok fuel cs mesh_dim dim tags :
  closed_mesh cs -> dim <= mesh_dim ->
  exists t, build_data_on_physical_tags (S fuel) cs mesh_dim dim tags = Ok t /\ topo_ok cs dim tags t.
Proof.
  intros CL Hm. unfold build_data_on_physical_tags.
  replace (mesh_dim <? dim) with false by (symmetry; apply Nat.ltb_ge; auto).
  destruct (all_cells_closed cs CL) as (l & El & M).
  set (G := fun d => from_edgelist (flat_map (edges_of d)
            (filter (fun c => (c_dim c =? dim) && memb (c_mat c) tags) l))).
  rewrite (mapM_Ok_map _ G).
  2:{ intros d Hd. apply in_seq in Hd.
      destruct (build_graph_tags_closed fuel cs tags dim d CL) as (l' & M' & E'); [lia|].
      rewrite E'. unfold G. repeat f_equal.
      apply (f_equal (map (fun o : option cell => match o with Some x => x | None => mk_cell 0 0 [] None [] end))) in M, M'.
      rewrite map_map, map_id in M, M'. congruence. }
  cbn [bind].
  set (I := fun d => (d, map snd (filter (fun v : vid => fst v =? d) (g_nodes (G d))))).
  unfold entity_ids. rewrite (mapM_Ok_map _ I).
  2:{ intros d Hd. apply in_seq in Hd. unfold get_at.
      rewrite nth_error_map, nth_error_seq by lia. simpl. reflexivity. }
  cbn [bind]. eexists; split; [reflexivity|].
  constructor; simpl; auto.
  - intros d Hd. exists l; split; auto. unfold entity_map_by_dimension, get_at; simpl.
    rewrite nth_error_map, nth_error_seq by lia. reflexivity.
  - intros d Hd. exists (G d). unfold entity_map_by_dimension, get_at; simpl.
    rewrite nth_error_map, nth_error_seq by lia. split; [reflexivity|].
    unfold entities_by_dimension; simpl.
    replace (dim <? d) with false by (symmetry; apply Nat.ltb_ge; auto).
    unfold dindex. rewrite dict_of_id.
    + replace (dget (map I (seq 0 (dim + 1))) d) with (Some (snd (I d))); [reflexivity|].
      symmetry. apply dget_NoDup.
      * unfold dkeys. rewrite map_map. simpl. rewrite map_id. apply seq_NoDup.
      * apply in_map_iff. exists d; split; auto. apply in_seq; lia.
    + unfold dkeys. rewrite map_map. simpl. rewrite map_id. apply seq_NoDup.
Qed.

Lemma topo_ids_spec cs dim tags t d :
  closed_mesh cs -> self_incident cs -> topo_ok cs dim tags t -> d <= dim ->
  exists ids, entities_by_dimension t d = Ok ids /\ NoDup ids /\
    forall j, In j ids <-> exists i c, selected cs dim tags i c /\ In j (nth d (c_sub c) []).
Proof.
  intros CL SI TO Hd. destruct (to_ids _ _ _ _ TO d Hd) as (g & Eg & Ei).
  destruct (to_map _ _ _ _ TO d Hd) as (l & M & Em).
  rewrite Em in Eg; inversion Eg; subst g; clear Eg.
  eexists; split; [exact Ei|]. split.
  - apply NoDup_map_inj_in; [|apply NoDup_filter, NoDup_uniq].
    intros [a b] [a' b'] H1 H2. apply filter_In in H1 as [_ H1]. apply filter_In in H2 as [_ H2].
    simpl in *. apply Nat.eqb_eq in H1, H2. congruence.
  - intros j. rewrite in_map_iff. split.
    + intros ([a b] & Eb & H). simpl in Eb; subst b. apply filter_In in H as [H Ha]. simpl in Ha.
      apply Nat.eqb_eq in Ha; subst a.
      apply In_nodes_from_edgelist in H as ([u v] & He & Hw).
      apply (In_edges_sel cs l d _ u v CL M) in He as (i & c & j' & H1 & H2 & H3 & -> & ->).
      apply andb_true_iff in H2 as [H2 H4]. apply Nat.eqb_eq in H2. apply memb_In in H4.
      exists i, c. split; [repeat split; auto|]. simpl in Hw. destruct Hw as [Hw|Hw].
      * inversion Hw; subst. rewrite (SI j c H1). left; auto.
      * inversion Hw; subst; auto.
    + intros (i & c & (H1 & H2 & H3) & Hj). exists (d, j); split; auto.
      apply filter_In; split; [|simpl; apply Nat.eqb_refl].
      apply In_nodes_from_edgelist. exists ((dim, i), (d, j)). split; [|right; auto].
      apply (In_edges_sel cs l d _ _ _ CL M). exists i, c, j.
      rewrite H2, Nat.eqb_refl, (proj2 (memb_In _ _) H3). auto.
Qed.

Lemma topo_successors cs dim tags t d i c :
  closed_mesh cs -> topo_ok cs dim tags t -> d <= dim -> selected cs dim tags i c ->
  NoDup (nth d (c_sub c) []) -> nth d (c_sub c) [] <> [] ->
  exists g, entity_map_by_dimension t d = Ok g /\
            successors g (index c) = Ok (map (pair d) (nth d (c_sub c) [])).
Proof.
  intros CL TO Hd (H1 & H2 & H3) ND NE.
  destruct (to_map _ _ _ _ TO d Hd) as (l & M & Em).
  eexists; split; [exact Em|]. rewrite successors_sel; auto.
  - rewrite uniq_NoDup; auto.
  - apply NoDup_filter_map. eapply NoDup_ids; eauto.
  - apply filter_In. split; [apply (In_all_cells cs l c M); eauto|].
    rewrite H2, Nat.eqb_refl, (proj2 (memb_In _ _) H3). auto.
Qed.

Lemma topo_predecessors cs dim tags t j c' :
  closed_mesh cs -> self_incident cs -> topo_ok cs dim tags t -> cell_at cs j c' -> c_dim c' <= dim ->
  (exists i c, selected cs dim tags i c /\ In j (nth (c_dim c') (c_sub c) [])) ->
  exists l, find_higher_dimension_neighs c' t = Ok l /\ NoDup l /\
    forall u, In u l <-> exists i c, selected cs dim tags i c /\
                           In j (nth (c_dim c') (c_sub c) []) /\ u = (dim, i).
Proof.
  intros CL SI TO Hj Hd Hex. unfold find_higher_dimension_neighs.
  destruct (to_map _ _ _ _ TO (c_dim c') Hd) as (l & M & Em). rewrite Em. cbn [bind].
  assert (Hid : c_id c' = j) by (apply (proj2 CL); auto).
  destruct (predecessors (from_edgelist (flat_map (edges_of (c_dim c'))
     (filter (fun c => (c_dim c =? dim) && memb (c_mat c) tags) l))) (index c')) as [ps|e] eqn:Ep.
  - apply predecessors_spec in Ep as [ND Hps]. exists ps. split; [auto|]. split; [auto|].
    intros u. rewrite Hps. rewrite (In_edges_sel cs l _ _ _ _ CL M). split.
    + intros (i & c & j' & H1 & H2 & H3 & -> & E). apply andb_true_iff in H2 as [H2 H4].
      apply Nat.eqb_eq in H2. apply memb_In in H4. unfold index in E. inversion E; subst.
      exists i, c. repeat split; auto.
    + intros (i & c & (H1 & H2 & H3) & Hin & ->). exists i, c, j. unfold index.
      rewrite H2, Nat.eqb_refl, (proj2 (memb_In _ _) H3), Hid. auto.
  - exfalso. unfold predecessors in Ep. destruct (memb (index c') _) eqn:Q; [discriminate|].
    apply memb_notIn in Q. apply Q. apply In_nodes_from_edgelist.
    destruct Hex as (i & c & (H1 & H2 & H3) & Hin).
    exists ((dim, i), (c_dim c', j)). split; [|right; unfold index; simpl; congruence].
    apply (In_edges_sel cs l _ _ _ _ CL M). exists i, c, j.
    rewrite H2, Nat.eqb_refl, (proj2 (memb_In _ _) H3). auto.
Qed.

Lemma not_node cs dim tags l d j :
  closed_mesh cs -> self_incident cs -> map Some l = cs -> d <= dim ->
  ~ (exists i c, selected cs dim tags i c /\ In j (nth d (c_sub c) [])) ->
  memb (d, j) (g_nodes (from_edgelist (flat_map (edges_of d)
     (filter (fun c => (c_dim c =? dim) && memb (c_mat c) tags) l)))) = false.
Proof.
  intros CL SI M Hd Hno. apply memb_notIn. intros H.
  apply In_nodes_from_edgelist in H as ([u v] & He & Hw).
  apply (In_edges_sel cs l d _ u v CL M) in He as (i & c & j' & H1 & H2 & H3 & -> & ->).
  apply andb_true_iff in H2 as [H2 H4]. apply Nat.eqb_eq in H2. apply memb_In in H4.
  apply Hno. exists i, c. split; [repeat split; auto|]. simpl in Hw. destruct Hw as [Hw|Hw].
  - inversion Hw; subst. rewrite (SI j c H1). left; auto.
  - inversion Hw; subst; auto.
Qed.

Lemma topo_higher_absent cs dim tags t j c' :
  closed_mesh cs -> self_incident cs -> topo_ok cs dim tags t -> cell_at cs j c' -> c_dim c' <= dim ->
  ~ (exists i c, selected cs dim tags i c /\ In j (nth (c_dim c') (c_sub c) [])) ->
  find_higher_dimension_neighs c' t = Err NetworkXError.
Proof.
  intros CL SI TO Hj Hd Hno. unfold find_higher_dimension_neighs.
  destruct (to_map _ _ _ _ TO (c_dim c') Hd) as (l & M & Em). rewrite Em. cbn [bind].
  assert (Hid : c_id c' = j) by (apply (proj2 CL); auto).
  unfold predecessors, index. rewrite Hid. rewrite (not_node cs dim tags l); auto.
Qed.

Lemma topo_lower cs dim tags t j c' :
  closed_mesh cs -> self_incident cs -> topo_ok cs dim tags t -> cell_at cs j c' -> c_dim c' <= dim ->
  (exists i c, selected cs dim tags i c /\ In j (nth (c_dim c') (c_sub c) [])) ->
  find_lower_dimension_neighs c' t = Ok (if c_dim c' =? dim then [(dim, j)] else []).
Proof.
  intros CL SI TO Hj Hd (i & c & (S1 & S2 & S3) & Hin). unfold find_lower_dimension_neighs.
  assert (Hid : c_id c' = j) by (apply (proj2 CL); auto).
  destruct (c_dim c' =? dim) eqn:Q.
  - apply Nat.eqb_eq in Q. rewrite Q in Hin.
    assert (i = j).
    { rewrite <- S2 in Hin. rewrite (SI i c S1) in Hin. destruct Hin as [->|[]]; auto. }
    subst i. assert (c' = c) by (unfold cell_at in *; congruence). subst c'.
    destruct (topo_successors cs dim tags t dim j c) as (g & Eg & Es); auto.
    + repeat split; auto.
    + rewrite <- S2. rewrite (SI j c S1). repeat constructor; auto.
    + rewrite <- S2. rewrite (SI j c S1). discriminate.
    + rewrite Q, Eg. cbn [bind]. rewrite Es, <- S2, (SI j c S1). simpl. reflexivity.
  - apply Nat.eqb_neq in Q. destruct (to_map _ _ _ _ TO (c_dim c') Hd) as (l & M & Em).
    rewrite Em. cbn [bind].
    destruct (successors _ (index c')) as [ps|e] eqn:Ep.
    + apply successors_spec in Ep as [ND Hps]. destruct ps as [|p ps]; auto. exfalso.
      assert (Hp : In p (p :: ps)) by (left; auto). apply Hps in Hp.
      apply (In_edges_sel cs l _ _ _ _ CL M) in Hp as (i' & c1 & j' & H1 & H2 & H3 & E & _).
      apply andb_true_iff in H2 as [H2 _]. apply Nat.eqb_eq in H2. unfold index in E. congruence.
    + exfalso. unfold successors in Ep. destruct (memb (index c') _) eqn:Qn; [discriminate|].
      apply memb_notIn in Qn. apply Qn. apply In_nodes_from_edgelist.
      exists ((dim, i), (c_dim c', j)). split; [|right; unfold index; simpl; congruence].
      apply (In_edges_sel cs l _ _ _ _ CL M). exists i, c, j.
      rewrite S2, Nat.eqb_refl, (proj2 (memb_In _ _) S3). auto.
Qed.

Lemma C11_lemma fuel cs mesh_dim dim tags t :
  closed_mesh cs -> self_incident cs ->
  build_data_on_physical_tags (S fuel) cs mesh_dim dim tags = Ok t ->
  (forall k, k <= dim -> exists ids, entities_by_dimension t k = Ok ids /\ NoDup ids /\
    forall j, In j ids <-> exists i c, cell_at cs i c /\ c_dim c = dim /\ In (c_mat c) tags /\
                             In j (nth k (c_sub c) [])) /\
  (forall k, dim < k -> entities_by_dimension t k = Err ValueError).
Proof.
  intros CL SI H.
  assert (Hm : dim <= mesh_dim).
  { unfold build_data_on_physical_tags in H. destruct (Nat.ltb_spec mesh_dim dim); [discriminate|auto]. }
  destruct (build_topology_ok fuel cs mesh_dim dim tags CL Hm) as (t' & E & TO).
  rewrite E in H; inversion H; subst t'. split.
  - intros k Hk. destruct (topo_ids_spec cs dim tags t k CL SI TO Hk) as (ids & E1 & E2 & E3).
    exists ids. split; [auto|split; [auto|]]. intros j. rewrite E3. unfold selected. split.
    + intros (i & c & (A & B & C) & D). exists i, c; auto.
    + intros (i & c & A & B & C & D). exists i, c; auto.
  - intros k Hk. unfold entities_by_dimension. rewrite (to_dim _ _ _ _ TO).
    apply Nat.ltb_lt in Hk. rewrite Hk. auto.
Qed.

Lemma C11_success_lemma fuel cs mesh_dim dim tags :
  closed_mesh cs -> dim <= mesh_dim ->
  exists t, build_data_on_physical_tags (S fuel) cs mesh_dim dim tags = Ok t.
Proof.
  intros CL Hm. destruct (build_topology_ok fuel cs mesh_dim dim tags CL Hm) as (t & E & _). eauto.
Qed.

Lemma C12_lemma fuel cs mesh_dim dim tags t :
  closed_mesh cs -> self_incident cs ->
  build_data_on_physical_tags (S fuel) cs mesh_dim dim tags = Ok t ->
  forall j c', cell_at cs j c' -> c_dim c' <= dim ->
  let has i := exists c, cell_at cs i c /\ c_dim c = dim /\ In (c_mat c) tags /\
                         In j (nth (c_dim c') (c_sub c) []) in
  ((exists i, has i) -> exists l, find_higher_dimension_neighs c' t = Ok l /\ NoDup l /\
     forall u, In u l <-> exists i, has i /\ u = (dim, i)) /\
  (~ (exists i, has i) -> find_higher_dimension_neighs c' t = Err NetworkXError).
Proof.
  intros CL SI H j c' Hj Hd has.
  assert (Hm : dim <= mesh_dim).
  { unfold build_data_on_physical_tags in H. destruct (Nat.ltb_spec mesh_dim dim); [discriminate|auto]. }
  destruct (build_topology_ok fuel cs mesh_dim dim tags CL Hm) as (t' & E & TO).
  rewrite E in H; inversion H; subst t'.
  assert (HS : forall i, has i <-> exists c, selected cs dim tags i c /\ In j (nth (c_dim c') (c_sub c) [])).
  { intros i. unfold has, selected. split; intros (c & Hc); exists c; tauto. }
  split.
  - intros (i & Hi). apply HS in Hi as (c & Hc).
    destruct (topo_predecessors cs dim tags t j c' CL SI TO Hj Hd) as (l & E1 & E2 & E3); [eauto|].
    exists l. split; [auto|split; [auto|]]. intros u. rewrite E3. split.
    + intros (i' & c1 & A & B & C). exists i'. rewrite HS. eauto.
    + intros (i' & A & B). apply HS in A as (c1 & A1 & A2). exists i', c1; auto.
  - intros Hno. eapply topo_higher_absent; eauto. intros (i & c & Hc). apply Hno. exists i.
    apply HS. eauto.
Qed.
Lemma C12_lower_lemma fuel cs mesh_dim dim tags t :
  closed_mesh cs -> self_incident cs ->
  build_data_on_physical_tags (S fuel) cs mesh_dim dim tags = Ok t ->
  forall j c', cell_at cs j c' -> c_dim c' <= dim ->
  (exists i c, cell_at cs i c /\ c_dim c = dim /\ In (c_mat c) tags /\
               In j (nth (c_dim c') (c_sub c) [])) ->
  exists l, find_lower_dimension_neighs c' t = Ok l /\ forall u, In u l -> ~ fst u < c_dim c'.
Proof.
  intros CL SI H j c' Hj Hd (i & c & A & B & C & D).
  assert (Hm : dim <= mesh_dim).
  { unfold build_data_on_physical_tags in H. destruct (Nat.ltb_spec mesh_dim dim); [discriminate|auto]. }
  destruct (build_topology_ok fuel cs mesh_dim dim tags CL Hm) as (t' & E & TO).
  rewrite E in H; inversion H; subst t'.
  eexists; split; [eapply topo_lower; eauto|].
  - exists i, c. repeat split; auto.
  - intros u Hu. destruct (Nat.eqb_spec (c_dim c') dim); [|destruct Hu].
    destruct Hu as [<-|[]]. simpl. lia.
Qed.
