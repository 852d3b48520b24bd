(** * Lemmas: the other graph constructors and MeshTopology.build_data *)
From Coq Require Import List Arith ZArith Bool Lia.
From Verif Require Import Base BaseProof MeshModel MeshSpec GraphModel GraphProof.
Import ListNotations.

(** ** build_graph_on_materials *)
Lemma materials_lemma fuel cs d k :
  closed_mesh cs -> k <= d -> d <= 3 ->
  exists g gm, build_graph (S fuel) cs (Z.of_nat d) (Z.of_nat d - Z.of_nat k) = Ok g /\
    build_graph_on_materials (S fuel) cs (Z.of_nat d) (Z.of_nat d - Z.of_nat k) = Ok gm /\
    NoDup (g_edges gm) /\
    (forall w, In w (g_nodes gm) <-> exists u v, In (u, v) (g_edges gm) /\ (w = u \/ w = v)) /\
    forall u v, In (u, v) (g_edges gm) <->
      In (u, v) (g_edges g) /\ exists c, cell_at cs (snd u) c /\ c_mat c <> None.
Proof.
  intros CL Hk Hd. destruct (build_graph_closed fuel cs d k CL Hk) as (l & M & E).
  destruct (all_cells_closed cs CL) as (l' & El & M').
  assert (E' : build_graph_on_materials (S fuel) cs (Z.of_nat d) (Z.of_nat d - Z.of_nat k)
    = Ok (from_edgelist (flat_map (edges_of k)
            (filter (fun c => (c_dim c =? d) && match c_mat c with Some _ => true | None => false end) l')))).
  { unfold build_graph_on_materials. rewrite El. cbn [bind].
    rewrite (graph_of_closed fuel cs _ _ k); auto; [|lia|].
    - f_equal. f_equal. f_equal. apply filter_ext. intros c. f_equal.
      destruct (c_dim c =? d) eqn:Q; [apply Nat.eqb_eq in Q|apply Nat.eqb_neq in Q]; lia.
    - intros c Hc. apply filter_In in Hc as [Hc Hdd]. apply andb_true_iff in Hdd as [Hdd _]. split.
      + apply (In_all_cells cs l' c M'); auto.
      + lia. }
  eexists; eexists; split; [exact E|split; [exact E'|]]. split; [apply NoDup_uniq|]. split.
  - intros w. rewrite In_nodes_from_edgelist. split.
    + intros ([u v] & He & Hw). exists u, v. rewrite In_edges_from_edgelist. simpl in Hw. intuition.
    + intros (u & v & He & Hw). rewrite In_edges_from_edgelist in He. exists (u, v). simpl. intuition.
  - intros u v. rewrite !In_edges_from_edgelist.
    rewrite (In_edges_sel cs l k _ u v CL M), (In_edges_sel cs l' k _ u v CL M'). split.
    + intros (i & c & j & H1 & H2 & H3 & -> & ->). apply andb_true_iff in H2 as [H2 H4].
      split; [|exists c; split; auto; destruct (c_mat c); congruence]. exists i, c, j; auto.
    + intros ((i & c & j & H1 & H2 & H3 & -> & ->) & (c' & H4 & H5)). simpl in H4.
      assert (c' = c) by (unfold cell_at in *; congruence). subst c'.
      exists i, c, j. rewrite H2. destruct (c_mat c); [auto|congruence].
Qed.

(** ** build_graph_from_cell_ids *)
Lemma cell_ids_lemma fuel cs ids d k :
  closed_mesh cs -> k <= d -> d <= 3 -> (forall i, In i ids -> i < length cs) ->
  exists g gi, build_graph (S fuel) cs (Z.of_nat d) (Z.of_nat d - Z.of_nat k) = Ok g /\
    build_graph_from_cell_ids (S fuel) cs ids (Z.of_nat d) (Z.of_nat d - Z.of_nat k) = Ok gi /\
    NoDup (g_edges gi) /\
    (forall w, In w (g_nodes gi) <-> exists u v, In (u, v) (g_edges gi) /\ (w = u \/ w = v)) /\
    forall u v, In (u, v) (g_edges gi) <-> In (u, v) (g_edges g) /\ In (snd u) ids.
Proof.
  intros CL Hk Hd Hin. destruct (build_graph_closed fuel cs d k CL Hk) as (l & M & E).
  assert (Hex : exists sel, mapM (cell_of cs) ids = Ok sel).
  { clear E M. induction ids as [|i ids IH]; [exists []; reflexivity|].
    destruct IH as (sel & Es); [intros; apply Hin; right; auto|].
    destruct (cell_of cs i) as [c|e] eqn:Ec.
    - exists (c :: sel). simpl. rewrite Ec, Es. reflexivity.
    - exfalso. assert (Hi : i < length cs) by (apply Hin; left; auto).
      destruct (nth_error cs i) as [[c|]|] eqn:En.
      + assert (H : cell_at cs i c) by exact En. apply cell_of_at in H. congruence.
      + destruct CL as [CF _]. destruct (CF i Hi) as (c & Hc). unfold cell_at in Hc. congruence.
      + apply nth_error_None in En. lia. }
  destruct Hex as (sel & Es).
  assert (Hsel : forall c, In c sel <-> exists i, In i ids /\ cell_at cs i c).
  { intros c. apply mapM_Forall2 in Es. split.
    - clear - Es. induction Es as [|i y ids' sel' H1 H2 IH]; [intros []|]. intros [<-|H].
      + exists i. split; [left; auto|]. apply cell_of_at; auto.
      + destruct (IH H) as (i' & Hi & Hc). exists i'. split; [right|]; auto.
    - intros (i & Hi & Hc). apply cell_of_at in Hc. clear - Es Hi Hc.
      induction Es as [|i' y ids' sel' H1 H2 IH]; [destruct Hi|].
      destruct Hi as [->|Hi]; [left; congruence|right; auto]. }
  assert (E' : build_graph_from_cell_ids (S fuel) cs ids (Z.of_nat d) (Z.of_nat d - Z.of_nat k)
    = Ok (from_edgelist (flat_map (edges_of k)
            (filter (fun c => c_dim c =? d) sel)))).
  { unfold build_graph_from_cell_ids. rewrite Es. cbn [bind].
    rewrite (graph_of_closed fuel cs _ _ k); auto; [|lia|].
    - f_equal. f_equal. f_equal. apply filter_ext. intros c.
      destruct (c_dim c =? d) eqn:Q; [apply Nat.eqb_eq in Q|apply Nat.eqb_neq in Q]; lia.
    - intros c Hc. apply filter_In in Hc as [Hc Hdd]. split; [|lia].
      apply Hsel in Hc as (i & _ & Hc). eauto. }
  eexists; eexists; split; [exact E|split; [exact E'|]]. split; [apply NoDup_uniq|]. split.
  - intros w. rewrite In_nodes_from_edgelist. split.
    + intros ([u v] & He & Hw). exists u, v. rewrite In_edges_from_edgelist. simpl in Hw. intuition.
    + intros (u & v & He & Hw). rewrite In_edges_from_edgelist in He. exists (u, v). simpl. intuition.
  - intros u v. rewrite !In_edges_from_edgelist. rewrite (In_edges_sel cs l k _ u v CL M).
    rewrite in_flat_map. split.
    + intros (c & Hc & He). apply filter_In in Hc as [Hc Hdd]. apply Hsel in Hc as (i & Hi & Hc).
      apply in_map_iff in He as (j & Ee & Hj). inversion Ee; subst u v.
      destruct (proj2 CL i c Hc) as [Hid _]. unfold index. rewrite Hid. simpl. split; auto.
      exists i, c, j. auto.
    + intros ((i & c & j & H1 & H2 & H3 & -> & ->) & Hi). simpl in Hi. exists c. split.
      * apply filter_In; split; auto. apply Hsel. eauto.
      * destruct (proj2 CL i c H1) as [Hid _]. apply in_map_iff. exists j. unfold index. rewrite Hid; auto.
Qed.
Lemma cell_ids_out_of_range fuel cs ids d co :
  closed_mesh cs -> (exists i, In i ids /\ length cs <= i) ->
  build_graph_from_cell_ids fuel cs ids d co = Err IndexError.
Proof.
  intros CL (i & Hi & Hl). unfold build_graph_from_cell_ids.
  assert (E : mapM (cell_of cs) ids = Err IndexError).
  { induction ids as [|x ids IH]; [destruct Hi|]. simpl. unfold cell_of at 1, get_at.
    destruct (nth_error cs x) as [[c|]|] eqn:En; cbn [bind]; auto.
    - destruct Hi as [->|Hi]; [|rewrite IH; auto].
      assert (nth_error cs i <> None) by congruence. apply nth_error_Some in H. lia.
    - assert (Hx : x < length cs) by (apply nth_error_Some; congruence).
      destruct CL as [CF _]. destruct (CF x Hx) as (c & Hc). unfold cell_at in Hc. congruence. }
  rewrite E. reflexivity.
Qed.

(** ** MeshTopology.build_data: the tag list that lets every cell pass *)
Lemma build_data_eq fuel cs mesh_dim dim :
  closed_mesh cs ->
  exists tags, (forall i c, cell_at cs i c -> In (c_mat c) tags) /\
    build_data (S fuel) cs mesh_dim dim = build_data_on_physical_tags (S fuel) cs mesh_dim dim tags.
Proof.
  intros CL. destruct (all_cells_closed cs CL) as (l & El & M). exists (map c_mat l).
  assert (Hall : forall c, In c l -> memb (c_mat c) (map c_mat l) = true).
  { intros c Hc. apply memb_In. apply in_map; auto. }
  split.
  - intros i c Hc. apply in_map. apply (In_all_cells cs l c M). eauto.
  - unfold build_data, build_data_on_physical_tags. destruct (mesh_dim <? dim); auto.
    assert (EE : forall z1 z2, build_graph (S fuel) cs z1 z2
                 = build_graph_on_physical_tags (S fuel) cs (map c_mat l) z1 z2).
    { intros z1 z2. unfold build_graph, build_graph_on_physical_tags. rewrite El. cbn [bind].
      f_equal. clear - Hall. revert Hall. generalize (map c_mat l) as T. intros T Hall.
      induction l as [|x l0 IH]; auto. simpl. rewrite (Hall x) by (left; auto).
      rewrite andb_true_r, IH; auto. intros; apply Hall; right; auto. }
    replace (mapM (fun d => build_graph (S fuel) cs (Z.of_nat dim) (Z.of_nat dim - Z.of_nat d)) (seq 0 (dim + 1)))
      with (mapM (fun d => build_graph_on_physical_tags (S fuel) cs (map c_mat l) (Z.of_nat dim) (Z.of_nat dim - Z.of_nat d)) (seq 0 (dim + 1)));
      auto.
    generalize (seq 0 (dim + 1)). induction l0 as [|x l0 IH]; auto. simpl. rewrite EE, IH. auto.
Qed.

Lemma build_data_lemma fuel cs mesh_dim dim t :
  closed_mesh cs -> self_incident cs -> build_data (S fuel) cs mesh_dim dim = Ok t ->
  (forall k, k <= dim -> exists ids, entities_by_dimension t k = Ok ids /\ NoDup ids /\
    forall j, In j ids <-> exists i c, cell_at cs i c /\ c_dim c = dim /\ In j (nth k (c_sub c) [])) /\
  (forall k, dim < k -> entities_by_dimension t k = Err ValueError) /\
  (forall j c', cell_at cs j c' -> c_dim c' <= dim ->
     let has i := exists c, cell_at cs i c /\ c_dim c = dim /\ In j (nth (c_dim c') (c_sub c) []) in
     ((exists i, has i) -> exists l, find_higher_dimension_neighs c' t = Ok l /\ NoDup l /\
        forall u, In u l <-> exists i, has i /\ u = (dim, i)) /\
     (~ (exists i, has i) -> find_higher_dimension_neighs c' t = Err NetworkXError)).
Proof.
  intros CL SI H. destruct (build_data_eq fuel cs mesh_dim dim CL) as (tags & Ht & E).
  rewrite E in H. destruct (C11_lemma _ _ _ _ _ _ CL SI H) as [A B].
  pose proof (C12_lemma _ _ _ _ _ _ CL SI H) as C.
  split; [|split; [exact B|]].
  - intros k Hk. destruct (A k Hk) as (ids & E1 & E2 & E3). exists ids. do 2 (split; auto).
    intros j. rewrite E3. split; intros (i & c & X); exists i, c; [intuition|].
    destruct X as (X1 & X2 & X3). eauto 6.
  - intros j c' Hj Hd. destruct (C j c' Hj Hd) as [C1 C2]. cbv zeta. split.
    + intros (i & c & X1 & X2 & X3). destruct C1 as (l & L1 & L2 & L3); [exists i, c; eauto 6|].
      exists l. do 2 (split; auto). intros u. rewrite L3. split; intros (i' & (c'' & X) & ->); exists i'; split; auto.
      * exists c''. intuition.
      * exists c''. destruct X as (Y1 & Y2 & Y3). eauto 6.
    + intros N. apply C2. intros (i & c & X). apply N. exists i, c. intuition.
Qed.
Lemma build_data_success fuel cs mesh_dim dim :
  closed_mesh cs ->
  (dim <= mesh_dim -> exists t, build_data (S fuel) cs mesh_dim dim = Ok t) /\
  (mesh_dim < dim -> build_data (S fuel) cs mesh_dim dim = Err ValueError).
Proof.
  intros CL. split; intros H.
  - destruct (build_data_eq fuel cs mesh_dim dim CL) as (tags & Ht & E). rewrite E.
    apply C11_success_lemma; auto.
  - unfold build_data. apply Nat.ltb_lt in H. rewrite H. auto.
Qed.

(** ** C10 with nodes and multiplicities *)
Lemma tagged_lemma fuel cs tags d k :
  closed_mesh cs -> k <= d -> d <= 3 ->
  exists g gt, build_graph (S fuel) cs (Z.of_nat d) (Z.of_nat d - Z.of_nat k) = Ok g /\
    build_graph_on_physical_tags (S fuel) cs tags (Z.of_nat d) (Z.of_nat d - Z.of_nat k) = Ok gt /\
    NoDup (g_edges gt) /\
    (forall w, In w (g_nodes gt) <-> exists u v, In (u, v) (g_edges gt) /\ (w = u \/ w = v)) /\
    forall u v, In (u, v) (g_edges gt) <->
      In (u, v) (g_edges g) /\ exists c, cell_at cs (snd u) c /\ In (c_mat c) tags.
Proof.
  intros CL Hk Hd. destruct (C10_lemma fuel cs tags d k CL Hk Hd) as (g & gt & E1 & E2 & H).
  exists g, gt. do 2 (split; [assumption|]).
  destruct (build_graph_tags_closed fuel cs tags d k CL Hk) as (l' & M' & E').
  rewrite E' in E2. inversion E2; subst gt. split; [apply NoDup_uniq|]. split; [|exact H].
  intros w. rewrite In_nodes_from_edgelist. split.
  - intros ([u v] & He & Hw). exists u, v. rewrite In_edges_from_edgelist. simpl in Hw. intuition.
  - intros (u & v & He & Hw). rewrite In_edges_from_edgelist in He. exists (u, v). simpl. intuition.
Qed.
