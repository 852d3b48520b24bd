(** * Proofs about boxes: the polygon *)
From Coq Require Import List Arith ZArith Bool Lia Permutation.
From Verif Require Import Base BaseProof FracModel MesherModel MesherSpec MesherProof BuilderModel BuilderSpec.
Import ListNotations.

Lemma get_at_Some {A} (l : list A) i c : nth_error l i = Some c -> get_at l i = Ok c.
Proof. unfold get_at. intros ->. reflexivity. Qed.
Lemma cells_at_ok cs l : (forall i, In i l -> i < length cs) -> cells_at cs l = Ok l.
Proof.
  induction l as [|i l IH]; intros H; [reflexivity|]. unfold cells_at in *. cbn [mapM].
  destruct (nth_error cs i) as [c|] eqn:E; [|apply nth_error_None in E; specialize (H i (or_introl eq_refl)); lia].
  rewrite (get_at_Some _ _ _ E). cbn [bind]. rewrite IH by (intros; apply H; right; auto). reflexivity.
Qed.

(** Picking all positions, each once, permutes a list. *)
Lemma mapM_get_at {A} (cs : list A) : forall l, (forall i, In i l -> i < length cs) ->
  exists xs, mapM (get_at cs) l = Ok xs /\ map Some xs = map (nth_error cs) l.
Proof.
  induction l as [|i l IH]; intros H; [exists []; auto|]. destruct IH as (xs & E & M); [intros; apply H; right; auto|].
  destruct (nth_error cs i) as [c|] eqn:Ei; [|apply nth_error_None in Ei; specialize (H i (or_introl eq_refl)); lia].
  exists (c :: xs). cbn [mapM map]. rewrite (get_at_Some _ _ _ Ei), E. cbn [bind]. rewrite Ei, M. auto.
Qed.
Lemma map_nth_error_seq {A} (cs : list A) : map (nth_error cs) (seq 0 (length cs)) = map Some cs.
Proof.
  assert (G : forall (l pre : list A), map (nth_error (pre ++ l)) (seq (length pre) (length l)) = map Some l).
  { induction l as [|x l IH]; intros pre; [reflexivity|]. cbn [length seq map]. f_equal.
    - rewrite nth_error_app2, Nat.sub_diag by lia. reflexivity.
    - specialize (IH (pre ++ [x])). rewrite <- app_assoc, app_length in IH. cbn [app length] in IH. rewrite Nat.add_1_r in IH. exact IH. }
  apply (G cs []).
Qed.
Lemma Permutation_map_inj {A B} (f : A -> B) (Hf : forall x y, f x = f y -> x = y) : forall l l', Permutation (map f l) (map f l') -> Permutation l l'.
Proof.
  intros l l' H. apply Permutation_map_inv in H as (l3 & E & H). assert (l = l3); [|subst; apply Permutation_sym; exact H].
  clear H. revert l3 E. induction l as [|x l IH]; intros [|y l3] E; try discriminate; auto. injection E as E1 E2. apply Hf in E1. subst. f_equal. auto.
Qed.
Lemma all_nodes {A} (cs : list A) nodes : NoDup nodes -> (forall i, In i nodes <-> i < length cs) ->
  exists xs, mapM (get_at cs) nodes = Ok xs /\ Permutation xs cs.
Proof.
  intros N H. destruct (mapM_get_at cs nodes) as (xs & E & M); [intros; apply H; auto|]. exists xs. split; auto.
  apply (Permutation_map_inj (@Some A)); [congruence|]. rewrite M, <- map_nth_error_seq. apply Permutation_map.
  apply NoDup_Permutation; auto; [apply seq_NoDup|]. intros i. rewrite H, in_seq. lia.
Qed.
Lemma Permutation_filter {A} (f : A -> bool) l l' : Permutation l l' -> Permutation (filter f l) (filter f l').
Proof.
  induction 1; simpl; auto; [destruct (f x); auto| |etransitivity; eauto].
  destruct (f x), (f y); auto. apply perm_swap.
Qed.

(** ** The graph of cells bounded by cells of one dimension less *)
Definition graded (cs : list bcell) : Prop := forall i c, nth_error cs i = Some c -> bl_id c = i /\
  forall k, In k (bl_bc c) -> exists c', nth_error cs k = Some c' /\ bl_dim c = S (bl_dim c').
Section Graded.
  Variable cs : list bcell.
  Hypothesis G : graded cs.
  Lemma gather_ok : forall f i c, nth_error cs i = Some c -> bl_dim c <= S f ->
    exists es, gather_box_edges (S f) cs i = Ok es /\ (forall k, In k (bl_bc c) -> In (i, k) es) /\
      forall u v, In (u, v) es -> exists d, nth_error cs u = Some d /\ In v (bl_bc d).
  Proof.
    induction f as [|f IH]; intros i c Hc D.
    - destruct (G i c Hc) as [Id B]. cbn [gather_box_edges]. rewrite (get_at_Some _ _ _ Hc). cbn [bind].
      rewrite (mapM_Ok_map _ (fun k => [(i, k)]) (bl_bc c)).
      + cbn [bind]. eexists. split; [reflexivity|]. split.
        * intros k Hk. apply in_concat. exists [(i, k)]. split; [apply in_map_iff; eauto|simpl; auto].
        * intros u v Huv. apply in_concat in Huv as (l & L & Huv). apply in_map_iff in L as (k & <- & Hk). destruct Huv as [E|[]]. injection E as <- <-. eauto.
      + intros k Hk. destruct (B k Hk) as (c' & Hc' & Dc). destruct (G k c' Hc') as [Id' _]. rewrite (get_at_Some _ _ _ Hc'). cbn [bind].
        replace (bl_dim c') with 0 by lia. cbn [Nat.eqb]. rewrite Id, Id'. reflexivity.
    - destruct (G i c Hc) as [Id B]. remember (S f) as f1 eqn:F1. cbn [gather_box_edges]. rewrite (get_at_Some _ _ _ Hc). cbn [bind].
      set (g := fun k => do c' <- get_at cs k; if bl_dim c' =? 0 then Ok [(bl_id c, bl_id c')] else do rest <- gather_box_edges f1 cs k; Ok ((bl_id c, bl_id c') :: rest)).
      assert (T : forall k, In k (bl_bc c) -> exists es, g k = Ok ((i, k) :: es) /\ forall u v, In (u, v) es -> exists d, nth_error cs u = Some d /\ In v (bl_bc d)).
      { intros k Hk. destruct (B k Hk) as (c' & Hc' & Dc). destruct (G k c' Hc') as [Id' _]. unfold g. rewrite (get_at_Some _ _ _ Hc'). cbn [bind]. rewrite Id, Id'.
        destruct (Nat.eqb_spec (bl_dim c') 0) as [Z|Z]; [exists []; split; auto; intros u v []|].
        destruct (IH k c' Hc') as (es & E & _ & S); [lia|]. rewrite E. cbn [bind]. exists es. auto. }
      assert (M : exists ys, mapM g (bl_bc c) = Ok ys /\ (forall k, In k (bl_bc c) -> exists y, In y ys /\ In (i, k) y) /\
        forall y u v, In y ys -> In (u, v) y -> (u = i /\ In v (bl_bc c)) \/ exists d, nth_error cs u = Some d /\ In v (bl_bc d)).
      { revert T. clear -Hc. induction (bl_bc c) as [|k l IHl]; intros T; [exists []; split; [reflexivity|]; split; [intros k []|intros y u v []]|].
        destruct (T k (or_introl eq_refl)) as (es & E & S). destruct IHl as (ys & E' & C & S'); [intros; apply T; right; auto|].
        exists (((i, k) :: es) :: ys). cbn [mapM]. rewrite E, E'. split; [reflexivity|]. split.
        - intros k' [<-|Hk]; [exists ((i, k) :: es); split; left; auto|]. destruct (C k' Hk) as (y & Hy & I). exists y. split; auto. right. auto.
        - intros y u v [<-|Hy] Huv; [|destruct (S' y u v Hy Huv) as [[-> I]|I]; [left; split; [auto|right; auto]|right; auto]].
          destruct Huv as [Q|Huv]; [injection Q as <- <-; left; split; [auto|left; auto]|right; apply S; auto]. }
      destruct M as (ys & E & C & S). rewrite E. cbn [bind]. eexists. split; [reflexivity|]. split.
      + intros k Hk. destruct (C k Hk) as (y & Hy & I). apply in_concat. eauto.
      + intros u v Huv. apply in_concat in Huv as (y & Hy & I). destruct (S y u v Hy I) as [[-> J]|J]; eauto.
  Qed.
  Lemma graph_ok f : (forall i c, nth_error cs i = Some c -> bl_dim c <= S f) ->
    exists g, build_box_graph (S f) cs = Ok g /\ NoDup (g_nodes g) /\
      forall u, In u (g_nodes g) <-> exists c, nth_error cs u = Some c /\ (bl_bc c <> [] \/ exists i d, nth_error cs i = Some d /\ In u (bl_bc d)).
  Proof.
    intros D. unfold build_box_graph.
    assert (M : exists ys, mapM (gather_box_edges (S f) cs) (seq 0 (length cs)) = Ok ys /\
      (forall i c k, nth_error cs i = Some c -> In k (bl_bc c) -> exists y, In y ys /\ In (i, k) y) /\
      forall y u v, In y ys -> In (u, v) y -> exists d, nth_error cs u = Some d /\ In v (bl_bc d)).
    { assert (Q : forall l, (forall i, In i l -> i < length cs) -> exists ys, mapM (gather_box_edges (S f) cs) l = Ok ys /\
        (forall i c k, In i l -> nth_error cs i = Some c -> In k (bl_bc c) -> exists y, In y ys /\ In (i, k) y) /\
        forall y u v, In y ys -> In (u, v) y -> exists d, nth_error cs u = Some d /\ In v (bl_bc d)).
      { induction l as [|i l IH]; intros H; [exists []; split; [reflexivity|]; split; [intros i c k []|intros y u v []]|].
        destruct (nth_error cs i) as [c|] eqn:Ei; [|apply nth_error_None in Ei; specialize (H i (or_introl eq_refl)); lia].
        destruct (gather_ok f i c Ei (D i c Ei)) as (es & E & C & S). destruct IH as (ys & E' & C' & S'); [intros; apply H; right; auto|].
        exists (es :: ys). remember (S f) as f1. cbn [mapM]. rewrite E, E'. split; [reflexivity|]. split.
        - intros j d k [<-|Hj] Hd Hk; [exists es; split; [left; auto|apply C; congruence]|]. destruct (C' j d k Hj Hd Hk) as (y & Hy & I). exists y. split; [right|]; auto.
        - intros y u v [<-|Hy]; eauto. }
      destruct (Q (seq 0 (length cs))) as (ys & E & C & S); [intros i Hi; apply in_seq in Hi; lia|]. exists ys. split; auto. split; auto.
      intros i c k Hi. apply C; auto. apply in_seq. assert (i < length cs) by (apply nth_error_Some; congruence). lia. }
    destruct M as (ys & E & C & S). rewrite E. cbn [bind]. eexists. split; [reflexivity|]. split; [apply NoDup_uniq|].
    intros u. rewrite In_nodes_from_edgelist. split.
    - intros ([a b] & He & Hu). apply in_concat in He as (y & Hy & He). destruct (S y a b Hy He) as (d & Hd & Hb). cbn [fst snd] in Hu. destruct Hu as [->| ->].
      + exists d. split; auto. left. intros Z. rewrite Z in Hb. destruct Hb.
      + destruct (proj2 (G a d Hd) u Hb) as (c' & Hc' & _). exists c'. split; auto. right. eauto.
    - intros (c & Hc & [B|(i & d & Hd & I)]).
      + destruct (bl_bc c) as [|k l] eqn:Eb; [congruence|]. destruct (C u c k Hc) as (y & Hy & I); [rewrite Eb; left; auto|]. exists (u, k). split; [apply in_concat; eauto|left; auto].
      + destruct (C i d u Hd I) as (y & Hy & J). exists (i, u). split; [apply in_concat; eauto|right; auto].
  Qed.
End Graded.

(** ** The cells of a polygon *)
Definition polygon_side (n : nat) (T : dict key Z) (i : nat) : bcell := mk_bcell 1 (n + i) (dget T (KBc i)) None [i; (i + 1) mod n] [].
Definition polygon_cells (n : nat) (T : dict key Z) : list bcell :=
  map box_vertex (seq 0 n) ++ map (polygon_side n T) (seq 0 n) ++ [mk_bcell 2 (n + n) (dget T KArea) None (seq n n) []].
Lemma next_corner n i : i < n -> (if i =? n - 1 then 0 else i + 1) = (i + 1) mod n.
Proof.
  intros H. destruct (Nat.eqb_spec i (n - 1)) as [->|E]; [replace (n - 1 + 1) with n by lia; rewrite Nat.mod_same by lia; reflexivity|].
  rewrite Nat.mod_small by lia. reflexivity.
Qed.
Lemma edges_loop n T : forall m s cs, s + m <= n -> n <= length cs ->
  foldM (polygon_edge n T) (seq s m) cs = Ok (cs ++ map (polygon_side n T) (seq s m)).
Proof.
  induction m as [|m IH]; intros s cs H L; [simpl; rewrite app_nil_r; auto|]. cbn [seq foldM map]. unfold polygon_edge at 1.
  rewrite next_corner by lia. assert ((s + 1) mod n < n) by (apply Nat.mod_upper_bound; lia).
  rewrite cells_at_ok by (intros i [<-|[<-|[]]]; lia). cbn [bind]. rewrite IH by (try rewrite app_length; simpl; lia). rewrite <- app_assoc. reflexivity.
Qed.
Lemma polygon_nth n T i c : nth_error (polygon_cells n T) i = Some c ->
  (i < n /\ c = box_vertex i) \/ (exists t, t < n /\ i = n + t /\ c = polygon_side n T t) \/ (i = n + n /\ c = mk_bcell 2 (n + n) (dget T KArea) None (seq n n) []).
Proof.
  unfold polygon_cells. intros H. destruct (Nat.lt_ge_cases i n) as [L|L].
  - rewrite nth_error_app1 in H by (rewrite map_length, seq_length; auto). left. split; auto. rewrite nth_error_map in H.
    rewrite (nth_error_nth' _ 0), seq_nth in H by (rewrite ?seq_length; auto). simpl in H. congruence.
  - right. rewrite nth_error_app2 in H; rewrite map_length, seq_length in *; [|auto]. destruct (Nat.lt_ge_cases (i - n) n) as [L'|L'].
    + rewrite nth_error_app1 in H by (rewrite map_length, seq_length; auto). left. exists (i - n). split; auto. split; [lia|]. rewrite nth_error_map in H.
      rewrite (nth_error_nth' _ 0), seq_nth in H by (rewrite ?seq_length; auto). simpl in H. congruence.
    + rewrite nth_error_app2 in H; rewrite map_length, seq_length in *; [|auto]. right. destruct (i - n - n) as [|k] eqn:E; [|destruct k; discriminate]. simpl in H. split; [lia|congruence].
Qed.
Lemma polygon_vertex n T i : i < n -> nth_error (polygon_cells n T) i = Some (box_vertex i).
Proof.
  intros L. unfold polygon_cells. rewrite nth_error_app1 by (rewrite map_length, seq_length; auto). rewrite nth_error_map.
  rewrite (nth_error_nth' _ 0), seq_nth by (rewrite ?seq_length; auto). reflexivity.
Qed.
Lemma polygon_edge_nth n T i : i < n -> nth_error (polygon_cells n T) (n + i) = Some (polygon_side n T i).
Proof.
  intros L. unfold polygon_cells. rewrite nth_error_app2; rewrite map_length, seq_length; [|lia]. replace (n + i - n) with i by lia.
  rewrite nth_error_app1 by (rewrite map_length, seq_length; auto). rewrite nth_error_map, (nth_error_nth' _ 0), seq_nth by (rewrite ?seq_length; auto). reflexivity.
Qed.
Lemma polygon_face n T : nth_error (polygon_cells n T) (n + n) = Some (mk_bcell 2 (n + n) (dget T KArea) None (seq n n) []).
Proof.
  unfold polygon_cells. rewrite nth_error_app2; rewrite map_length, seq_length; [|lia]. replace (n + n - n) with n by lia.
  rewrite nth_error_app2; rewrite map_length, seq_length; [|lia]. rewrite Nat.sub_diag. reflexivity.
Qed.
Lemma polygon_length n T : length (polygon_cells n T) = 2 * n + 1.
Proof. unfold polygon_cells. rewrite !app_length, !map_length, seq_length. simpl. lia. Qed.
Lemma polygon_graded n T : graded (polygon_cells n T).
Proof.
  intros i c H. destruct (polygon_nth _ _ _ _ H) as [(L & ->)|[(t & L & -> & ->)|(-> & ->)]].
  - split; [reflexivity|]. intros k [].
  - split; [reflexivity|]. assert ((t + 1) mod n < n) by (apply Nat.mod_upper_bound; lia).
    intros k [<-|[<-|[]]]; eexists; (split; [apply polygon_vertex; lia|reflexivity]).
  - split; [reflexivity|]. cbn [bl_bc]. intros k K. apply in_seq in K. exists (polygon_side n T (k - n)). split; [|reflexivity].
    replace k with (n + (k - n)) at 1 by lia. apply polygon_edge_nth. lia.
Qed.
Section Box2D.
  Context {P : Type}.
  Lemma box_2D_spec f tags (pts : list P) : pts <> [] ->
    let n := length pts in let T := in_effect tags default_2D in
    exists g, box_2D P (S (S f)) (new_builder P tags) pts = Ok (mk_builder P (polygon_cells n T) pts T, g) /\
      NoDup (g_nodes g) /\ forall u, In u (g_nodes g) <-> u < 2 * n + 1.
  Proof.
    intros Hne n T. assert (ET : T = tags_or tags default_2D) by (unfold T; destruct tags; reflexivity). clearbody T. assert (En : length pts = n) by reflexivity. assert (Hn : 0 < n) by (unfold n; destruct pts; [congruence|simpl; lia]). clearbody n.
    destruct (graph_ok (polygon_cells n T) (polygon_graded n T) (S f)) as (g & E & N & M).
    { intros i c H. destruct (polygon_nth _ _ _ _ H) as [(L & ->)|[(t & L & -> & ->)|(-> & ->)]]; cbn; lia. }
    exists g. split; [|split; auto].
    - unfold box_2D. cbn [new_builder bu_tags bu_cells bu_points]. fold default_2D. rewrite <- ET. destruct pts as [|p pts'] eqn:Ep; [congruence|]. rewrite <- Ep in *.
      rewrite En. cbv zeta. change ([] ++ map box_vertex (seq 0 n)) with (map box_vertex (seq 0 n)).
      rewrite edges_loop by (rewrite ?map_length, ?seq_length; lia). cbn [bind].
      rewrite cells_at_ok. 2: { intros i Hi. apply in_seq in Hi. rewrite app_length, !map_length, !seq_length. lia. }
      cbn [bind]. rewrite <- app_assoc. fold (polygon_cells n T). rewrite E. reflexivity.
    - intros u. rewrite M. split.
      + intros (c & Hc & _). rewrite <- (polygon_length n T). apply nth_error_Some. congruence.
      + intros L. destruct (nth_error (polygon_cells n T) u) as [c|] eqn:Ec; [|apply nth_error_None in Ec; rewrite polygon_length in Ec; lia].
        exists c. split; auto. destruct (polygon_nth _ _ _ _ Ec) as [(L' & ->)|[(t & L' & -> & ->)|(-> & ->)]].
        * right. exists (n + u), (polygon_side n T u). split; [apply polygon_edge_nth; auto|left; auto].
        * left. discriminate.
        * left. cbn [bl_bc]. destruct n; [lia|discriminate].
  Qed.
End Box2D.
