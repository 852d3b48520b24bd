(** * Proofs about the cells and the graph of a fracture network *)
From Coq Require Import List Arith ZArith Bool Lia Permutation.
From Verif Require Import Base BaseProof FracModel FracSpec FracProof2.
Import ListNotations.

Lemma cells_lemma (P : Type) isect near argsort (segs : list (P * P)) shift : segs <> [] -> (forall x, near x x = true) ->
  (forall xs o, Permutation (argsort xs o) (seq 0 (length xs))) ->
  exists n, intersect_1D_fractures P isect near argsort (map (fun s => [fst s; snd s]) segs) shift = Ok n /\ network_cells P isect near segs shift n.
Proof.
  intros Hne Hr Hp. destruct (C59_lemma P isect near argsort segs shift Hr Hp Hne) as (n & E & (_ & C & _) & _). exists n. auto.
Qed.

(** The shape used by the graph *)
Definition leveled (cs : list gcell) : Prop := forall i c, nth_error cs i = Some c -> gc_id c = i /\
  (gc_dim c = 0 \/ (gc_dim c = 1 /\ (forall b, In b (gc_bc c) -> is_vertex cs b) /\
     forall m, In m (gc_imm c) -> exists d, nth_error cs m = Some d /\ gc_dim d = 1 /\ gc_imm d = [])).
Lemma cells_leveled P isect near segs shift n : network_cells P isect near segs shift n -> (forall i c, nth_error (n_cells P n) i = Some c -> gc_id c = i) -> leveled (n_cells P n).
Proof.
  intros C Ids i c Hc. split; [auto|]. destruct (C i c Hc) as [(t & tag & -> & _)|[(k & imm & _ & -> & V1 & V2 & M)|(k & u & v & _ & V1 & V2 & -> & _)]].
  - left. reflexivity.
  - right. split; [reflexivity|]. split; [intros b [<-|[<-|[]]]; auto|]. intros m Hm. destruct (M m Hm) as (u & v & E). eexists. split; [exact E|]. split; reflexivity.
  - right. split; [reflexivity|]. split; [intros b [<-|[<-|[]]]; auto|]. intros m [].
Qed.
Section Graph.
  Variable cs : list gcell.
  Hypothesis L : leveled cs.
  Definition arrows_of (i : nat) (e : nat * nat) : Prop :=
    exists c, nth_error cs i = Some c /\ ((fst e = i /\ In (snd e) (gc_bc c ++ gc_imm c)) \/
      (In (fst e) (gc_imm c) /\ exists d, nth_error cs (fst e) = Some d /\ In (snd e) (gc_bc d ++ gc_imm d))).
  Lemma get_cell i c : nth_error cs i = Some c -> get_at cs i = Ok c.
  Proof. unfold get_at. intros ->. reflexivity. Qed.
  Lemma mapM_total {A B} (f : A -> res B) l : (forall x, In x l -> exists y, f x = Ok y) -> exists ys, mapM f l = Ok ys /\ forall y, In y ys <-> exists x, In x l /\ f x = Ok y.
  Proof.
    induction l as [|x l IH]; intros H; [exists []; split; auto; simpl; intros y; split; [tauto|intros (x & [] & _)]|].
    destruct (H x) as (y & Hy); [simpl; auto|]. destruct IH as (ys & E & M); [intros; apply H; simpl; auto|]. exists (y :: ys). cbn [mapM]. rewrite Hy, E. cbn [bind]. split; auto.
    intros z. simpl. rewrite M. split; [intros [<-|(x' & I & Q)]; eauto|]. intros (x' & [<-|I] & Q); [left; congruence|eauto].
  Qed.
  Lemma gather_leaf f i c : nth_error cs i = Some c -> gc_dim c = 1 -> gc_imm c = [] ->
    exists es, gather_network_edges (S f) cs i = Ok es /\ forall e, In e es <-> fst e = i /\ In (snd e) (gc_bc c).
  Proof.
    intros Hc D I. cbn [gather_network_edges]. rewrite (get_cell _ _ Hc). cbn [bind]. rewrite I, app_nil_r. destruct (L i c Hc) as (Id & [Q|(_ & Hb & _)]); [lia|].
    set (g := fun k : nat => do c' <- get_at cs k; if gc_dim c' =? 0 then Ok [(gc_id c, gc_id c')] else do rest <- gather_network_edges f cs k; Ok ((gc_id c, gc_id c') :: rest)).
    assert (G : forall k, In k (gc_bc c) -> g k = Ok [(i, k)]). { intros k Hk. unfold g. destruct (Hb k Hk) as (v & Hv & Dv). rewrite (get_cell _ _ Hv). cbn [bind]. rewrite Dv. cbn [Nat.eqb]. rewrite Id, (proj1 (L k v Hv)). reflexivity. }
    destruct (mapM_total g (gc_bc c)) as (ys & E & M); [intros k Hk; eauto|]. rewrite E. cbn [bind]. eexists. split; [reflexivity|].
    intros [a b]. cbn [fst snd]. rewrite in_concat. split.
    - intros (y & Hy & Hab). apply M in Hy as (k & Hk & Gk). rewrite (G k Hk) in Gk. injection Gk as <-. destruct Hab as [Hab|[]]. injection Hab as <- <-. auto.
    - intros [-> Hb']. exists [(i, b)]. split; [apply M; exists b; auto|simpl; auto].
  Qed.
  Lemma gather_line f i c : nth_error cs i = Some c -> gc_dim c = 1 ->
    exists es, gather_network_edges (S (S f)) cs i = Ok es /\ forall e, In e es <-> arrows_of i e.
  Proof.
    intros Hc D. remember (S f) as f1 eqn:F1. cbn [gather_network_edges]. rewrite (get_cell _ _ Hc). cbn [bind]. destruct (L i c Hc) as (Id & [Q|(_ & Hb & Hm)]); [lia|].
    set (g := fun k : nat => do c' <- get_at cs k; if gc_dim c' =? 0 then Ok [(gc_id c, gc_id c')] else do rest <- gather_network_edges f1 cs k; Ok ((gc_id c, gc_id c') :: rest)).
    assert (Gb : forall k, In k (gc_bc c) -> g k = Ok [(i, k)]). { intros k Hk. unfold g. destruct (Hb k Hk) as (v & Hv & Dv). rewrite (get_cell _ _ Hv). cbn [bind]. rewrite Dv. cbn [Nat.eqb]. rewrite Id, (proj1 (L k v Hv)). reflexivity. }
    assert (Gm : forall k, In k (gc_imm c) -> exists d es, nth_error cs k = Some d /\ g k = Ok ((i, k) :: es) /\ forall e, In e es <-> fst e = k /\ In (snd e) (gc_bc d ++ gc_imm d)).
    { intros k Hk. destruct (Hm k Hk) as (d & Hd & Dd & Id'). destruct (gather_leaf f k d Hd Dd Id') as (es & E & M). exists d, es. split; auto. split; [|rewrite Id', app_nil_r; exact M].
      unfold g. rewrite (get_cell _ _ Hd). cbn [bind]. rewrite Dd. cbn [Nat.eqb]. rewrite F1, E. cbn [bind]. rewrite Id, (proj1 (L k d Hd)). reflexivity. }
    destruct (mapM_total g (gc_bc c ++ gc_imm c)) as (ys & E & M). { intros k Hk. apply in_app_iff in Hk as [Hk|Hk]; [eauto|]. destruct (Gm k Hk) as (d & es & _ & G & _). eauto. }
    rewrite E. cbn [bind]. eexists. split; [reflexivity|]. intros [a b]. unfold arrows_of. cbn [fst snd]. rewrite in_concat. split.
    - intros (y & Hy & Hab). exists c. split; auto. apply M in Hy as (k & Hk & Gk). apply in_app_iff in Hk as [Hk|Hk].
      + rewrite (Gb k Hk) in Gk. injection Gk as <-. destruct Hab as [Hab|[]]. injection Hab as <- <-. left. rewrite in_app_iff. auto.
      + destruct (Gm k Hk) as (d & es & Hd & G & Me). rewrite G in Gk. injection Gk as <-. destruct Hab as [Hab|Hab].
        * injection Hab as <- <-. left. rewrite in_app_iff. auto.
        * apply Me in Hab. cbn [fst snd] in Hab. destruct Hab as [-> Hab]. right. split; auto. exists d. auto.
    - intros (c' & Hc' & H). assert (c' = c) by congruence. subst c'. destruct H as [[-> H]|[H (d & Hd & Hb')]].
      + assert (H' := H). apply in_app_iff in H' as [H'|H'].
        * exists [(i, b)]. split; [apply M; exists b; auto|simpl; auto].
        * destruct (Gm b H') as (d & es & _ & G & _). exists ((i, b) :: es). split; [apply M; exists b; auto|simpl; auto].
      + destruct (Gm a H) as (d' & es & Hd' & G & Me). assert (d' = d) by congruence. subst d'. exists ((i, a) :: es). split; [apply M; exists a; rewrite in_app_iff; auto|]. right. apply Me. auto.
  Qed.
  Lemma in_positions (q : gcell -> bool) i : In i (map snd (filter (fun ci => q (fst ci)) (combine cs (seq 0 (length cs))))) <-> exists c, nth_error cs i = Some c /\ q c = true.
  Proof.
    rewrite in_map_iff. split.
    - intros ([c j] & <- & I). apply filter_In in I as [I Q]. apply In_nth_error in I as (p & Hp). exists c. cbn [fst snd] in *. split; auto.
      assert (Z : forall (l : list gcell) s p c j, nth_error (combine l (seq s (length l))) p = Some (c, j) -> j = s + p /\ nth_error l p = Some c).
      { clear. induction l as [|x l IH]; intros s p c j H; [destruct p; discriminate|]. destruct p as [|p]; cbn in H; [injection H as <- <-; split; [lia|auto]|]. apply IH in H as [-> H]. split; [lia|auto]. }
      apply Z in Hp as [-> Hp]. exact Hp.
    - intros (c & Hc & Q). exists (c, i). split; auto. apply filter_In. split; auto.
      assert (Z : forall (l : list gcell) s p c, nth_error l p = Some c -> In (c, s + p) (combine l (seq s (length l)))).
      { clear. induction l as [|x l IH]; intros s p c H; [destruct p; discriminate|]. destruct p as [|p]; cbn in H |- *; [injection H as <-; left; f_equal; lia|]. right. replace (s + S p) with (S s + p) by lia. apply IH. auto. }
      apply (Z cs 0 i c Hc).
  Qed.
  Lemma graph_spec f all_q : exists g, build_network_graph (S (S f)) cs all_q = Ok g /\ NoDup (g_edges g) /\ forall u v, In (u, v) (g_edges g) <-> network_arrow cs all_q u v.
  Proof.
    unfold build_network_graph. set (q := fun c : gcell => (gc_dim c =? 1) && (all_q || match gc_imm c with [] => true | _ => false end)).
    change (fun ci : gcell * nat => (gc_dim (fst ci) =? 1) && (all_q || match gc_imm (fst ci) with [] => true | _ => false end)) with (fun ci : gcell * nat => q (fst ci)).
    set (lines := map snd _). assert (HL : forall i, In i lines <-> exists c, nth_error cs i = Some c /\ q c = true) by (apply in_positions).
    assert (Q : forall c, q c = true <-> gc_dim c = 1 /\ (all_q = true \/ gc_imm c = [])). { intros c. unfold q. rewrite andb_true_iff, orb_true_iff, Nat.eqb_eq. destruct (gc_imm c); intuition; discriminate. }
    assert (T : forall i, In i lines -> exists es, gather_network_edges (S (S f)) cs i = Ok es /\ forall e, In e es <-> arrows_of i e).
    { intros i Hi. apply HL in Hi as (c & Hc & Hq). apply Q in Hq as [Hd _]. eapply gather_line; eauto. }
    destruct (mapM_total (gather_network_edges (S (S f)) cs) lines) as (ys & E & M); [intros i Hi; destruct (T i Hi) as (es & Q1 & _); eauto|].
    rewrite E. cbn [bind]. eexists. split; [reflexivity|]. unfold from_edgelist. cbn [g_edges]. split; [apply NoDup_uniq|]. intros u v. rewrite In_uniq, in_concat.
    transitivity (exists i, In i lines /\ arrows_of i (u, v)).
    { split.
      - intros (y & Hy & I). apply M in Hy as (i & Hi & G). exists i. split; auto. destruct (T i Hi) as (es & G' & Me). apply Me. congruence.
      - intros (i & Hi & A). destruct (T i Hi) as (es & G & Me). exists es. split; [apply M; eauto|]. apply Me. auto. }
    unfold arrows_of, network_arrow. cbn [fst snd]. split.
    - intros (i & Hi & c & Hc & H). apply HL in Hi as (c' & Hc' & Hq). assert (c' = c) by congruence. subst c'. apply Q in Hq as [Hd Hall]. destruct H as [[-> H]|[H (d & Hd' & Hv)]].
      + exists c. auto.
      + destruct (L i c Hc) as (_ & [Z|(_ & _ & Hm)]); [lia|]. destruct (Hm u H) as (d' & Hd'' & D1 & D2). assert (d' = d) by congruence. subst d'. exists d. auto.
    - intros (c & Hc & Hd & Ha & Hv). exists u. split; [apply HL; exists c; split; auto; apply Q; auto|]. exists c. split; auto.
  Qed.
End Graph.

Lemma net_graph_lemma (P : Type) isect near argsort (segs : list (P * P)) shift fuel all_q : segs <> [] -> (forall x, near x x = true) ->
  (forall xs o, Permutation (argsort xs o) (seq 0 (length xs))) -> 2 <= fuel ->
  exists n g, intersect_1D_fractures P isect near argsort (map (fun s => [fst s; snd s]) segs) shift = Ok n /\
    build_network_graph fuel (n_cells P n) all_q = Ok g /\ NoDup (g_edges g) /\
    forall u v, In (u, v) (g_edges g) <-> network_arrow (n_cells P n) all_q u v.
Proof.
  intros Hne Hr Hp Hf. destruct (C59_lemma P isect near argsort segs shift Hr Hp Hne) as (n & E & (Ids & C & _) & _). destruct fuel as [|[|f]]; [lia|lia|].
  destruct (graph_spec (n_cells P n) (cells_leveled _ _ _ _ _ _ C Ids) f all_q) as (g & G). exists n, g. auto.
Qed.
