(** * Lemmas: cutting along lines, C36 (the updates) *)
From Coq Require Import List Arith ZArith Bool Lia Sorted Permutation.
From Verif Require Import Base BaseProof MeshModel MeshSpec GraphModel GraphProof CutModel CutSpec CutProof CutProof2
  LineCutModel LineCutSpec.
Import ListNotations.

(** ** replacing the first occurrence *)
Lemma first_index_map (f g : nat -> nat) v y l : NoDup l -> f v = v -> g v = y ->
  (forall z, In z l -> z <> v -> f z = g z /\ f z <> v) -> In v l ->
  exists k, first_index v (map f l) = Some k /\ k < length l /\ set_at (map f l) k y = map g l.
Proof.
  intros ND Fv Gv. induction l as [|a l IH]; intros H I; [destruct I|]. inversion ND; subst. cbn [map first_index].
  destruct (Nat.eq_dec a v) as [->|N].
  - rewrite Fv, Nat.eqb_refl. exists 0. split; auto. split; [simpl; lia|]. cbn [set_at]. f_equal.
    apply map_ext_in. intros z Hz. apply H; [right; auto|]. intros ->. tauto.
  - destruct (H a) as [E N']; [left; auto|auto|]. destruct (Nat.eqb_spec v (f a)); [congruence|].
    destruct IH as (k & Ek & Lk & Es); auto; [intros; apply H; auto; right; auto|destruct I; [congruence|auto]|].
    rewrite Ek. exists (S k). split; auto. split; [simpl; lia|]. cbn [set_at]. f_equal; auto.
Qed.
Lemma pos_app x l l' : pos x (l ++ l') = match pos x l with Some k => Some k | None => option_map (fun k => length l + k) (pos x l') end.
Proof.
  induction l as [|a l IH]; simpl; [destruct (pos x l'); auto|].
  destruct (x =? a); auto. rewrite IH. destruct (pos x l); simpl; auto. destruct (pos x l'); auto.
Qed.
Lemma relabel_snoc V v b z : ~ In v V ->
  relabel (V ++ [v]) b z = if z =? v then b + length V else relabel V b z.
Proof.
  intros N. unfold relabel. rewrite pos_app. simpl. destruct (Nat.eqb_spec z v) as [->|M].
  - rewrite (proj2 (pos_None v V)) by auto. simpl. lia.
  - destruct (pos z V); auto.
Qed.
Lemma relabel_ge V b z : In z V -> b <= relabel V b z.
Proof. intros I. unfold relabel. apply pos_In in I as (k & ->). lia. Qed.
Lemma relabel_inj V b x y : NoDup V -> x < b -> y < b -> relabel V b x = relabel V b y -> x = y.
Proof.
  intros ND Lx Ly E. destruct (in_dec Nat.eq_dec x V) as [I|I], (in_dec Nat.eq_dec y V) as [J|J].
  - unfold relabel in E. apply pos_In in I as (k & Ek), J as (k' & Ek'). rewrite Ek, Ek' in E.
    assert (k = k') by lia. subst. apply pos_nth in Ek, Ek'; auto. congruence.
  - pose proof (relabel_ge V b x I). rewrite E, relabel_other in H; auto. lia.
  - pose proof (relabel_ge V b y J). rewrite <- E, relabel_other in H; auto. lia.
  - rewrite !relabel_other in E; auto.
Qed.
Lemma NoDup_relabel V b l : NoDup V -> (forall z, In z l -> z < b) -> NoDup l -> NoDup (map (relabel V b) l).
Proof.
  intros NV L ND. induction ND; simpl; constructor.
  - rewrite in_map_iff. intros (z & E & I). apply relabel_inj in E; auto; [subst; auto|apply L; right; auto|apply L; left; auto].
  - apply IHND. intros. apply L. right; auto.
Qed.
(** one more vertex *)
Lemma relabel_step V v b l : NoDup l -> ~ In v V -> (forall z, In z V -> z < b) -> v < b -> In v l ->
  exists k, first_index v (map (relabel V b) l) = Some k /\ k < length l /\
    set_at (map (relabel V b) l) k (b + length V) = map (relabel (V ++ [v]) b) l.
Proof.
  intros ND N LV Lv I. apply first_index_map; auto.
  - apply relabel_other; auto.
  - rewrite relabel_snoc, Nat.eqb_refl; auto.
  - intros z Hz M. rewrite relabel_snoc by auto. destruct (Nat.eqb_spec z v); [congruence|]. split; auto.
    destruct (in_dec Nat.eq_dec z V) as [J|J]; [pose proof (relabel_ge V b z J); lia|rewrite relabel_other; auto].
Qed.
Lemma relabel_step_same V v b l : ~ In v V -> ~ In v l -> map (relabel (V ++ [v]) b) l = map (relabel V b) l.
Proof.
  intros N I. apply map_ext_in. intros z Hz. rewrite relabel_snoc by auto. destruct (Nat.eqb_spec z v); [congruence|auto].
Qed.
Lemma firstn_snoc {A} (l : list A) k x : nth_error l k = Some x -> firstn (S k) l = firstn k l ++ [x].
Proof.
  revert k; induction l as [|a l IH]; intros [|k] H; simpl in *; try discriminate.
  - congruence.
  - f_equal. auto.
Qed.
Lemma In_firstn {A} (l : list A) k x : In x (firstn k l) -> In x l.
Proof. intros H. rewrite <- (firstn_skipn k l). apply in_or_app. auto. Qed.
Lemma notIn_firstn {A} (l : list A) k x : NoDup l -> nth_error l k = Some x -> ~ In x (firstn k l).
Proof.
  intros ND H I. apply In_nth_error in I as (j & Hj).
  assert (L : j < length (firstn k l)) by (apply nth_error_Some; congruence). rewrite firstn_length in L.
  assert (E : nth_error l j = Some x).
  { rewrite <- (firstn_skipn k l), nth_error_app1; auto. rewrite firstn_length. auto. }
  rewrite NoDup_nth_error in ND. assert (j = k); [apply ND; [lia|congruence]|lia].
Qed.

(** ** loops over positions *)
Definition changed (ids : list nat) (W : cell -> cell) (cs cs' : cells) : Prop :=
  length cs' = length cs /\
  forall i, nth_error cs' i = if in_dec Nat.eq_dec i ids then option_map (option_map W) (nth_error cs i) else nth_error cs i.
Lemma changed_id ids cs (W : cell -> cell) : (forall i c, In i ids -> cell_at cs i c -> W c = c) ->
  changed ids W cs cs.
Proof.
  intros H. split; auto. intros i. destruct (in_dec Nat.eq_dec i ids); auto.
  destruct (nth_error cs i) as [[c|]|] eqn:E; auto. simpl. rewrite (H i c); auto.
Qed.
Lemma changed_comp ids W W' cs cs1 cs2 : changed ids W cs cs1 -> changed ids W' cs1 cs2 ->
  changed ids (fun c => W' (W c)) cs cs2.
Proof.
  intros [L H] [L' H']. split; [congruence|]. intros i. rewrite H', H. destruct (in_dec Nat.eq_dec i ids); auto.
  destruct (nth_error cs i) as [[c|]|]; auto.
Qed.
Lemma changed_ext ids W W' cs cs' : (forall i c, In i ids -> cell_at cs i c -> W c = W' c) ->
  changed ids W cs cs' -> changed ids W' cs cs'.
Proof.
  intros E [L H]. split; auto. intros i. rewrite H. destruct (in_dec Nat.eq_dec i ids) as [I|I]; auto.
  destruct (nth_error cs i) as [[c|]|] eqn:Ec; auto. simpl. rewrite (E i c); auto.
Qed.
Lemma changed_in ids W cs cs' i c : changed ids W cs cs' -> In i ids -> cell_at cs i c -> cell_at cs' i (W c).
Proof. intros [_ H] I Hc. unfold cell_at in *. rewrite H, Hc. destruct (in_dec Nat.eq_dec i ids); [auto|tauto]. Qed.
Lemma changed_out ids W cs cs' i : changed ids W cs cs' -> ~ In i ids -> nth_error cs' i = nth_error cs i.
Proof. intros [_ H] I. rewrite H. destruct (in_dec Nat.eq_dec i ids); [tauto|auto]. Qed.
Lemma changed_inv ids W cs cs' i c' : changed ids W cs cs' -> cell_at cs' i c' ->
  exists c, cell_at cs i c /\ (In i ids /\ c' = W c \/ ~ In i ids /\ c' = c).
Proof.
  intros [_ H] Hc. unfold cell_at in *. rewrite H in Hc. destruct (in_dec Nat.eq_dec i ids).
  - destruct (nth_error cs i) as [[c|]|]; try discriminate. inversion Hc. exists c. auto.
  - exists c'. auto.
Qed.

Lemma fold_set step (f : nat -> cell) ps : forall cs, NoDup ps -> (forall p, In p ps -> p < length cs) ->
  (forall cs' p, In p ps -> length cs' = length cs -> (forall j, ~ In j ps \/ j = p -> nth_error cs' j = nth_error cs j) ->
     step cs' p = Ok (set_at cs' p (Some (f p)))) ->
  exists cs', foldM step ps cs = Ok cs' /\ length cs' = length cs /\
    forall j, nth_error cs' j = if in_dec Nat.eq_dec j ps then Some (Some (f j)) else nth_error cs j.
Proof.
  induction ps as [|p ps IH]; intros cs ND LT H.
  - exists cs. split; auto.
  - inversion ND; subst. cbn [foldM]. rewrite (H cs p) by (auto; left; auto). cbn [bind].
    assert (Lp : p < length cs) by (apply LT; left; auto).
    destruct (IH (set_at cs p (Some (f p)))) as (cs' & E & L & N); auto.
    + intros q Hq. rewrite length_set_at. apply LT. right; auto.
    + intros cs' q Hq L AG. apply H; [right; auto|rewrite L; apply length_set_at|].
      intros j Hj. rewrite AG.
      * rewrite cell_at_set by auto. destruct (Nat.eqb_spec p j) as [->|]; auto. exfalso.
        destruct Hj as [Hj|Hj]; [apply Hj; left; auto|subst; auto].
      * destruct Hj as [Hj|Hj]; [left; intros X; apply Hj; right; auto|auto].
    + exists cs'. rewrite length_set_at in L. repeat (split; [assumption|]). intros j. rewrite N, cell_at_set by auto.
      destruct (in_dec Nat.eq_dec j ps) as [I|I], (in_dec Nat.eq_dec j (p :: ps)) as [J|J]; auto.
      * exfalso. apply J. right; auto.
      * destruct J as [->|J]; [rewrite Nat.eqb_refl; auto|tauto].
      * destruct (Nat.eqb_spec p j) as [->|]; auto. exfalso. apply J. left; auto.
Qed.

(** ** the pairs of one dimension *)
Definition lift (k : nat) (xy : nat * nat) : vid * vid := ((k, fst xy), (k, snd xy)).
Definition lists_in (cs : cells) (ids : list nat) (k x p : nat) : Prop :=
  In p ids /\ exists c, cell_at cs p c /\ In x (nth k (c_sub c) []).
Definition graph_ok (g : digraph vid) (cs : cells) (ids : list nat) (k : nat) : Prop :=
  forall x, (forall ps, predecessors g (k, x) = Ok ps ->
               NoDup (map snd ps) /\ (forall p, In p (map snd ps) <-> lists_in cs ids k x p) /\ exists p, lists_in cs ids k x p) /\
            (predecessors g (k, x) = Err NetworkXError /\ ~ (exists p, lists_in cs ids k x p) \/
             exists ps, predecessors g (k, x) = Ok ps).
Lemma phase k g ids pairs (U : nat -> cell -> cell) cs0 :
  graph_ok g cs0 ids k ->
  (forall i c, In i ids -> cell_at cs0 i c -> U 0 c = c) ->
  (forall j x y cs' p c, nth_error pairs j = Some (x, y) -> In p ids -> cell_at cs0 p c -> In x (nth k (c_sub c) []) ->
     cell_at cs' p (U j c) -> (forall i, ~ In i ids -> nth_error cs' i = nth_error cs0 i) ->
     relink (k, x) (k, y) cs' p = Ok (set_at cs' p (Some (U (S j) c)))) ->
  (forall j x y p c, nth_error pairs j = Some (x, y) -> In p ids -> cell_at cs0 p c -> ~ In x (nth k (c_sub c) []) ->
     U (S j) c = U j c) ->
  (exists cs', foldM (relink_all g) (map (lift k) pairs) cs0 = Ok cs' /\ changed ids (U (length pairs)) cs0 cs' /\
     forall x y, In (x, y) pairs -> exists p, lists_in cs0 ids k x p) \/
  (foldM (relink_all g) (map (lift k) pairs) cs0 = Err NetworkXError /\
     exists x y, In (x, y) pairs /\ ~ exists p, lists_in cs0 ids k x p).
Proof.
  intros GO U0 STEP SAME.
  assert (G : forall suf pre cs, pairs = pre ++ suf -> changed ids (U (length pre)) cs0 cs ->
    (exists cs', foldM (relink_all g) (map (lift k) suf) cs = Ok cs' /\ changed ids (U (length pairs)) cs0 cs' /\
       forall x y, In (x, y) suf -> exists p, lists_in cs0 ids k x p) \/
    (foldM (relink_all g) (map (lift k) suf) cs = Err NetworkXError /\
       exists x y, In (x, y) suf /\ ~ exists p, lists_in cs0 ids k x p)).
  { induction suf as [|[x y] suf IH]; intros pre cs E CH.
    - left. exists cs. split; auto. rewrite app_nil_r in E. subst pre. split; auto. intros x y [].
    - cbn [map foldM]. 
      change (relink_all g cs (lift k (x, y))) with (do ps <- predecessors g (k, x); foldM (relink (k, x) (k, y)) (map snd ps) cs).
      destruct (GO x) as [GO1 [[GE GN]|(ps & Eps)]].
      + right. rewrite GE. cbn [bind]. split; auto. exists x, y. split; [left; auto|auto].
      + rewrite Eps. cbn [bind]. destruct (GO1 ps Eps) as (NDp & Ip & EX).
        assert (Ej : nth_error pairs (length pre) = Some (x, y)).
        { rewrite E, nth_error_app2, Nat.sub_diag by auto. reflexivity. }
        set (f := fun p => match nth_error cs0 p with Some (Some c) => U (S (length pre)) c | _ => create_cell 0 [] 0 None end).
        destruct (fold_set (relink (k, x) (k, y)) f (map snd ps) cs) as (cs1 & E1 & L1 & N1); auto.
        * intros p Hp. apply Ip in Hp as (Hp & c & Hc & _). destruct CH as [-> _]. eapply cell_at_lt; eauto.
        * intros cs' p Hp L AG. apply Ip in Hp as HH. destruct HH as (Hp' & c & Hc & Hx).
          unfold f. unfold cell_at in Hc. rewrite Hc. apply STEP with (j := length pre); auto.
          -- unfold cell_at. rewrite AG by auto. apply (changed_in _ _ _ _ _ _ CH Hp' Hc).
          -- intros i Hi. rewrite AG; [apply (changed_out _ _ _ _ _ CH Hi)|]. left. intros X. apply Ip in X as [X _]. auto.
        * match type of E1 with ?a = _ => match goal with |- context [foldM (relink (k, x) (k, y)) ?l cs] =>
            change (foldM (relink (k, x) (k, y)) l cs) with a end end.
          rewrite E1. cbn [bind].
          assert (CH1 : changed ids (U (length (pre ++ [(x, y)]))) cs0 cs1).
          { split; [destruct CH; congruence|]. intros i. rewrite N1. rewrite app_length. simpl (length [_]).
            replace (length pre + 1) with (S (length pre)) by lia.
            destruct (in_dec Nat.eq_dec i (map snd ps)) as [I|I].
            - apply Ip in I as (I & c & Hc & Hx). destruct (in_dec Nat.eq_dec i ids); [|tauto].
              unfold f. unfold cell_at in Hc. rewrite Hc. auto.
            - destruct (in_dec Nat.eq_dec i ids) as [J|J]; [|apply (changed_out _ _ _ _ _ CH J)].
              destruct CH as [_ CH]. rewrite CH. destruct (in_dec Nat.eq_dec i ids); [|tauto].
              destruct (nth_error cs0 i) as [[c|]|] eqn:Ec; auto. simpl. rewrite (SAME _ _ _ i c Ej); auto.
              intros X. apply I, Ip. split; auto. exists c. auto. }
          destruct (IH (pre ++ [(x, y)]) cs1) as [(cs' & E' & CH' & AL)|(E' & NX)]; auto.
          -- rewrite <- app_assoc. auto.
          -- left. exists cs'. split; auto. split; auto. intros a b [X|X]; [inversion X; subst; auto|eauto].
          -- right. split; auto. destruct NX as (a & b & I & NN). exists a, b. split; [right; auto|auto]. }
  apply (G pairs []); auto. apply changed_id. auto.
Qed.

(** ** the graph of a patch of cells *)
Lemma ids_of cs ids l : layered_mesh cs -> Forall2 (cell_at cs) ids l -> map c_id l = ids.
Proof. intros [_ LM] F. induction F; simpl; auto. f_equal; auto. apply (LM _ _ H). Qed.
Lemma graph_from_ids fuel cs ids l mx k : layered_mesh cs -> Forall2 (cell_at cs) ids l ->
  (forall c, In c l -> c_dim c = mx) -> k < mx ->
  build_graph_from_cell_ids (S fuel) cs ids (Z.of_nat mx) (Z.of_nat (mx - k)) = Ok (from_edgelist (flat_map (edges_of k) l)).
Proof.
  intros LM F D Hk. unfold build_graph_from_cell_ids. rewrite (proj2 (mapM_cell_of cs ids l) F). cbn [bind].
  assert (FE : filter (fun c => (Z.of_nat (c_dim c) =? Z.of_nat mx)%Z) l = l).
  { clear F. induction l as [|c l IH]; auto. simpl. rewrite (D c) by (left; auto). rewrite Z.eqb_refl. f_equal. apply IH. intros; apply D; right; auto. }
  rewrite FE. unfold graph_of. replace (Z.of_nat mx - Z.of_nat (mx - k))%Z with (Z.of_nat k) by lia.
  rewrite (mapM_Ok_map _ (edges_of k)).
  - cbn [bind]. rewrite flat_map_concat_map. reflexivity.
  - intros c Hc. destruct (Forall2_In_r _ _ _ _ F Hc) as (i & Hi & Hci). eapply gather_layered; eauto. rewrite D; auto.
Qed.
Definition patch (mx : nat) (l : list cell) : digraph vid :=
  from_edgelist (concat (map (fun k => g_edges (from_edgelist (flat_map (edges_of k) l))) (seq 0 mx))).
Lemma patch_ok cs ids l mx k : layered_mesh cs -> Forall2 (cell_at cs) ids l ->
  (forall c, In c l -> c_dim c = mx) -> k < mx -> graph_ok (patch mx l) cs ids k.
Proof.
  intros LM F D Hk x. unfold patch.
  set (L := concat (map (fun k => g_edges (from_edgelist (flat_map (edges_of k) l))) (seq 0 mx))).
  assert (IL : forall e, In e L <-> exists k' c j, k' < mx /\ In c l /\ In j (nth k' (c_sub c) []) /\ e = (index c, (k', j))).
  { intros e. unfold L. rewrite in_concat. split.
    - intros (es & H1 & H2). apply in_map_iff in H1 as (k' & <- & H1). apply in_seq in H1. cbn [g_edges from_edgelist] in H2.
      rewrite In_uniq in H2. apply in_flat_map in H2 as (c & Hc & H2). unfold edges_of in H2. apply in_map_iff in H2 as (j & <- & Hj).
      exists k', c, j. split; [lia|]. auto.
    - intros (k' & c & j & H1 & H2 & H3 & ->). eexists. split; [apply in_map_iff; exists k'; split; [reflexivity|apply in_seq; lia]|].
      cbn [g_edges from_edgelist]. rewrite In_uniq. apply in_flat_map. exists c. split; auto. unfold edges_of. apply in_map_iff. eauto. }
  assert (PR : forall ps, predecessors (from_edgelist L) ((k, x) : vid) = Ok ps -> NoDup (map snd ps) /\ (forall p, In p (map snd ps) <-> lists_in cs ids k x p)).
  { intros ps Eps. apply predecessors_spec in Eps as [ND I]. 
    assert (FST : forall q, In q ps -> fst q = mx).
    { intros q Hq. apply I, IL in Hq as (k' & c & j & _ & Hc & _ & E). inversion E; subst. unfold index. cbn. auto. }
    split.
    - clear I. induction ps as [|[a b] ps IH]; simpl; constructor.
      + inversion ND; subst. rewrite in_map_iff. intros ([a' b'] & Eb & I'). cbn in Eb. subst b'. apply H1.
        assert (Ea : fst (a, b) = mx) by (apply FST; left; auto). assert (Ea' : fst (a', b) = mx) by (apply FST; right; auto).
        cbn in Ea, Ea'. replace a with a' by congruence. exact I'.
      + inversion ND; subst. apply IH; auto. intros. apply FST. right; auto.
    - intros p. rewrite in_map_iff. split.
      + intros (q & <- & Hq). apply I, IL in Hq as (k' & c & j & _ & Hc & Hj & E). inversion E; subst k' j q.
        destruct (Forall2_In_r _ _ _ _ F Hc) as (i & Hi & Hci). destruct LM as [_ LM]. destruct (LM i c Hci) as (Hid & _).
        unfold index, lists_in. cbn [snd]. rewrite Hid. split; auto. exists c. auto.
      + intros (Hp & c & Hc & Hx). exists (mx, p). split; auto. apply I, IL. exists k, c, x. split; auto.
        destruct (Forall2_In_l _ _ _ _ F Hp) as (c' & Hc' & E). assert (c' = c) by (unfold cell_at in *; congruence). subst c'.
        split; auto. split; auto. unfold index. destruct LM as [_ LM]. destruct (LM p c Hc) as (-> & _). rewrite D; auto. }
  assert (MB : memb ((k, x) : vid) (g_nodes (from_edgelist L)) = true <-> exists p, lists_in cs ids k x p).
  { rewrite memb_In, In_nodes_from_edgelist. split.
    - intros (e & He & EQ). apply IL in He as (k' & c & j & Hk' & Hc & Hj & ->). cbn [fst snd] in EQ. destruct EQ as [E|E].
      + exfalso. unfold index in E. inversion E. rewrite D in H0; auto. lia.
      + inversion E; subst. destruct (Forall2_In_r _ _ _ _ F Hc) as (i & Hi & Hci). exists i. split; auto. exists c; auto.
    - intros (p & Hp & c & Hc & Hx). exists (index c, (k, x)). split; [|auto]. apply IL. exists k, c, x. split; auto.
      destruct (Forall2_In_l _ _ _ _ F Hp) as (c' & Hc' & E). assert (c' = c) by (unfold cell_at in *; congruence). subst c'. auto. }
  split.
  - intros ps Eps. destruct (PR ps Eps) as [A B]. split; auto. split; auto. apply MB. unfold predecessors in Eps.
    match type of Eps with (if ?b then _ else _) = _ => destruct b eqn:E; [reflexivity|discriminate] end.
  - unfold predecessors in *. match goal with |- context [if ?b then _ else _] => destruct b eqn:E; [right; eauto|left] end.
    split; auto. intros X. apply MB in X. discriminate.
Qed.

(** ** vertices *)
Section Phases.
  Variable P : Type.
  Definition fit (m : mesh P) : Prop := cut_ready P m /\ no_repeats (m_cells P m).
  Record copies (cs : cells) (V T : list nat) (b nb : nat) : Prop := {
    cp_nodup : NoDup V; cp_T : length T = length V;
    cp_old : forall k v t, nth_error V k = Some v -> nth_error T k = Some t -> exists c, cell_at cs v c /\ c_dim c = 0 /\ c_nodes c = [t];
    cp_new : forall k, k < length V -> exists c, cell_at cs (b + k) c /\ c_dim c = 0 /\ c_nodes c = [nb + k];
    cp_V : forall v, In v V -> v < b; cp_nT : forall t, In t T -> t < nb }.

  Lemma node_of_vertex (m : mesh P) i c v : fit m -> cell_at (m_cells P m) i c -> c_dim c = 1 \/ c_dim c = 2 ->
    In v (nth 0 (c_sub c) []) -> exists cv t, cell_at (m_cells P m) v cv /\ c_dim cv = 0 /\ c_nodes cv = [t] /\ In t (c_nodes c).
  Proof.
    intros ((LM & (A1 & A2 & A3) & _) & _) Hc Hd Hv. specialize (A3 i c Hc Hd).
    destruct (Forall2_In_l _ _ _ _ A3 Hv) as (t & Ht & cv & Hcv & Hn). destruct LM as [_ LM]. destruct (LM i c Hc) as (_ & _ & _ & S).
    destruct (S 0 v) as (cv' & Hcv' & Hd'); [lia|auto|]. assert (cv' = cv) by (unfold cell_at in *; congruence). subst cv'. eauto 8.
  Qed.
  Lemma vertex_of_node (m : mesh P) i c t : fit m -> cell_at (m_cells P m) i c -> c_dim c = 1 \/ c_dim c = 2 ->
    In t (c_nodes c) -> exists v cv, cell_at (m_cells P m) v cv /\ c_dim cv = 0 /\ c_nodes cv = [t] /\ In v (nth 0 (c_sub c) []).
  Proof.
    intros ((LM & (A1 & A2 & A3) & _) & _) Hc Hd Hv. specialize (A3 i c Hc Hd).
    destruct (Forall2_In_r _ _ _ _ A3 Hv) as (v & Ht & cv & Hcv & Hn). destruct LM as [_ LM]. destruct (LM i c Hc) as (_ & _ & _ & S).
    destruct (S 0 v) as (cv' & Hcv' & Hd'); [lia|auto|]. assert (cv' = cv) by (unfold cell_at in *; congruence). subst cv'. eauto 8.
  Qed.
  Lemma NoDup_nodes (m : mesh P) i c : fit m -> cell_at (m_cells P m) i c -> c_dim c = 1 \/ c_dim c = 2 -> NoDup (c_nodes c).
  Proof.
    intros ((LM & (A1 & A2 & A3) & _) & NR) Hc Hd. specialize (A3 i c Hc Hd). assert (ND : NoDup (nth 0 (c_sub c) [])) by (apply (NR i c); auto; lia).
    destruct LM as [_ LM]. destruct (LM i c Hc) as (_ & _ & _ & S). assert (S0 : forall v, In v (nth 0 (c_sub c) []) -> exists cv, cell_at (m_cells P m) v cv /\ c_dim cv = 0) by (intros; apply S; auto; lia).
    clear S Hd Hc. induction A3 as [|v t vs ts (cv & Hcv & Hn) A3 IH]; constructor.
    - intros It. destruct (Forall2_In_r _ _ _ _ A3 It) as (v' & Iv & cv' & Hcv' & Hn').
      inversion ND; subst. destruct (S0 v) as (x & Hx & Dx); [left; auto|]. destruct (S0 v') as (y & Hy & Dy); [right; auto|].
      assert (x = cv) by (unfold cell_at in *; congruence). assert (y = cv') by (unfold cell_at in *; congruence). subst x y.
      assert (v = v') by (eapply A2; eauto; congruence). subst; auto.
    - inversion ND; subst. apply IH; auto. intros; apply S0; right; auto.
  Qed.
  Lemma copies_T_nodup (m : mesh P) V T b nb : fit m -> copies (m_cells P m) V T b nb -> NoDup T.
  Proof.
    intros ((_ & (_ & A2 & _) & _) & _) CP. rewrite NoDup_nth_error. intros i j Hi E. rewrite (cp_T _ _ _ _ _ CP) in Hi.
    destruct (nth_error V i) as [v|] eqn:Ev; [|apply nth_error_None in Ev; lia].
    destruct (nth_error T i) as [t|] eqn:Et; [|apply nth_error_None in Et; rewrite (cp_T _ _ _ _ _ CP) in Et; lia].
    assert (Lj : j < length V) by (rewrite <- (cp_T _ _ _ _ _ CP); apply nth_error_Some; congruence).
    destruct (nth_error V j) as [w|] eqn:Ew; [|apply nth_error_None in Ew; lia].
    destruct (cp_old _ _ _ _ _ CP i v t) as (c & Hc & Dc & Nc); auto.
    destruct (cp_old _ _ _ _ _ CP j w t) as (c' & Hc' & Dc' & Nc'); auto.
    assert (v = w) by (eapply A2; eauto; congruence). subst w.
    pose proof (cp_nodup _ _ _ _ _ CP) as ND. rewrite NoDup_nth_error in ND. apply ND; [auto|congruence].
  Qed.

  Definition upv (V T : list nat) (b nb : nat) (c : cell) : cell :=
    set_nodes (set_sub c 0 (map (relabel V b) (nth 0 (c_sub c) []))) (map (relabel T nb) (c_nodes c)).
  Definition upe (F : list nat) (b : nat) (c : cell) : cell := set_sub c 1 (map (relabel F b) (nth 1 (c_sub c) [])).

  Lemma relink_vertex (m : mesh P) V T b nb ids j x cs p c : fit m -> copies (m_cells P m) V T b nb ->
    (forall i c, In i ids -> cell_at (m_cells P m) i c -> c_dim c = 1 \/ c_dim c = 2) ->
    nth_error V j = Some x -> In p ids -> cell_at (m_cells P m) p c -> In x (nth 0 (c_sub c) []) ->
    cell_at cs p (upv (firstn j V) (firstn j T) b nb c) -> (forall i, ~ In i ids -> nth_error cs i = nth_error (m_cells P m) i) ->
    relink (0, x) (0, b + j) cs p = Ok (set_at cs p (Some (upv (firstn (S j) V) (firstn (S j) T) b nb c))).
  Proof.
    intros FT CP DI Hj Hp Hc Hx Hcs OUT.
    assert (Lj : j < length V) by (apply nth_error_Some; congruence).
    destruct (nth_error T j) as [t|] eqn:Ht; [|apply nth_error_None in Ht; rewrite (cp_T _ _ _ _ _ CP) in Ht; lia].
    destruct (cp_old _ _ _ _ _ CP j x t Hj Ht) as (cx & Hcx & Dx & Nx).
    destruct (cp_new _ _ _ _ _ CP j Lj) as (cy & Hcy & Dy & Ny).
    pose proof (DI _ _ Hp Hc) as Dc.
    assert (VI : forall v cv, cell_at (m_cells P m) v cv -> c_dim cv = 0 -> ~ In v ids /\ v <> p).
    { intros v cv Hv Dv. split; [intros I; destruct (DI v cv I Hv); lia|]. intros ->.
      assert (cv = c) by (unfold cell_at in *; congruence). subst. lia. }
    destruct (VI _ _ Hcx Dx) as [Ix Px]. destruct (VI _ _ Hcy Dy) as [Iy Py].
    destruct (node_of_vertex m p c x FT Hc Dc Hx) as (cx' & t' & Hcx' & _ & Nx' & It).
    assert (cx' = cx) by (unfold cell_at in *; congruence). subst cx'. assert (t' = t) by congruence. subst t'. clear Hcx' Nx'.
    assert (Ls : length (c_sub c) = c_dim c + 1) by (destruct FT as (((_ & LM) & _) & _); apply (LM p c Hc)).
    assert (LJ : length (firstn j V) = j) by (apply firstn_length_le; lia).
    assert (LJ' : length (firstn j T) = j) by (apply firstn_length_le; rewrite (cp_T _ _ _ _ _ CP); lia).
    pose proof (copies_T_nodup m V T b nb FT CP) as NDT.
    destruct (relabel_step (firstn j V) x b (nth 0 (c_sub c) [])) as (k & Ek & Lk & Es); auto.
    { destruct FT as [_ NR]. apply (NR p c); auto. lia. }
    { apply notIn_firstn; auto. apply (cp_nodup _ _ _ _ _ CP). }
    { intros z Hz. apply In_firstn in Hz. apply (cp_V _ _ _ _ _ CP); auto. }
    { apply (cp_V _ _ _ _ _ CP). eapply nth_error_In; eauto. }
    destruct (relabel_step (firstn j T) t nb (c_nodes c)) as (k' & Ek' & Lk' & Es'); auto.
    { apply (NoDup_nodes m p); auto. }
    { apply notIn_firstn; auto. }
    { intros z Hz. apply In_firstn in Hz. apply (cp_nT _ _ _ _ _ CP); auto. }
    { apply (cp_nT _ _ _ _ _ CP). eapply nth_error_In; eauto. }
    rewrite LJ in Es. rewrite LJ' in Es'. rewrite <- (firstn_snoc V j x Hj) in Es. rewrite <- (firstn_snoc T j t Ht) in Es'.
    unfold relink. cbn [fst snd]. rewrite (proj2 (cell_of_at _ _ _) Hcs). cbn [bind].
    assert (G0 : get_at (c_sub (upv (firstn j V) (firstn j T) b nb c)) 0 = Ok (map (relabel (firstn j V) b) (nth 0 (c_sub c) []))).
    { apply get_at_Ok. unfold upv, set_nodes, set_sub. cbn [c_sub]. rewrite nth_error_set_at.
      destruct (Nat.eq_dec 0 0); [|lia]. destruct (Nat.ltb_spec 0 (length (c_sub c))); [auto|lia]. }
    rewrite G0. cbn [bind]. rewrite Ek. 
    rewrite (get_at_nth _ k 0) by (rewrite map_length; auto). cbn [bind Nat.eqb andb].
    pose proof (cell_at_lt _ _ _ Hcs) as Lp.
    match goal with |- context [cell_of ?cs1 x] => set (CS1 := cs1) end.
    assert (Cx : cell_of CS1 x = Ok cx).
    { apply cell_of_at. unfold CS1, cell_at. rewrite cell_at_set by auto. destruct (Nat.eqb_spec p x); [congruence|]. rewrite OUT; auto. }
    assert (Cy : cell_of CS1 (b + j) = Ok cy).
    { apply cell_of_at. unfold CS1, cell_at. rewrite cell_at_set by auto. destruct (Nat.eqb_spec p (b + j)); [congruence|]. rewrite OUT; auto. }
    rewrite Cx, Cy. cbn [bind]. rewrite Nx, Ny. cbn [get_at nth_error bind].
    replace (c_nodes (set_sub (upv (firstn j V) (firstn j T) b nb c) 0 (set_at (map (relabel (firstn j V) b) (nth 0 (c_sub c) [])) k (b + j))))
      with (map (relabel (firstn j T) nb) (c_nodes c)) by reflexivity.
    rewrite Ek'. unfold CS1. rewrite set_at_twice. do 3 f_equal. unfold upv, set_nodes, set_sub. cbn [c_dim c_id c_mat c_sub c_nodes].
    rewrite set_at_twice, Es, Es'. reflexivity.
  Qed.
  Lemma upv_same (m : mesh P) V T b nb j x p c : fit m -> copies (m_cells P m) V T b nb ->
    c_dim c = 1 \/ c_dim c = 2 -> nth_error V j = Some x -> cell_at (m_cells P m) p c -> ~ In x (nth 0 (c_sub c) []) ->
    upv (firstn (S j) V) (firstn (S j) T) b nb c = upv (firstn j V) (firstn j T) b nb c.
  Proof.
    intros FT CP Dc Hj Hc Hx.
    assert (Lj : j < length V) by (apply nth_error_Some; congruence).
    destruct (nth_error T j) as [t|] eqn:Ht; [|apply nth_error_None in Ht; rewrite (cp_T _ _ _ _ _ CP) in Ht; lia].
    destruct (cp_old _ _ _ _ _ CP j x t Hj Ht) as (cx & Hcx & Dx & Nx).
    unfold upv. rewrite (firstn_snoc V j x), (firstn_snoc T j t) by auto. rewrite !relabel_step_same; auto.
    - apply notIn_firstn; auto. eapply copies_T_nodup; eauto.
    - intros It. destruct (vertex_of_node m p c t FT Hc Dc It) as (v & cv & Hcv & Dv & Nv & Iv).
      destruct FT as ((_ & (_ & A2 & _) & _) & _). assert (v = x) by (eapply A2; eauto; congruence). subst. auto.
    - apply notIn_firstn; auto. apply (cp_nodup _ _ _ _ _ CP).
  Qed.
  Lemma nth_error_combine_seq (V : list nat) b j x y : nth_error (combine V (seq b (length V))) j = Some (x, y) ->
    nth_error V j = Some x /\ y = b + j.
  Proof.
    revert b j; induction V as [|v V IH]; intros b [|j] H; simpl in *; try discriminate.
    - inversion H; subst. split; auto.
    - apply IH in H as [-> ->]. split; auto. lia.
  Qed.

  Lemma vertex_phase (m : mesh P) V T b nb ids g : fit m -> copies (m_cells P m) V T b nb ->
    (forall i c, In i ids -> cell_at (m_cells P m) i c -> c_dim c = 1 \/ c_dim c = 2) ->
    graph_ok g (m_cells P m) ids 0 ->
    (exists cs', foldM (relink_all g) (map (lift 0) (combine V (seq b (length V)))) (m_cells P m) = Ok cs' /\
       changed ids (upv V T b nb) (m_cells P m) cs' /\ forall x, In x V -> exists p, lists_in (m_cells P m) ids 0 x p) \/
    (foldM (relink_all g) (map (lift 0) (combine V (seq b (length V)))) (m_cells P m) = Err NetworkXError /\
       exists x, In x V /\ ~ exists p, lists_in (m_cells P m) ids 0 x p).
  Proof.
    intros FT CP DI GO.
    assert (LC : length (combine V (seq b (length V))) = length V) by (rewrite combine_length, seq_length; lia).
    destruct (phase 0 g ids (combine V (seq b (length V))) (fun j => upv (firstn j V) (firstn j T) b nb) (m_cells P m) GO) as [(cs' & E & CH & AL)|(E & x & y & I & N)].
    - intros i c Hi Hc. unfold upv, set_nodes, set_sub. cbn [firstn]. rewrite !relabel_id by auto.
      rewrite set_at_self; [destruct c; reflexivity|]. destruct FT as (((_ & LM) & _) & _). destruct (LM i c Hc) as (_ & _ & -> & _). lia.
    - intros j x y cs p c Hj Hp Hc Hx Hcs OUT. apply nth_error_combine_seq in Hj as [Hj ->].
      eapply relink_vertex; eauto.
    - intros j x y p c Hj Hp Hc Hx. apply nth_error_combine_seq in Hj as [Hj ->]. eapply upv_same; eauto.
    - left. exists cs'. split; auto. split.
      + rewrite LC, !firstn_all2 in CH by (rewrite ?(cp_T _ _ _ _ _ CP); auto). auto.
      + intros x Hx. apply In_nth_error in Hx as (k & Hk). apply AL with (y := b + k). apply nth_error_In with (n := k).
        apply nth_error_combine; auto. apply nth_error_seq. apply nth_error_Some. congruence.
    - right. split; auto. exists x. split; auto. eapply in_combine_l; eauto.
  Qed.

  Lemma edge_phase (m : mesh P) F b ids g cs : fit m -> NoDup F -> (forall x, In x F -> x < b) ->
    (forall i c, In i ids -> cell_at (m_cells P m) i c -> c_dim c = 2) -> 
    (forall i c, cell_at cs i c -> In i ids -> length (c_sub c) = 3 /\ NoDup (nth 1 (c_sub c) [])) ->
    graph_ok g cs ids 1 ->
    (exists cs', foldM (relink_all g) (map (lift 1) (combine F (seq b (length F)))) cs = Ok cs' /\
       changed ids (upe F b) cs cs' /\ forall x, In x F -> exists p, lists_in cs ids 1 x p) \/
    (foldM (relink_all g) (map (lift 1) (combine F (seq b (length F)))) cs = Err NetworkXError /\
       exists x, In x F /\ ~ exists p, lists_in cs ids 1 x p).
  Proof.
    intros FT ND LT DI SH GO.
    assert (LC : length (combine F (seq b (length F))) = length F) by (rewrite combine_length, seq_length; lia).
    destruct (phase 1 g ids (combine F (seq b (length F))) (fun j => upe (firstn j F) b) cs GO) as [(cs' & E & CH & AL)|(E & x & y & I & N)].
    - intros i c Hi Hc. unfold upe, set_sub. cbn [firstn]. rewrite relabel_id by auto. destruct (SH i c Hc Hi) as [L3 _].
      rewrite set_at_self by lia. destruct c; reflexivity.
    - intros j x y cs1 p c Hj Hp Hc Hx Hcs OUT. apply nth_error_combine_seq in Hj as [Hj ->].
      destruct (SH p c Hc Hp) as [L3 ND1].
      assert (Lj : j < length F) by (apply nth_error_Some; congruence).
      assert (LJ : length (firstn j F) = j) by (apply firstn_length_le; lia).
      destruct (relabel_step (firstn j F) x b (nth 1 (c_sub c) [])) as (k & Ek & Lk & Es); auto.
      { apply notIn_firstn; auto. }
      { intros z Hz. apply In_firstn in Hz. auto. }
      { apply LT. eapply nth_error_In; eauto. }
      rewrite LJ in Es. rewrite <- (firstn_snoc F j x Hj) in Es.
      unfold relink. cbn [fst snd]. rewrite (proj2 (cell_of_at _ _ _) Hcs). cbn [bind].
      assert (G0 : get_at (c_sub (upe (firstn j F) b c)) 1 = Ok (map (relabel (firstn j F) b) (nth 1 (c_sub c) []))).
      { apply get_at_Ok. unfold upe, set_sub. cbn [c_sub]. rewrite nth_error_set_at.
        destruct (Nat.eq_dec 1 1); [|lia]. destruct (Nat.ltb_spec 1 (length (c_sub c))); [auto|lia]. }
      rewrite G0. cbn [bind]. rewrite Ek. 
      rewrite (get_at_nth _ k 0) by (rewrite map_length; auto). cbn [bind Nat.eqb andb].
      do 3 f_equal. unfold upe, set_sub. cbn [c_dim c_id c_mat c_sub c_nodes]. rewrite set_at_twice, Es. reflexivity.
    - intros j x y p c Hj Hp Hc Hx. apply nth_error_combine_seq in Hj as [Hj ->]. unfold upe.
      rewrite (firstn_snoc F j x) by auto. rewrite relabel_step_same; auto. apply notIn_firstn; auto.
    - left. exists cs'. split; auto. split.
      + rewrite LC, !firstn_all2 in CH by auto. auto.
      + intros x Hx. apply In_nth_error in Hx as (k & Hk). apply AL with (y := b + k). apply nth_error_In with (n := k).
        apply nth_error_combine; auto. apply nth_error_seq. apply nth_error_Some. congruence.
    - right. split; auto. exists x. split; auto. eapply in_combine_l; eauto.
  Qed.
End Phases.
