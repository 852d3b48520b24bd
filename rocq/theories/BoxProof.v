(** * Lemmas about the graph of a domain and about box domains: C45, C65 *)
From Coq Require Import List Arith ZArith Bool Lia Permutation Sorted.
From Verif Require Import Base BaseProof ShapeModel ShapeSpec ShapeProof DomProof.
Import ListNotations.

Section BoxProof.
  Context {P : Type}.
  Variable pclose : P -> P -> bool.
  Variable argsort : list Z -> list nat.
  Hypothesis argsort_ok : is_argsort argsort.
  Notation shape := (shape P).

  (** ** the graph *)
  Lemma mapM_In {A B} (f : A -> res B) l : (forall x, In x l -> exists y, f x = Ok y) -> exists r, mapM f l = Ok r /\
    forall y, In y r <-> exists x, In x l /\ f x = Ok y.
  Proof.
    induction l as [|x l IH]; intros H.
    - exists []. split; auto. intros y. split; [intros []|intros (x & [] & _)].
    - destruct (H x) as (y & Ey); [left; auto|]. destruct IH as (r & E & I); [intros z Hz; apply H; right; auto|].
      simpl. rewrite Ey, E. cbn [bind]. exists (y :: r). split; auto. intros z. simpl. rewrite I. split.
      + intros [<-|(u & Hu & Eu)]; eauto.
      + intros (u & [->|Hu] & Eu); [left; congruence|right; eauto].
  Qed.

  Lemma gather_lemma dimension fuel : forall s : shape, depth s <= fuel ->
    exists l, gather_graph_edges dimension fuel s = Ok l /\
      forall p, In p l <-> exists t c, reach s t /\ child t c /\ p = (s_index dimension t, s_index dimension c).
  Proof.
    induction fuel as [|fuel IH]; intros s Hf; [destruct s; simpl in Hf; lia|].
    set (visit := fun c : shape => do r <- (if (s_dim c =? 0)%nat then Ok [] else gather_graph_edges dimension fuel c); Ok ((s_index dimension s, s_index dimension c) :: r)).
    assert (V : forall c, child s c -> exists l, visit c = Ok l /\ forall p, In p l <-> p = (s_index dimension s, s_index dimension c) \/
      (s_dim c <> 0 /\ exists t u, reach c t /\ child t u /\ p = (s_index dimension t, s_index dimension u))).
    { intros c Hc. assert (Dc : depth c < depth s) by (destruct Hc; [apply depth_child; auto|apply immersed_lt; auto]).
      unfold visit. destruct (Nat.eqb_spec (s_dim c) 0) as [Z0|N0].
      - cbn [bind]. eexists. split; [reflexivity|]. intros p. simpl. split; [intros [<-|[]]; auto|intros [->|(N & _)]; auto].
      - destruct (IH c) as (l & E & I); [lia|]. rewrite E. cbn [bind]. eexists. split; [reflexivity|]. intros p. simpl. rewrite I.
        split; [intros [<-|H]; auto|intros [->|(_ & H)]; auto]. }
    destruct (mapM_In visit (s_boundary s)) as (b & Eb & Ib).
    { intros c Hc. destruct (V c) as (l & E & _); [left; auto|eauto]. }
    destruct (mapM_In visit (immersed s)) as (i & Ei & Ii).
    { intros c Hc. destruct (V c) as (l & E & _); [right; auto|eauto]. }
    exists (concat b ++ concat i). split.
    - cbn [gather_graph_edges]. fold visit. rewrite Eb, Ei. reflexivity.
    - intros p. transitivity (exists c l, child s c /\ visit c = Ok l /\ In p l).
      + rewrite in_app_iff, !in_concat. split.
        * intros [(l & Hl & Hp)|(l & Hl & Hp)].
          -- apply Ib in Hl as (c & Hc & E). exists c, l. split; auto. left; auto.
          -- apply Ii in Hl as (c & Hc & E). exists c, l. split; auto. right; auto.
        * intros (c & l & [Hc|Hc] & E & Hp); [left|right]; exists l; split; auto; [apply Ib|apply Ii]; eauto.
      + split.
        * intros (c & l & Hc & E & Hp). destruct (V c Hc) as (l' & E' & I). rewrite E in E'. inversion E'; subst l'. apply I in Hp as [->|(N & t & u & R & C & ->)].
          -- exists s, c. split; [constructor|]. auto.
          -- exists t, u. split; auto. clear -R N Hc. induction R; [eapply reach_step; eauto; constructor|eapply reach_step; eauto].
        * intros (t & u & R & C & ->).
          assert (Q : s = t \/ exists c, child s c /\ s_dim c <> 0 /\ reach c t).
          { clear -R. induction R as [|t u R IH C N]; auto. right. destruct IH as [<-|(c & Hc & Nc & Rc)].
            - exists u. repeat split; auto. constructor.
            - exists c. repeat split; auto. eapply reach_step; eauto. }
          destruct Q as [<-|(c & Hc & Nc & Rc)].
          -- destruct (V u C) as (l & E & I). exists u, l. split; auto. split; auto. apply I. auto.
          -- destruct (V c Hc) as (l & E & I). exists c, l. split; auto. split; auto. apply I. right. split; auto. exists t, u. auto.
  Qed.

  Lemma graph_lemma dimension fuel (D : domain P) d shapes : nth_error D d = Some shapes -> Forall (fun s => depth s <= fuel) shapes ->
    exists g, build_graph dimension fuel D (Some d) = Ok g /\
      (forall a b, In (a, b) (g_edges g) <-> exists s t c, In s shapes /\ reach s t /\ child t c /\ a = s_index dimension t /\ b = s_index dimension c) /\
      (forall x, In x (g_nodes g) <-> (exists y, In (x, y) (g_edges g) \/ In (y, x) (g_edges g)) \/
                                      (d = 0 /\ g_edges g = [] /\ exists s, In s shapes /\ x = s_index dimension s)).
  Proof.
    intros Hd F. unfold build_graph. unfold get_at. rewrite Hd. cbn [bind].
    destruct (mapM_In (gather_graph_edges dimension fuel) shapes) as (l & E & I).
    { intros s Hs. rewrite Forall_forall in F. destruct (gather_lemma dimension fuel s (F s Hs)) as (r & Er & _). eauto. }
    rewrite E. cbn [bind]. set (g := from_edgelist (concat l)).
    assert (Bg : g = from_edgelist (concat l)) by reflexivity. clearbody g.
    assert (Ed : forall a b, In (a, b) (g_edges g) <-> exists s t c, In s shapes /\ reach s t /\ child t c /\ a = s_index dimension t /\ b = s_index dimension c).
    { intros a b. rewrite Bg. rewrite In_edges_from_edgelist, in_concat. split.
      - intros (r & Hr & Hp). apply I in Hr as (s & Hs & Es). rewrite Forall_forall in F. destruct (gather_lemma dimension fuel s (F s Hs)) as (r' & Er & Ir).
        rewrite Es in Er. inversion Er; subst r'. apply Ir in Hp as (t & c & R & C & Q). inversion Q; subst. exists s, t, c. auto.
      - intros (s & t & c & Hs & R & C & -> & ->). rewrite Forall_forall in F. destruct (gather_lemma dimension fuel s (F s Hs)) as (r & Er & Ir).
        exists r. split; [apply I; eauto|]. apply Ir. eauto. }
    assert (Nd : forall x, In x (g_nodes g) <-> exists y, In (x, y) (g_edges g) \/ In (y, x) (g_edges g)).
    { intros x. rewrite Bg. rewrite In_nodes_from_edgelist. split.
      - intros ([a b] & He & [Q|Q]); simpl in Q; subst; [exists b; left|exists a; right]; apply In_edges_from_edgelist; auto.
      - intros (y & [H|H]); rewrite In_edges_from_edgelist in H; eexists; (split; [exact H|]); simpl; auto. }
    destruct (Nat.eqb_spec d 0) as [->|Nz].
    - destruct (Nat.eqb_spec (length (g_nodes g)) 0) as [Z0|Nz]; cbn [andb].
      + apply length_zero_iff_nil in Z0. assert (Z1 : g_edges g = []).
        { assert (Em : forall e, ~ In e (g_edges g)).
          { intros [a b] He. assert (Ha : In a (g_nodes g)) by (apply Nd; eauto). rewrite Z0 in Ha. destruct Ha. }
          clear -Em. destruct (g_edges g) as [|e q]; auto. exfalso. apply (Em e). left. auto. }
        eexists. split; [reflexivity|]. cbn [g_edges g_nodes]. split; [exact Ed|]. intros x. rewrite In_uniq, in_map_iff, Z1. split.
        * intros (s & <- & Hs). right. split; auto. split; auto. exists s. auto.
        * intros [(y & [[]|[]])|(_ & _ & s & Hs & ->)]. eauto.
      + eexists. split; [reflexivity|]. split; [exact Ed|]. intros x. rewrite Nd. split; auto. intros [H|(_ & Z1 & _)]; auto. exfalso. apply Nz.
        assert (Em : forall x, ~ In x (g_nodes g)).
        { intros z Hz. apply Nd in Hz as (y & Hy). rewrite Z1 in Hy. destruct Hy as [[]|[]]. }
        clear -Em. destruct (g_nodes g) as [|e q]; auto. exfalso. apply (Em e). left. auto.
    - cbn [andb]. eexists. split; [reflexivity|]. split; [exact Ed|]. intros x. rewrite Nd. split; auto. intros [H|(Z0 & _)]; [auto|contradiction].
  Qed.

  (** ** sorted lists *)
  Lemma sorted_unique (l l' : list shape) : StronglySorted Z.lt (map s_tag l) -> Permutation l' l -> StronglySorted Z.le (map s_tag l') -> l' = l.
  Proof.
    revert l'. induction l as [|x l IH]; intros l' S1 Pm S2.
    - apply Permutation_sym, Permutation_nil in Pm. auto.
    - simpl in S1. inversion S1 as [|? ? S1' F1]; subst. destruct l' as [|y l']; [apply Permutation_nil in Pm; discriminate|].
      simpl in S2. inversion S2 as [|? ? S2' F2]; subst. rewrite Forall_forall in F1, F2.
      assert (x = y).
      { assert (Hy : In y (x :: l)) by (apply (Permutation_in _ Pm); left; auto). destruct Hy as [?|Hy]; auto. exfalso.
        assert (Hx : In x (y :: l')) by (apply (Permutation_in _ (Permutation_sym Pm)); left; auto).
        assert (s_tag x < s_tag y)%Z by (apply F1, in_map; auto). destruct Hx as [<-|Hx]; [lia|].
        assert (s_tag y <= s_tag x)%Z by (apply F2, in_map; auto). lia. }
      subst y. f_equal. apply IH; auto. eapply Permutation_cons_inv; eauto.
  Qed.
  (** a boundary already in strict order stays as it is *)
  Lemma boundary_id (s : shape) l : Forall (admissible s) l -> StronglySorted Z.lt (map s_tag l) ->
    set_boundary argsort s l = Ok (mk_shape (s_kind s) (s_tag s) (s_phys s) (s_point s) l (s_embedded s)).
  Proof.
    intros A S. destruct (boundary_lemma argsort argsort_ok s l) as [B _]. destruct (B A) as (s' & E & Pm & Ss & K & T & Ph & Po & Em).
    rewrite E. assert (Q := sorted_unique l (s_boundary s') S Pm Ss). destruct s'; simpl in *. subst. reflexivity.
  Qed.
  Lemma boundary_swap (s a b : shape) : Forall (admissible s) [a; b] -> (s_tag b < s_tag a)%Z ->
    set_boundary argsort s [a; b] = Ok (mk_shape (s_kind s) (s_tag s) (s_phys s) (s_point s) [b; a] (s_embedded s)).
  Proof.
    intros A S. destruct (boundary_lemma argsort argsort_ok s [a; b]) as [B _]. destruct (B A) as (s' & E & Pm & Ss & K & T & Ph & Po & Em).
    rewrite E. assert (Q : s_boundary s' = [b; a]).
    { apply sorted_unique; auto; [simpl; repeat constructor; auto|]. transitivity [a; b]; auto. constructor. }
    destruct s'; simpl in *. subst. reflexivity.
  Qed.
  Lemma boundary_twice (s a : shape) : admissible s a ->
    set_boundary argsort s [a; a] = Ok (mk_shape (s_kind s) (s_tag s) (s_phys s) (s_point s) [a; a] (s_embedded s)).
  Proof.
    intros A. destruct (boundary_lemma argsort argsort_ok s [a; a]) as [B _]. destruct (B ltac:(auto)) as (s' & E & Pm & Ss & K & T & Ph & Po & Em).
    rewrite E. apply Permutation_sym, Permutation_length_2_inv in Pm as [Pm|Pm]; destruct s'; simpl in *; subst; reflexivity.
  Qed.

  (** ** the rectangle *)
  Section Box2.
    Variable points : list P.
    Variable area : option Z.
    Variable bc : nat -> option Z.
    Variable p0 : P.
    Notation n := (length points).
    Hypothesis big : 2 <= n.
    Definition bvertex (i : nat) : shape := new_vertex (Z.of_nat i) (nth i points p0).
    Definition bedge (i : nat) : shape :=
      mk_shape Edge (Z.of_nat i) (bc i) None (if (S i =? n)%nat then [bvertex 0; bvertex i] else [bvertex i; bvertex (S i)]) [].
    Definition bwire : shape := mk_shape Wire (Z.of_nat n) None None [bvertex 0; bvertex 0] (map bedge (seq 0 n)).
    Definition bface : shape := mk_shape Face 0 area None [bwire] [].

    Lemma bvertices : map (fun p => new_vertex (Z.of_nat (fst p)) (snd p)) (combine (seq 0 n) points) = map bvertex (seq 0 n).
    Proof.
      clear big. unfold bvertex.
      assert (G : forall (l : list P) k, map (fun p => new_vertex (Z.of_nat (fst p)) (snd p)) (combine (seq k (length l)) l) =
        map (fun i => new_vertex (Z.of_nat i) (nth (i - k) l p0)) (seq k (length l))).
      { induction l as [|x l IH]; intros k; auto. cbn [length seq combine map fst snd]. rewrite Nat.sub_diag. cbn [nth]. f_equal. rewrite IH. apply map_ext_in.
        intros i Hi. apply in_seq in Hi. replace (i - k) with (S (i - S k)) by lia. reflexivity. }
      rewrite G. apply map_ext. intros i. rewrite Nat.sub_0_r. reflexivity.
    Qed.
    Lemma get_map {A} (f : nat -> A) m i : i < m -> get_at (map f (seq 0 m)) i = Ok (f i).
    Proof. intros H. unfold get_at. rewrite (map_nth_error f i (seq 0 m) (d := i)); auto. rewrite (nth_error_nth' _ 0) by (rewrite seq_length; auto). rewrite seq_nth; auto. Qed.

    Lemma bedges : mapM (fun p => let '(tag, (i, j)) := p in
                        do a <- get_at (map bvertex (seq 0 n)) i; do b <- get_at (map bvertex (seq 0 n)) j;
                        do e <- new_edge argsort (Z.of_nat tag) [a; b];
                        Ok (set_physical e (bc tag)))
                       (combine (seq 0 n) (loop_pairs n)) = Ok (map bedge (seq 0 n)).
    Proof.
      assert (C : combine (seq 0 n) (loop_pairs n) = map (fun i => (i, (i, if (S i =? n)%nat then 0 else S i))) (seq 0 n)).
      { unfold loop_pairs. generalize (seq 0 n). induction l; simpl; auto. f_equal. auto. }
      rewrite C. set (m := n) in *. 
      assert (G : forall l, (forall i, In i l -> i < m) -> mapM (fun p => let '(tag, (i, j)) := p in
                        do a <- get_at (map bvertex (seq 0 m)) i; do b <- get_at (map bvertex (seq 0 m)) j;
                        do e <- new_edge argsort (Z.of_nat tag) [a; b];
                        Ok (set_physical e (bc tag))) (map (fun i => (i, (i, if (S i =? m)%nat then 0 else S i))) l) = Ok (map bedge l)).
      { induction l as [|i l IH]; intros H; auto. cbn [map mapM]. rewrite get_map by (apply H; left; auto). cbn [bind].
        assert (Hi : i < m) by (apply H; left; auto).
        assert (E : (do b <- get_at (map bvertex (seq 0 m)) (if (S i =? m)%nat then 0 else S i); do e <- new_edge argsort (Z.of_nat i) [bvertex i; b]; Ok (set_physical e (bc i))) = Ok (bedge i)).
        { unfold bedge. fold m. destruct (Nat.eqb_spec (S i) m) as [Q|Q]; rewrite get_map by lia; cbn [bind]; unfold new_edge.
          - rewrite boundary_swap; [reflexivity| |]; [repeat constructor; unfold admissible; simpl; lia|simpl; lia].
          - rewrite boundary_id; [reflexivity| |]; [repeat constructor; unfold admissible; simpl; lia|]. simpl. repeat constructor. lia. }
        rewrite E. cbn [bind]. rewrite IH by (intros j Hj; apply H; right; auto). reflexivity. }
      apply G. intros i Hi. apply in_seq in Hi. lia.
    Qed.

    Lemma immersed_wire : immersed bwire = map bedge (seq 0 n).
    Proof. unfold bwire. cbn [immersed]. generalize (seq 0 n). induction l; simpl; auto. f_equal. exact IHl. Qed.

    Definition succ_of (i : nat) : nat := if (S i =? n)%nat then 0 else S i.
    Lemma bwalk_gen k : forall i, i + k = n -> walk (bvertex i) (map (fun j => (bedge j, bvertex (succ_of j))) (seq i k)).
    Proof.
      assert (V : forall i, is_vertex (bvertex i)) by (intros; split; [reflexivity|discriminate]).
      induction k as [|k IH]; intros i H; [exact I|]. cbn [seq map walk].
      split; auto. split; auto. unfold succ_of. cbn [bedge s_boundary]. destruct (Nat.eqb_spec (S i) n) as [Q|Q].
      - split; [simpl; lia|]. split; [right; simpl; destruct (Nat.eqb_spec (S i) n); [auto|lia]|]. assert (k = 0) by lia. subst k. exact I.
      - split; [simpl; lia|]. split; [left; simpl; destruct (Nat.eqb_spec (S i) n); [lia|auto]|]. fold succ_of. apply IH. lia.
    Qed.
    Lemma starts_gen k : forall i, i + k = n -> starts (bvertex i) (map (fun j => (bedge j, bvertex (succ_of j))) (seq i k)) = map bvertex (seq i k).
    Proof.
      induction k as [|k IH]; intros i H; auto. cbn [seq map starts]. f_equal. destruct k; auto.
      assert (Q : succ_of i = S i) by (unfold succ_of; destruct (Nat.eqb_spec (S i) n); lia). rewrite Q. apply IH. lia.
    Qed.

    Lemma depth_edge i : depth (bedge i) = 2.
    Proof. unfold bedge. simpl. destruct (match n with 0 => false | S m' => (i =? m')%nat end); reflexivity. Qed.
    Lemma depth_wire : depth bwire <= 3.
    Proof.
      unfold bwire. cbn [depth]. apply le_n_S. apply list_max_le. apply Forall_app. split; [repeat constructor; simpl; lia|].
      apply Forall_forall. intros k Hk. apply in_map_iff in Hk as (e & <- & He). apply in_map_iff in He as (i & <- & _). rewrite depth_edge. auto.
    Qed.
    Lemma depth_face : depth bface <= 4.
    Proof. unfold bface. cbn [depth]. apply le_n_S. apply list_max_le. cbn [map app]. constructor; [apply depth_wire|constructor]. Qed.

    Lemma reach_face t : reach bface t <-> t = bface \/ t = bwire \/ exists i, i < n /\ t = bedge i.
    Proof.
      split.
      - intros R. induction R as [|t c R IH C N]; auto. right. destruct IH as [->|[->|(i & Hi & ->)]].
        + destruct C as [[<-|[]]|[]]. auto.
        + destruct C as [C|C].
          * exfalso. destruct C as [<-|[<-|[]]]; apply N; reflexivity.
          * rewrite immersed_wire in C. apply in_map_iff in C as (i & <- & Hi). apply in_seq in Hi. right. exists i. split; auto. lia.
        + exfalso. destruct C as [C|[]]. apply N. simpl in C. destruct (match n with 0 => false | S m' => (i =? m')%nat end); destruct C as [<-|[<-|[]]]; reflexivity.
      - intros [->|[->|(i & Hi & ->)]]; [constructor| |].
        + eapply reach_step; [constructor|left; left; auto|discriminate].
        + eapply reach_step; [eapply reach_step; [constructor|left; left; auto|discriminate]| |discriminate].
          right. rewrite immersed_wire. apply in_map, in_seq. lia.
    Qed.
    Lemma boundary_edge i c : i < n -> (In c (s_boundary (bedge i)) <-> c = bvertex i \/ c = bvertex (succ_of i)).
    Proof.
      intros Hi. unfold bedge, succ_of. cbn [s_boundary]. destruct (Nat.eqb_spec (S i) n); simpl; intuition.
    Qed.

    Lemma box_2D_gen fuel : (forall x, pclose x x = true) -> 4 <= fuel ->
      exists o g, build_box_2D pclose argsort fuel points area bc =
        Ok ([map bvertex (seq 0 n); map bedge (seq 0 n) ++ [bwire]; [bface]], (bwire, o), g) /\
        length o = n /\ (forall i, i < n -> exists s, nth_error o i = Some s /\ leads s (bedge i) (bvertex i) (bvertex (succ_of i))) /\
        wire_ends bwire o = Ok (bvertex 0, bvertex 0) /\
        forall a b, In (a, b) (g_edges g) <-> exists s c, (s = bface \/ s = bwire \/ exists i, i < n /\ s = bedge i) /\ child s c /\ a = s_index 2 s /\ b = s_index 2 c.
    Proof.
      intros R Hf. set (vs := map bvertex (seq 0 n)). set (es := map bedge (seq 0 n)).
      assert (n0 : (n =? 0)%nat = false) by (apply Nat.eqb_neq; lia).
      unfold build_box_2D. rewrite bvertices, n0. fold vs.
      rewrite (append_ok (empty_domain 2) vs 0); [|apply Forall_forall; intros v Hv; apply in_map_iff in Hv as (i & <- & _); reflexivity|simpl; lia].
      cbn [bind empty_domain repeat set_at nth app].
      pose proof bedges as Qe. fold vs es in Qe. rewrite Qe. clear Qe. cbn [bind].
      rewrite (append_ok _ es 1); [|apply Forall_forall; intros v Hv; apply in_map_iff in Hv as (i & <- & _); reflexivity|simpl; lia].
      cbn [bind set_at nth app]. fold vs. replace (get_at vs 0) with (Ok (bvertex 0)) by (symmetry; apply get_map; lia). cbn [bind].
      assert (W : set_immersed (new_shape Wire (Z.of_nat n) None) es = Ok (mk_shape Wire (Z.of_nat n) None None [] es)).
      { unfold set_immersed. assert (Q : forallb (fun c => memb (s_dim c) (admissible_dimensions (s_kind (new_shape Wire (Z.of_nat n) (@None P))))) es = true).
        { apply forallb_forall. intros e He. apply in_map_iff in He as (i & <- & _). reflexivity. }
        rewrite Q. reflexivity. }
      unfold new_wire. rewrite W. cbn [bind]. rewrite boundary_twice by (apply Nat.le_0_l). cbn [bind s_kind s_tag s_phys s_point s_embedded].
      fold es. change (mk_shape Wire (Z.of_nat n) None None [bvertex 0; bvertex 0] es) with bwire.
      assert (Wk := bwalk_gen n 0 eq_refl). 
      assert (Hn : exists k, n = S k) by (exists (n - 1); lia). destruct Hn as (k & Hk).
      set (L := map (fun j => (bedge j, bvertex (succ_of j))) (seq 0 n)) in *.
      assert (HL : L = (bedge 0, bvertex (succ_of 0)) :: map (fun j => (bedge j, bvertex (succ_of j))) (seq 1 k)) by (unfold L; rewrite Hk; reflexivity).
      assert (ImL : immersed bwire = map fst L).
      { rewrite immersed_wire. unfold L. rewrite map_map. reflexivity. }
      destruct fuel as [|fuel]; [lia|].
      destruct (wire_lemma pclose fuel bwire (bvertex 0) (bedge 0) (bvertex (succ_of 0)) (map (fun j => (bedge j, bvertex (succ_of j))) (seq 1 k))) as (o & Eo & Lo & Fo & _ & We).
      { auto. } { rewrite <- HL. auto. } { rewrite <- HL. auto. } { unfold succ_of. destruct (Nat.eqb_spec 1 n); [lia|]. simpl. lia. }
      rewrite Eo. cbn [bind fst]. rewrite <- HL in Fo, We.
      rewrite (append_ok _ [bwire] 1); [|repeat constructor|simpl; lia]. cbn [bind set_at nth].
      unfold new_face. rewrite boundary_id; [|repeat constructor; unfold admissible; simpl; lia|repeat constructor]. cbn [bind s_kind s_tag s_phys s_point s_embedded new_shape].
      change (set_physical (mk_shape Face 0 None None [bwire] []) area) with bface.
      rewrite (append_ok _ [bface] 2); [|repeat constructor|simpl; lia]. cbn [bind set_at nth app].
      destruct (graph_lemma 2 (S fuel) [vs; es ++ [bwire]; [bface]] 2 [bface] eq_refl) as (g & Eg & Ag & _).
      { constructor; [|constructor]. pose proof depth_face. lia. }
      exists o, g. split.
      { unfold build_graph in *. rewrite Eg. reflexivity. }
      split; [rewrite Lo, map_length, seq_length; lia|]. split; [|split].
      - intros i Hi. apply (Fo i (bedge i) (bvertex i) (bvertex (succ_of i))).
        + unfold L. rewrite (map_nth_error _ i _ (d := i)); auto. rewrite (nth_error_nth' _ 0) by (rewrite seq_length; auto). rewrite seq_nth; auto.
        + unfold L. rewrite starts_gen by lia. rewrite (map_nth_error _ i _ (d := i)); auto. rewrite (nth_error_nth' _ 0) by (rewrite seq_length; auto). rewrite seq_nth; auto.
      - rewrite We. f_equal. f_equal. unfold L. rewrite map_map. cbn [snd]. rewrite Hk. rewrite seq_S, map_app. cbn [map]. rewrite last_last. cbn [plus].
        unfold succ_of. rewrite Hk, Nat.eqb_refl. reflexivity.
      - intros a b. rewrite Ag. split.
        + intros (s & t & c & [<-|[]] & Rt & C & -> & ->). apply reach_face in Rt. exists t, c. auto.
        + intros (s & c & Q & C & -> & ->). exists bface, s, c. split; [left; auto|]. split; [apply reach_face; auto|]. auto.
    Qed.
  End Box2.

  Lemma box_2D_lemma fuel points area bc : 2 <= length points -> (forall x, pclose x x = true) -> 4 <= fuel ->
    let n := length points in
    exists vertices edges wire face o g,
      build_box_2D pclose argsort fuel points area bc = Ok ([vertices; edges ++ [wire]; [face]], (wire, o), g) /\
      (Forall is_vertex vertices /\ map s_point vertices = map Some points /\ map s_tag vertices = map Z.of_nat (seq 0 n)) /\
      (Forall (fun e => s_kind e = Edge) edges /\ map s_tag edges = map Z.of_nat (seq 0 n) /\ map s_phys edges = map bc (seq 0 n)) /\
      (s_kind wire = Wire /\ s_tag wire = Z.of_nat n /\ immersed wire = edges) /\
      (s_kind face = Face /\ s_tag face = 0%Z /\ s_phys face = area /\ s_boundary face = [wire]) /\
      NoDup (map s_tag (edges ++ [wire])) /\
      length o = n /\
      (forall i, i < n -> exists s e a b, nth_error o i = Some s /\ nth_error edges i = Some e /\
         nth_error vertices i = Some a /\ nth_error vertices (S i mod n) = Some b /\ leads s e a b) /\
      (exists v, nth_error vertices 0 = Some v /\ wire_ends wire o = Ok (v, v) /\ forall u, In u (s_boundary wire) <-> u = v) /\
      (forall a b, In (a, b) (g_edges g) <->
         (a, b) = ((0, 0), (1, Z.of_nat n))%Z \/ (a, b) = ((1, Z.of_nat n), (2, 0))%Z \/
         exists i, i < n /\ ((a, b) = ((1, Z.of_nat n), (1, Z.of_nat i))%Z \/ (a, b) = ((1, Z.of_nat i), (2, Z.of_nat i))%Z \/
                             (a, b) = ((1, Z.of_nat i), (2, Z.of_nat (S i mod n)))%Z)).
  Proof.
    intros big R Hf n. assert (Hp : exists p : P, In p points) by (destruct points as [|p l]; [simpl in big; lia|exists p; left; auto]). destruct Hp as (p0 & _).
    destruct (box_2D_gen points area bc p0 big fuel R Hf) as (o & g & E & Lo & Fo & We & Ag). fold n in E, Lo, Fo, We, Ag.
    assert (S_of : forall i, i < n -> succ_of points i = S i mod n).
    { intros i Hi. unfold succ_of. fold n. destruct (Nat.eqb_spec (S i) n) as [->|]; [rewrite Nat.mod_same; lia|rewrite Nat.mod_small; lia]. }
    assert (Nv : forall i, i < n -> nth_error (map (bvertex points p0) (seq 0 n)) i = Some (bvertex points p0 i)).
    { intros i Hi. rewrite (map_nth_error _ i _ (d := i)); auto. rewrite (nth_error_nth' _ 0) by (rewrite seq_length; auto). rewrite seq_nth; auto. }
    exists (map (bvertex points p0) (seq 0 n)), (map (bedge points bc p0) (seq 0 n)), (bwire points bc p0), (bface points area bc p0), o, g.
    split; [exact E|]. split; [|split; [|split; [|split; [|split; [|split; [|split; [|split]]]]]]].
    - split; [|split].
      + apply Forall_forall. intros v Hv. apply in_map_iff in Hv as (i & <- & _). split; [reflexivity|discriminate].
      + rewrite map_map. cbn [bvertex new_vertex new_shape s_point]. unfold n. clear. induction points as [|x l IH]; auto. cbn [length seq map nth].
        f_equal. rewrite <- seq_shift, map_map. exact IH.
      + rewrite map_map. reflexivity.
    - split; [|split].
      + apply Forall_forall. intros v Hv. apply in_map_iff in Hv as (i & <- & _). reflexivity.
      + rewrite map_map. reflexivity.
      + rewrite map_map. reflexivity.
    - repeat split. apply immersed_wire.
    - repeat split.
    - rewrite map_app, map_map. cbn [map s_tag bedge bwire]. fold n.
      replace (map (fun x => Z.of_nat x) (seq 0 n) ++ [Z.of_nat n]) with (map Z.of_nat (seq 0 (S n))) by (rewrite seq_S, map_app; reflexivity).
      apply FinFun.Injective_map_NoDup; [intros a b; apply Nat2Z.inj|apply seq_NoDup].
    - exact Lo.
    - intros i Hi. destruct (Fo i Hi) as (s & Ns & Ls). exists s, (bedge points bc p0 i), (bvertex points p0 i), (bvertex points p0 (S i mod n)).
      split; auto. split; [rewrite (map_nth_error _ i _ (d := i)); auto; rewrite (nth_error_nth' _ 0) by (rewrite seq_length; auto); rewrite seq_nth; auto|].
      split; auto. split; [apply Nv, Nat.mod_upper_bound; lia|]. rewrite <- S_of; auto.
    - exists (bvertex points p0 0). split; [apply Nv; lia|]. split; auto. intros u. simpl. intuition.
    - intros a b. rewrite Ag. split.
      + intros (s & c & Q & C & -> & ->). destruct Q as [->|[->|(i & Hi & ->)]].
        * destruct C as [[<-|[]]|[]]. left. reflexivity.
        * destruct C as [C|C].
          -- destruct C as [<-|[<-|[]]]; right; left; reflexivity.
          -- rewrite immersed_wire in C. apply in_map_iff in C as (i & <- & Hi). apply in_seq in Hi. right. right. exists i. split; [lia|]. left. reflexivity.
        * destruct C as [C|[]]. apply boundary_edge in C; auto. right. right. exists i. split; auto. right. destruct C as [-> | ->]; [left; reflexivity|right]. rewrite S_of by auto. reflexivity.
      + intros [Q|[Q|(i & Hi & [Q|[Q|Q]])]]; inversion Q; subst.
        * exists (bface points area bc p0), (bwire points bc p0). split; auto. split; [left; left; auto|]. split; reflexivity.
        * exists (bwire points bc p0), (bvertex points p0 0). split; auto. split; [left; left; auto|]. split; reflexivity.
        * exists (bwire points bc p0), (bedge points bc p0 i). split; auto. split; [right; rewrite immersed_wire; apply in_map, in_seq; lia|]. split; reflexivity.
        * exists (bedge points bc p0 i), (bvertex points p0 i). split; [right; right; eauto|]. split; [left; apply boundary_edge; auto|]. split; reflexivity.
        * exists (bedge points bc p0 i), (bvertex points p0 (succ_of points i)). split; [right; right; eauto|]. split; [left; apply boundary_edge; auto|]. split; [reflexivity|]. rewrite S_of by auto. reflexivity.
  Qed.
End BoxProof.
