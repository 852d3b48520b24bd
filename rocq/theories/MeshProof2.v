(** * Lemmas: the insertion functions preserve the mesh invariant *)
From Coq Require Import List Arith ZArith Bool Lia Permutation Sorted.
From Verif Require Import Base BaseProof MeshModel MeshSpec MeshProof1.
Import ListNotations.

Definition look (E : entities) (d : nat) (k : list nat) : option nat :=
  match d with
  | 0 => match k with [n] => dget (e0 E) n | _ => None end
  | 1 => dget (e1 E) k
  | 2 => dget (e2 E) k
  | 3 => dget (e3 E) k
  | _ => None
  end.

Record look_ok (E : entities) (N : nat) : Prop := {
  lo_inj : forall d k d' k' i, look E d k = Some i -> look E d' k' = Some i -> d = d' /\ k = k';
  lo_len : forall d k i, look E d k = Some i -> length k = d + 1;
  lo_lt : forall d k i, look E d k = Some i -> i < N;
  lo_sorted : forall d k i, look E d k = Some i -> Sorted le k;
  lo_0 : forall n i, look E 0 [n] = Some i -> n = i }.

Definition present (cs : cells) (i : nat) : Prop := exists c, cell_at cs i c.
Definition matof (cs : cells) (i : nat) : option Z :=
  match nth_error cs i with Some (Some c) => c_mat c | _ => None end.

(** same cell up to the physical tag *)
Definition same_shape (c c' : cell) : Prop :=
  c_dim c = c_dim c' /\ c_id c = c_id c' /\ c_nodes c = c_nodes c' /\ c_sub c = c_sub c'.

Record wf_cell (E : entities) (cs : cells) (i : nat) (c : cell) : Prop := {
  wc_id : c_id c = i;
  wc_look : look E (c_dim c) (sort_nat (c_nodes c)) = Some i;
  wc_len : length (c_sub c) = c_dim c + 1;
  wc_sub : forall d, d <= c_dim c ->
    Forall2 (fun ix j => look E d (sort_nat (select (c_nodes c) ix)) = Some j /\ present cs j)
            (ref_sub (c_dim c) d) (nth d (c_sub c) []) }.

Record Inv (E : entities) (N : nat) (cs : cells) : Prop := {
  iv_look : look_ok E N;
  iv_len : length cs = N;
  iv_wf : forall i c, cell_at cs i c -> wf_cell E cs i c }.

Definition ext (cs cs' : cells) : Prop :=
  forall i c, cell_at cs i c -> exists c', cell_at cs' i c' /\ same_shape c c'.

Lemma same_shape_refl c : same_shape c c.
Proof. repeat split. Qed.
Lemma same_shape_trans a b c : same_shape a b -> same_shape b c -> same_shape a c.
Proof. intros (A&B&C&D) (A'&B'&C'&D'); repeat split; congruence. Qed.
Lemma ext_refl cs : ext cs cs.
Proof. intros i c H; exists c; split; auto using same_shape_refl. Qed.
Lemma ext_trans a b c : ext a b -> ext b c -> ext a c.
Proof.
  intros H1 H2 i x Hx. apply H1 in Hx as (y & Hy & S1). apply H2 in Hy as (z & Hz & S2).
  exists z; split; auto. eapply same_shape_trans; eauto.
Qed.
Lemma ext_present cs cs' i : ext cs cs' -> present cs i -> present cs' i.
Proof. intros H (c & Hc). apply H in Hc as (c' & Hc' & _). exists c'; auto. Qed.

Lemma wf_cell_ext E cs cs' i c c' :
  ext cs cs' -> same_shape c c' -> wf_cell E cs i c -> wf_cell E cs' i c'.
Proof.
  intros X (S1 & S2 & S3 & S4) [W1 W2 W3 W4].
  constructor; [congruence|rewrite <- S1, <- S3; auto|rewrite <- S1, <- S4; auto|].
  intros d Hd. rewrite <- S1 in Hd. specialize (W4 d Hd). rewrite <- S1, <- S3, <- S4.
  eapply Forall2_impl; [|exact W4]. simpl. intros a b [? ?]; split; auto.
  eapply ext_present; eauto.
Qed.

(** effect of an insertion *)
Record ins_spec (E : entities) (N d : nat) (nodes : list nat) (tag : option Z)
    (cs cs' : cells) (id : nat) : Prop := {
  is_inv : Inv E N cs';
  is_ext : ext cs cs';
  is_look : look E d (sort_nat nodes) = Some id;
  is_pres : present cs' id;
  is_mat : forall i, matof cs' i =
     if i =? id then match tag with Some t => Some t | None => matof cs i end else matof cs i;
  is_new : forall i, present cs' i -> present cs i \/
     (exists d' k', d' <= d /\ look E d' k' = Some i) /\
     (forall n, look E 0 [n] = Some i -> In n nodes) }.

Record loop_spec (E : entities) (N d : nat) (items : list (list nat))
    (cs cs' : cells) (ids : list nat) : Prop := {
  ls_inv : Inv E N cs';
  ls_ext : ext cs cs';
  ls_ids : Forall2 (fun it id => look E d (sort_nat it) = Some id /\ present cs' id) items ids;
  ls_mat : forall i, matof cs' i = matof cs i;
  ls_new : forall i, present cs' i -> present cs i \/
     (exists d' k', d' <= d /\ look E d' k' = Some i) /\
     (forall n, look E 0 [n] = Some i -> exists it, In it items /\ In n it) }.

Lemma insert_loop_spec {A} E N d (ins : cells -> A -> res (cells * nat)) (g : A -> list nat) items :
  (forall cs x cs' id, Inv E N cs -> ins cs x = Ok (cs', id) ->
       ins_spec E N d (g x) None cs cs' id) ->
  forall cs cs' ids, Inv E N cs -> insert_loop ins cs items = Ok (cs', ids) ->
  loop_spec E N d (map g items) cs cs' ids.
Proof.
  intros Hins. induction items as [|x items IH]; simpl; intros cs cs' ids HI E0.
  - inversion E0; subst. constructor; auto using ext_refl.
  - apply bind_Ok in E0 as ([cs1 id] & E1 & E0).
    apply bind_Ok in E0 as ([cs2 ids'] & E2 & E0). inversion E0; subst; clear E0.
    apply Hins in E1; auto. destruct E1 as [I1 X1 L1 P1 M1 N1].
    apply IH in E2; auto. destruct E2 as [I2 X2 L2 M2 N2].
    constructor; auto.
    + eapply ext_trans; eauto.
    + constructor; auto. split; auto. eapply ext_present; eauto.
    + intros i. rewrite M2, M1. destruct (i =? id) eqn:Ei; auto.
    + intros i Hi. apply N2 in Hi as [Hi|[Hd Hn]].
      * apply N1 in Hi as [Hi|[Hd Hn]]; auto. right; split; auto.
        intros n Hl. exists (g x); simpl; auto.
      * right; split; auto. intros n Hl. apply Hn in Hl as (it & Hit & Hin). exists it; simpl; auto.
Qed.

(** writing a new cell into an empty slot *)
Lemma cell_at_set cs id v i c : id < length cs ->
  cell_at (set_at cs id (Some v)) i c <-> (i = id /\ c = v) \/ (i <> id /\ cell_at cs i c).
Proof.
  intros L. unfold cell_at. rewrite nth_error_set_at.
  destruct (Nat.eq_dec id i) as [->|Hn].
  - apply Nat.ltb_lt in L; rewrite L. split.
    + intros E; inversion E; auto.
    + intros [[_ ->]|[? _]]; [auto|congruence].
  - split; [intros; right; split; auto|]. intros [[? _]|[_ ?]]; [congruence|auto].
Qed.

Lemma write_new E N cs id v :
  Inv E N cs -> id < N -> (forall c, ~ cell_at cs id c) ->
  wf_cell E (set_at cs id (Some v)) id v ->
  Inv E N (set_at cs id (Some v)) /\ ext cs (set_at cs id (Some v)).
Proof.
  intros [L1 L2 L3] Hid Hn Hw.
  assert (X : ext cs (set_at cs id (Some v))).
  { intros i c Hc. exists c; split; auto using same_shape_refl.
    apply cell_at_set; [lia|]. right; split; auto. intros ->; eapply Hn; eauto. }
  split; auto. constructor; auto.
  - rewrite length_set_at; auto.
  - intros i c Hc. apply cell_at_set in Hc; [|lia]. destruct Hc as [[-> ->]|[_ Hc]]; auto.
    eapply wf_cell_ext; eauto using same_shape_refl.
Qed.

Lemma matof_set cs id v i : id < length cs ->
  matof (set_at cs id (Some v)) i = if i =? id then c_mat v else matof cs i.
Proof.
  intros L. unfold matof. rewrite nth_error_set_at.
  destruct (Nat.eq_dec id i) as [->|Hn].
  - rewrite Nat.eqb_refl. apply Nat.ltb_lt in L; rewrite L; auto.
  - replace (i =? id) with false; auto. symmetry; apply Nat.eqb_neq; auto.
Qed.

Lemma retag_spec E N cs id tag cs' :
  Inv E N cs -> retag cs id tag = Ok cs' ->
  Inv E N cs' /\ ext cs cs' /\ (forall i, present cs' i -> present cs i) /\
  (forall i, matof cs' i =
     if i =? id then match tag with Some t => Some t | None => matof cs i end else matof cs i).
Proof.
  intros HI. unfold retag. destruct tag as [t|].
  - intros E0. apply bind_Ok in E0 as ([c|] & Ec & E0); [|discriminate].
    unfold get_at in Ec. destruct (nth_error cs id) as [o|] eqn:En; [|discriminate].
    inversion Ec; subst; clear Ec. inversion E0; subst; clear E0.
    assert (Hl : id < length cs) by (apply nth_error_Some; congruence).
    assert (X : ext cs (set_at cs id (Some (set_material c (Some t))))).
    { intros i x Hx. destruct (Nat.eq_dec i id) as [->|Hn].
      - exists (set_material c (Some t)). split.
        + apply cell_at_set; auto.
        + unfold cell_at in Hx. rewrite En in Hx; inversion Hx; subst. repeat split.
      - exists x; split; auto using same_shape_refl. apply cell_at_set; auto. }
    split; [|split; [|split]]; auto.
    + destruct HI as [L1 L2 L3]. constructor; auto.
      * rewrite length_set_at; auto.
      * intros i x Hx. apply cell_at_set in Hx as [[-> ->]|[_ Hx]]; auto.
        -- eapply wf_cell_ext; [exact X| |apply L3; exact En]. repeat split.
        -- eapply wf_cell_ext; eauto using same_shape_refl.
    + intros i (x & Hx). apply cell_at_set in Hx as [[-> ->]|[_ Hx]]; auto.
      * exists c; exact En.
      * exists x; auto.
    + intros i. rewrite matof_set by auto. reflexivity.
  - intros E0; inversion E0; subst. split; [|split; [|split]]; auto using ext_refl.
    intros i; destruct (i =? id); auto.
Qed.

Lemma matof_absent cs i : (forall c, ~ cell_at cs i c) -> matof cs i = None.
Proof.
  unfold matof, cell_at. intros Hn. destruct (nth_error cs i) as [[c|]|]; auto.
  exfalso; eapply Hn; eauto.
Qed.

Lemma dindex_Ok {K V} `{EqDec K} (d : dict K V) k v : dindex d k = Ok v <-> dget d k = Some v.
Proof. unfold dindex; destruct (dget d k); split; congruence. Qed.
Lemma get_at_Ok {A} (l : list A) i x : get_at l i = Ok x <-> nth_error l i = Some x.
Proof. unfold get_at; destruct (nth_error l i); split; congruence. Qed.

(** common end of the four insertion functions *)
Lemma finish_spec E N d nodes tag cs csl id v cs' :
  Inv E N cs -> look E d (sort_nat nodes) = Some id -> (forall c, ~ cell_at cs id c) ->
  Inv E N csl -> ext cs csl -> (forall i, matof csl i = matof cs i) ->
  (forall i, present csl i -> present cs i \/
     (exists d' k', d' < d /\ look E d' k' = Some i) /\
     (forall n, look E 0 [n] = Some i -> In n nodes)) ->
  c_mat v = tag ->
  wf_cell E (set_at csl id (Some v)) id v ->
  (d = 0 -> forall n, look E 0 [n] = Some id -> In n nodes) ->
  retag (set_at csl id (Some v)) id tag = Ok cs' ->
  ins_spec E N d nodes tag cs cs' id.
Proof.
  intros HI Hl Hn HIl X M Nw Hm Hw H0 Hr.
  assert (Hlt : id < N) by (eapply lo_lt; [apply HI|exact Hl]).
  assert (Hn' : forall c, ~ cell_at csl id c).
  { intros c Hc. destruct (Nw id) as [(c0 & Hc0)|[(d' & k' & Hd & Hk) _]].
    - exists c; auto.
    - eapply Hn; eauto.
    - destruct (lo_inj _ _ (iv_look _ _ _ HI) _ _ _ _ _ Hl Hk); lia. }
  destruct (write_new E N csl id v HIl Hlt Hn' Hw) as [I1 X1].
  assert (Ll : id < length csl) by (rewrite (iv_len _ _ _ HIl); auto).
  destruct (retag_spec _ _ _ _ _ _ I1 Hr) as (I2 & X2 & P2 & M2).
  assert (Pid : present (set_at csl id (Some v)) id) by (exists v; apply cell_at_set; auto).
  constructor; auto.
  - eapply ext_trans; [exact X|]. eapply ext_trans; eauto.
  - eapply ext_present; eauto.
  - intros i. rewrite M2, matof_set by auto. destruct (i =? id) eqn:Ei.
    + destruct tag; auto. rewrite Hm. apply Nat.eqb_eq in Ei; subst i.
      symmetry; apply matof_absent; auto.
    + apply M.
  - intros i Hi. apply P2 in Hi as (c & Hc). apply cell_at_set in Hc as [[-> ->]|[Hni Hc]]; auto.
    + right; split; [exists d, (sort_nat nodes); auto|].
      destruct (Nat.eq_dec d 0) as [->|Hd]; [auto|].
      intros n Hln. destruct (lo_inj _ _ (iv_look _ _ _ HI) _ _ _ _ _ Hl Hln); lia.
    + destruct (Nw i) as [Hp|[(d' & k' & Hd & Hk) Hq]]; [exists c; auto|auto|].
      right; split; auto. exists d', k'; split; [lia|auto].
Qed.

(** common case of an entity that is already there *)
Lemma found_spec E N d nodes tag cs id c cs' :
  Inv E N cs -> look E d (sort_nat nodes) = Some id -> cell_at cs id c ->
  retag cs id tag = Ok cs' -> ins_spec E N d nodes tag cs cs' id.
Proof.
  intros HI Hl Hc Hr. destruct (retag_spec _ _ _ _ _ _ HI Hr) as (I2 & X2 & P2 & M2).
  constructor; auto.
  eapply ext_present; eauto. exists c; auto.
Qed.

Lemma nth_error_None_slot (cs : cells) id : nth_error cs id = Some None -> forall c, ~ cell_at cs id c.
Proof. unfold cell_at; intros -> c; congruence. Qed.

Lemma insert_vertex_spec E N cs n tag cs' id :
  Inv E N cs -> insert_vertex E cs n tag = Ok (cs', id) -> ins_spec E N 0 [n] tag cs cs' id.
Proof.
  intros HI E0. unfold insert_vertex in E0.
  apply bind_Ok in E0 as (i & Ei & E0). apply dindex_Ok in Ei.
  apply bind_Ok in E0 as (slot & Es & E0). apply get_at_Ok in Es.
  cbv zeta in E0.
  apply bind_Ok in E0 as (cs2 & Er & E0). inversion E0; subst; clear E0.
  assert (Hl : look E 0 (sort_nat [n]) = Some id) by exact Ei.
  destruct slot as [c|].
  - eapply found_spec; eauto.
  - eapply finish_spec with (csl := cs); eauto using ext_refl, nth_error_None_slot.
    + reflexivity.
    + assert (Hlt : id < length cs) by (apply nth_error_Some; congruence).
      assert (n = id) by (eapply lo_0; [apply HI|exact Ei]). subst n.
      constructor; auto.
      intros d Hd. simpl in Hd. assert (d = 0) by lia; subst d. simpl.
      constructor; auto. split; [exact Ei|].
      eexists. apply cell_at_set; eauto.
    + intros _ m Hm. simpl. left.
      destruct (lo_inj _ _ (iv_look _ _ _ HI) _ _ _ _ _ Hl Hm) as [_ E1].
      inversion E1; auto.
Qed.

Lemma look_nodes_len E N d nodes id : look_ok E N -> look E d (sort_nat nodes) = Some id -> length nodes = d + 1.
Proof. intros L H. rewrite <- length_sort_nat. eapply lo_len; eauto. Qed.

Ltac inv_F2 :=
  repeat match goal with
         | H : Forall2 _ (_ :: _) _ |- _ => inversion H; subst; clear H
         | H : Forall2 _ [] _ |- _ => inversion H; subst; clear H
         end.

Ltac f2 := repeat first [apply Forall2_nil | apply Forall2_cons | split].

Lemma insert_edge_spec E N cs nodes tag cs' id :
  Inv E N cs -> insert_edge E cs nodes tag = Ok (cs', id) -> ins_spec E N 1 nodes tag cs cs' id.
Proof.
  intros HI E0. unfold insert_edge in E0.
  apply bind_Ok in E0 as (i & Ei & E0). apply dindex_Ok in Ei.
  apply bind_Ok in E0 as (slot & Es & E0). apply get_at_Ok in Es.
  apply bind_Ok in E0 as (cs1 & E1 & E0).
  apply bind_Ok in E0 as (cs2 & Er & E0). inversion E0; subst; clear E0.
  assert (Hl : look E 1 (sort_nat nodes) = Some id) by exact Ei.
  destruct slot as [c|].
  - inversion E1; subst. eapply found_spec; eauto.
  - apply bind_Ok in E1 as ([csv vids] & Ev & E1). inversion E1; subst; clear E1.
    apply (insert_loop_spec E N 0 _ (fun n => [n])) in Ev; auto.
    2:{ intros; apply insert_vertex_spec; auto. }
    destruct Ev as [I1 X1 F1 M1 N1].
    eapply finish_spec with (csl := csv); eauto using nth_error_None_slot.
    + intros i Hi. apply N1 in Hi as [Hi|[(d' & k' & Hd & Hk) Hn]]; auto. right; split.
      * exists d', k'; split; [lia|auto].
      * intros n Hln. apply Hn in Hln as (it & Hit & Hin). apply in_map_iff in Hit as (m & <- & Hm).
        destruct Hin as [->|[]]; auto.
    + reflexivity.
    + assert (Hlt : id < length csv).
      { rewrite (iv_len _ _ _ I1). eapply lo_lt; [apply HI|exact Hl]. }
      assert (Pn : forall j, present csv j ->
                present (set_at csv id (Some (set_sub (set_sub (create_cell 1 nodes id tag) 0 vids) 1 [id]))) j).
      { intros j (c & Hc). destruct (Nat.eq_dec j id) as [->|]; eexists; apply cell_at_set; eauto. }
      pose proof (look_nodes_len _ _ _ _ _ (iv_look _ _ _ HI) Hl) as Len.
      destruct nodes as [|a [|b [|? ?]]]; try discriminate.
      constructor; auto. simpl in F1. inv_F2.
      intros d Hd. simpl in Hd. destruct d as [|[|d]]; [| |lia]; simpl.
      * f2; try tauto; apply Pn; tauto.
      * f2; auto. eexists; apply cell_at_set; eauto.
    + lia.
Qed.

Lemma mapM_look0 E nodes vids :
  mapM (dindex (e0 E)) nodes = Ok vids -> Forall2 (fun n i => look E 0 [n] = Some i) nodes vids.
Proof.
  intros H. apply mapM_Forall2 in H. eapply Forall2_impl; [|exact H].
  simpl. intros a b Hab. apply dindex_Ok in Hab; auto.
Qed.

(** the vertices of a present edge are present *)
Lemma edge_vertices E N cs a b i :
  Inv E N cs -> look E 1 (sort_nat [a; b]) = Some i -> present cs i ->
  forall n, n = a \/ n = b -> exists j, look E 0 [n] = Some j /\ present cs j.
Proof.
  intros HI Hl (c & Hc) n Hn. destruct (iv_wf _ _ _ HI _ _ Hc) as [W1 W2 W3 W4].
  destruct (lo_inj _ _ (iv_look _ _ _ HI) _ _ _ _ _ Hl W2) as [Ed Ek].
  specialize (W4 0 ltac:(lia)). rewrite <- Ed in W4. simpl in W4.
  pose proof (look_nodes_len _ _ _ _ _ (iv_look _ _ _ HI) W2) as Len. rewrite <- Ed in Len.
  destruct (c_nodes c) as [|x [|y [|? ?]]]; try discriminate.
  apply sort_nat_eq_iff in Ek.
  assert (In n [x; y]) as [<-|[<-|[]]]
    by (eapply Permutation_in; [exact Ek|destruct Hn; subst; simpl; auto]);
  inv_F2; simpl in *; eexists; intuition eauto.
Qed.

Lemma look0_present E N cs n i :
  Inv E N cs -> look E 0 [n] = Some i -> (exists j, look E 0 [n] = Some j /\ present cs j) -> present cs i.
Proof. intros _ H1 (k & H2 & P). rewrite H1 in H2; inversion H2; subst; auto. Qed.

Lemma F2_in_l {A B} (R : A -> B -> Prop) l l' x :
  Forall2 R l l' -> In x l -> exists y, In y l' /\ R x y.
Proof.
  induction 1; simpl; [tauto|]. intros [->|Hx]; [eauto|].
  destruct (IHForall2 Hx) as (z & ? & ?); eauto.
Qed.

Lemma Forall2_map_l {A B C} (f : A -> B) (R : B -> C -> Prop) l l' :
  Forall2 R (map f l) l' <-> Forall2 (fun a c => R (f a) c) l l'.
Proof.
  split.
  - remember (map f l) as m eqn:Em. intros H; revert l Em; induction H; intros [|a l0] Em;
      inversion Em; subst; constructor; auto.
  - induction 1; simpl; constructor; auto.
Qed.

Lemma insert_polygon_spec E N cs nodes tag cs' id :
  Inv E N cs -> insert_polygon E cs nodes tag = Ok (cs', id) -> ins_spec E N 2 nodes tag cs cs' id.
Proof.
  intros HI E0. unfold insert_polygon in E0.
  apply bind_Ok in E0 as (i & Ei & E0). apply dindex_Ok in Ei.
  apply bind_Ok in E0 as (slot & Es & E0). apply get_at_Ok in Es.
  apply bind_Ok in E0 as (cs1 & E1 & E0).
  apply bind_Ok in E0 as (cs2 & Er & E0). inversion E0; subst; clear E0.
  assert (Hl : look E 2 (sort_nat nodes) = Some id) by exact Ei.
  destruct slot as [c|].
  - inversion E1; subst. eapply found_spec; eauto.
  - apply bind_Ok in E1 as (vids & Ev & E1). apply mapM_look0 in Ev.
    apply bind_Ok in E1 as (edges & Ee & E1).
    pose proof (look_nodes_len _ _ _ _ _ (iv_look _ _ _ HI) Hl) as Len.
    destruct nodes as [|a [|b [|c [|? ?]]]]; try discriminate.
    simpl in Ee. inversion Ee; subst; clear Ee.
    apply bind_Ok in E1 as ([cse eids] & El & E1). inversion E1; subst; clear E1.
    apply (insert_loop_spec E N 1 _ (fun e => e)) in El; auto.
    2:{ intros; apply insert_edge_spec; auto. }
    rewrite map_id in El. destruct El as [I1 X1 F1 M1 N1].
    assert (F1' : Forall2 (fun it id => look E 1 (sort_nat it) = Some id /\ present cse id)
                    [[b; c]; [a; c]; [a; b]] eids).
    { apply (proj1 (Forall2_map_l _ _ _ _)) in F1. eapply Forall2_impl; [|exact F1]. cbv beta. intros x y.
      rewrite sort_nat_idem; auto. }
    clear F1.
    eapply finish_spec with (csl := cse); eauto using nth_error_None_slot.
    + intros i Hi. apply N1 in Hi as [Hi|[(d' & k' & Hd & Hk) Hn]]; auto. right; split.
      * exists d', k'; split; [lia|auto].
      * intros n Hln. apply Hn in Hln as (it & Hit & Hin).
        apply in_map_iff in Hit as (e & <- & He).
        apply (Permutation_in _ (sort_nat_perm _)) in Hin.
        simpl in He; intuition (subst; simpl in *; intuition).
    + reflexivity.
    + assert (Hlt : id < length cse).
      { rewrite (iv_len _ _ _ I1). eapply lo_lt; [apply HI|exact Hl]. }
      match goal with |- wf_cell _ (set_at _ _ (Some ?w)) _ _ => set (v := w) end.
      assert (Pn : forall j, present cse j -> present (set_at cse id (Some v)) j).
      { intros j (x & Hx). destruct (Nat.eq_dec j id) as [->|]; eexists; apply cell_at_set; eauto. }
      inv_F2.
      repeat match goal with X : _ /\ present _ _ |- _ => destruct X end.
      constructor; auto.
      intros d Hd. simpl in Hd. destruct d as [|[|[|d]]]; [| | |lia]; simpl.
      * f2; auto; apply Pn; eapply look0_present; eauto;
        [eapply edge_vertices with (a := a) (b := b)|eapply edge_vertices with (a := a) (b := b)
        |eapply edge_vertices with (a := b) (b := c)]; eauto.
      * f2; auto.
      * f2; auto. eexists; apply cell_at_set; eauto.
    + lia.
Qed.

Lemma insert_polyhedron_spec E N cs nodes tag cs' id :
  Inv E N cs -> insert_polyhedron E cs nodes tag = Ok (cs', id) -> ins_spec E N 3 nodes tag cs cs' id.
Proof.
  intros HI E0. unfold insert_polyhedron in E0.
  apply bind_Ok in E0 as (i & Ei & E0). apply dindex_Ok in Ei.
  apply bind_Ok in E0 as (slot & Es & E0). apply get_at_Ok in Es.
  apply bind_Ok in E0 as (cs1 & E1 & E0).
  apply bind_Ok in E0 as (cs2 & Er & E0). inversion E0; subst; clear E0.
  assert (Hl : look E 3 (sort_nat nodes) = Some id) by exact Ei.
  destruct slot as [c|].
  - inversion E1; subst. eapply found_spec; eauto.
  - apply bind_Ok in E1 as (vids & Ev & E1). apply mapM_look0 in Ev.
    apply bind_Ok in E1 as (edges & Ee & E1).
    pose proof (look_nodes_len _ _ _ _ _ (iv_look _ _ _ HI) Hl) as Len.
    destruct nodes as [|a [|b [|c [|e [|? ?]]]]]; try discriminate.
    simpl in Ee. inversion Ee; subst; clear Ee.
    apply bind_Ok in E1 as ([cse eids] & El & E1).
    apply bind_Ok in E1 as (faces & Ef & E1). simpl in Ef. inversion Ef; subst; clear Ef.
    apply bind_Ok in E1 as ([csf fids] & Elf & E1). inversion E1; subst; clear E1.
    apply (insert_loop_spec E N 1 _ (fun e => e)) in El; auto.
    2:{ intros; apply insert_edge_spec; auto. }
    rewrite map_id in El. destruct El as [I1 X1 F1 M1 N1].
    apply (insert_loop_spec E N 2 _ (fun e => e)) in Elf; auto.
    2:{ intros; apply insert_polygon_spec; auto. }
    rewrite map_id in Elf. destruct Elf as [I2 X2 F2 M2 N2].
    eapply finish_spec with (csl := csf); eauto using nth_error_None_slot, ext_trans.
    + intros i. rewrite M2, M1; auto.
    + intros i Hi. apply N2 in Hi as [Hi|[(d' & k' & Hd & Hk) Hn]].
      * apply N1 in Hi as [Hi|[(d' & k' & Hd & Hk) Hn]]; auto. right; split.
        -- exists d', k'; split; [lia|auto].
        -- intros n Hln. apply Hn in Hln as (it & Hit & Hin).
           simpl in Hit; intuition (subst; simpl in *; intuition).
      * right; split.
        -- exists d', k'; split; [lia|auto].
        -- intros n Hln. apply Hn in Hln as (it & Hit & Hin).
           simpl in Hit; intuition (subst; simpl in *; intuition).
    + reflexivity.
    + assert (Hlt : id < length csf).
      { rewrite (iv_len _ _ _ I2). eapply lo_lt; [apply HI|exact Hl]. }
      match goal with |- wf_cell _ (set_at _ _ (Some ?w)) _ _ => set (v := w) end.
      assert (Pn : forall j, present csf j -> present (set_at csf id (Some v)) j).
      { intros j (x & Hx). destruct (Nat.eq_dec j id) as [->|]; eexists; apply cell_at_set; eauto. }
      inv_F2.
      repeat match goal with X : _ /\ present _ _ |- _ => destruct X end.
      constructor; auto.
      intros d Hd. simpl in Hd. destruct d as [|[|[|[|d]]]]; [| | | |lia]; simpl.
      * f2; auto; apply Pn; eapply look0_present; eauto;
        [eapply edge_vertices with (a := a) (b := b)|eapply edge_vertices with (a := a) (b := b)
        |eapply edge_vertices with (a := c) (b := e)|eapply edge_vertices with (a := c) (b := e)]; eauto using ext_present.
      * f2; auto; eauto using ext_present.
      * f2; auto.
      * f2; auto. eexists; apply cell_at_set; eauto.
    + lia.
Qed.

Lemma insert_row_spec E N d cs row tag cs' id :
  d <= 3 -> (d = 0 -> length row = 1) ->
  Inv E N cs -> insert_row E d cs row tag = Ok (cs', id) -> ins_spec E N d row tag cs cs' id.
Proof.
  intros L L0 HI E0. destruct d as [|[|[|[|d]]]]; simpl in E0; [| | | |lia].
  - specialize (L0 eq_refl). destruct row as [|n [|? ?]]; try discriminate. simpl in E0.
    apply insert_vertex_spec; auto.
  - apply insert_edge_spec; auto.
  - apply insert_polygon_spec; auto.
  - apply insert_polyhedron_spec; auto.
Qed.
