(** * Lemmas about the union of domains: C84 *)
From Coq Require Import List Arith ZArith Bool Reals Lia Lra Permutation Sorted.
From Verif Require Import Base BaseProof VecBase GeoModel GraphOpsModel VertexModel ShapeSpec VertexSpec DiffProof DomainModel DomainSpec.
Import ListNotations.

(** ** dicts *)
Lemma dget_consistent {K V} `{EqDec K} (l : list (K * V)) k v : (forall k v v', In (k, v) l -> In (k, v') l -> v = v') ->
  (dget (dict_of l) k = Some v <-> In (k, v) l).
Proof.
  intros C. rewrite dget_dict_of. split.
  - intros G. apply dget_Some_In in G. apply in_rev. exact G.
  - intros I. destruct (dget (rev l) k) as [v'|] eqn:E.
    + apply dget_Some_In, in_rev in E. f_equal. exact (C _ _ _ E I).
    + apply dget_None in E. exfalso. apply E. unfold dkeys. rewrite map_rev. apply -> in_rev. apply (in_map fst) in I. exact I.
Qed.
Lemma last_by_In {A} (key : A -> Z) (l : list A) : (forall x y, In x l -> In y l -> key x = key y -> x = y) ->
  forall x, In x (last_by key l) <-> In x l.
Proof.
  intros C x. assert (CC : forall (k : Z) (v v' : A), In (k, v) (map (fun x => (key x, x)) l) -> In (k, v') (map (fun x => (key x, x)) l) -> v = v').
  { intros k v v' I I'. apply in_map_iff in I as (y & E & I). apply in_map_iff in I' as (y' & E' & I'). injection E as <- <-. injection E' as E1 <-.
    apply C; auto. }
  unfold last_by, dvals. split.
  - intros I. apply in_map_iff in I as ([k y] & E & I). simpl in E. subst y.
    assert (G : dget (dict_of (map (fun x => (key x, x)) l)) k = Some x) by (apply dget_NoDup; [apply NoDup_dict_of|exact I]).
    apply (dget_consistent _ _ _ CC) in G. apply in_map_iff in G as (y & E & G). injection E as _ <-. exact G.
  - intros I. apply in_map_iff. exists (key x, x). split; [reflexivity|]. apply dget_Some_In. apply (dget_consistent _ _ _ CC). apply in_map_iff. exists x. auto.
Qed.
Lemma last_by_id {A} (key : A -> Z) (l : list A) : NoDup (map key l) -> last_by key l = l.
Proof.
  intros N. unfold last_by. rewrite dict_of_id; [|unfold dkeys; rewrite map_map; exact N]. unfold dvals. rewrite map_map. apply map_id.
Qed.
Lemma last_by_NoDup {A} (key : A -> Z) (l : list A) : NoDup (map key (last_by key l)).
Proof.
  unfold last_by. set (d := dict_of (map (fun x => (key x, x)) l)).
  assert (E : map key (dvals d) = dkeys d); [|rewrite E; apply NoDup_dict_of].
  unfold dvals, dkeys. rewrite map_map. apply map_ext_in. intros [k x] I. simpl.
  assert (G : dget d k = Some x) by (apply dget_NoDup; [apply NoDup_dict_of|exact I]).
  unfold d in G. rewrite dget_dict_of in G. apply dget_Some_In, in_rev, in_map_iff in G as (y & E & _). injection E as <- <-. reflexivity.
Qed.

Lemma key_inj {A B} (f : A -> B) (l : list A) : NoDup (map f l) -> forall x y, In x l -> In y l -> f x = f y -> x = y.
Proof.
  induction l as [|z l IH]; intros N x y I1 I2 Q; [destruct I1|]. inversion N as [|? ? N1 N2]; subst.
  destruct I1 as [<-|I1], I2 as [<-|I2]; [reflexivity| | |apply IH; auto]; exfalso; apply N1; [rewrite Q|rewrite <- Q]; apply in_map; auto.
Qed.

Lemma mapM_ex {A B} (f : A -> res B) (P : A -> B -> Prop) l : (forall x, In x l -> exists y, f x = Ok y /\ P x y) ->
  exists ys, mapM f l = Ok ys /\ Forall2 P l ys.
Proof.
  induction l as [|x l IH]; intros H; [exists []; split; [reflexivity|constructor]|].
  destruct (H x (or_introl eq_refl)) as (y & Ey & Py). destruct IH as (ys & Eys & F); [intros z I; apply H; right; exact I|].
  exists (y :: ys). cbn [mapM]. rewrite Ey. cbn [bind]. rewrite Eys. split; [reflexivity|constructor; auto].
Qed.
Lemma Forall2_left {A B} (P : A -> B -> Prop) l l' : Forall2 P l l' -> forall x, In x l -> exists y, In y l' /\ P x y.
Proof. induction 1 as [|a b l l' H F IH]; intros x []; [subst; exists b; split; [left|]; auto|]. destruct (IH x H0) as (y & I & Q). exists y. split; [right|]; auto. Qed.
Lemma Forall2_right {A B} (P : A -> B -> Prop) l l' : Forall2 P l l' -> forall y, In y l' -> exists x, In x l /\ P x y.
Proof. induction 1 as [|a b l l' H F IH]; intros y []; [subst; exists a; split; [left|]; auto|]. destruct (IH y H0) as (x & I & Q). exists x. split; [right|]; auto. Qed.

Lemma Forall2_In_impl {A B} (P Q : A -> B -> Prop) l l' : (forall x y, In x l -> P x y -> Q x y) -> Forall2 P l l' -> Forall2 Q l l'.
Proof. intros H F. induction F as [|x y l l' p F IH]; constructor; [apply H; [left; reflexivity|exact p]|]. apply IH. intros a b I. apply H. right. exact I. Qed.
Lemma seq_nth_all {A} (l : list A) d : map (fun i => nth i l d) (seq 0 (length l)) = l.
Proof.
  induction l as [|x l IH]; [reflexivity|]. cbn [length seq map nth]. f_equal. rewrite <- seq_shift, map_map. exact IH.
Qed.

(** ** adding arrows *)
Lemma add_new_In {A} `{EqDec A} (l : list A) x y : In y (add_new l x) <-> In y l \/ y = x.
Proof.
  unfold add_new. destruct (memb x l) eqn:M.
  - apply memb_In in M. split; [auto|]. intros [I| ->]; auto.
  - rewrite in_app_iff. simpl. intuition.
Qed.
Lemma add_new_NoDup {A} `{EqDec A} (l : list A) x : NoDup l -> NoDup (add_new l x).
Proof. intros N. unfold add_new. destruct (memb x l) eqn:M; [exact N|]. apply memb_notIn in M. apply NoDup_app_single; auto. Qed.
Lemma add_new_old {A} `{EqDec A} (l : list A) x : In x l -> add_new l x = l.
Proof. intros I. unfold add_new. apply memb_In in I. rewrite I. reflexivity. Qed.
Lemma add_new_filter {A} `{EqDec A} (f : A -> bool) (l : list A) x : f x = false -> filter f (add_new l x) = filter f l.
Proof. intros Q. unfold add_new. destruct (memb x l); [reflexivity|]. rewrite filter_app. simpl. rewrite Q. apply app_nil_r. Qed.
Lemma add_star (x : node) : forall ps (g : digraph node), (forall p, In p ps -> In p (g_nodes g)) ->
  let g' := add_edges_from g (map (fun p => (p, x)) ps) in
  (forall a, In a (g_edges g') <-> In a (g_edges g) \/ exists p, In p ps /\ a = (p, x)) /\
  (forall i, In i (g_nodes g') <-> In i (g_nodes g) \/ (ps <> [] /\ i = x)) /\
  (NoDup (g_edges g) -> NoDup (g_edges g')) /\ (NoDup (g_nodes g) -> NoDup (g_nodes g')) /\
  (forall f, (forall p, f (p, x) = false) -> filter f (g_edges g') = filter f (g_edges g)) /\
  (forall f, f x = false -> filter f (g_nodes g') = filter f (g_nodes g)).
Proof.
  induction ps as [|p ps IH]; intros g H g'.
  - subst g'. simpl. repeat split; auto; try (intros [I|(q & [] & _)]; exact I); intros [I|[Q _]]; [exact I|congruence].
  - assert (N : g_nodes (add_edge g (p, x)) = add_new (g_nodes g) x).
    { unfold add_edge. cbn [g_nodes fst snd]. rewrite (add_new_old (g_nodes g) p); [reflexivity|]. apply H. left. reflexivity. }
    assert (D : g_edges (add_edge g (p, x)) = add_new (g_edges g) (p, x)) by reflexivity.
    destruct (IH (add_edge g (p, x))) as (A & B & C & C' & F & F').
    { intros q I. rewrite N. apply add_new_In. left. apply H. right. exact I. }
    change (add_edges_from (add_edge g (p, x)) (map (fun p => (p, x)) ps)) with g' in *. rewrite N, D in *.
    split; [|split; [|split; [|split; [|split]]]].
    + intros a. rewrite A, add_new_In. split.
      * intros [[I| ->]|(q & I & ->)]; [auto|right; exists p; split; [left|]; auto|right; exists q; split; [right|]; auto].
      * intros [I|(q & [<-|I] & ->)]; [auto|auto|right; exists q; auto].
    + intros i. rewrite B, add_new_In. split; [intros [[I| ->]|[_ ->]]; auto; right; split; auto; discriminate|]. intros [I|[_ ->]]; auto.
    + intros Nd. apply C, add_new_NoDup, Nd.
    + intros Nd. apply C', add_new_NoDup, Nd.
    + intros f Hf. rewrite (F f Hf). apply add_new_filter, Hf.
    + intros f Hf. rewrite (F' f Hf). apply add_new_filter, Hf.
Qed.

(** ** the graph *)
Section Union.
  Variable hash : nat -> Z -> Z.
  Variable tol : R.
  Variable argsort : list Z -> list nat.
  Hypothesis Hsort : is_argsort argsort.
  Variables c0 c1 : domain1.
  Hypothesis J : joinable tol c0 c1.
  Let V := d_vertices c0.
  Let T := d_vertices c1.
  Let E := d_edges c0.
  Let G0 := graph_of c0.
  Let way := gives_way tol c0 c1.

  (** [e] is the first edge with the end [v]. *)
  Definition first_with (v : vertex) (e : edge) : Prop :=
    exists l1 l2, E = l1 ++ e :: l2 /\ In v (e_ends e) /\ forall e', In e' l1 -> ~ In v (e_ends e').
  (** [e] has an arrow to [w] after the tools [S]. *)
  Definition kept (S : list vertex) (e : edge) (w : vertex) : Prop :=
    In e E /\ exists v, In v (e_ends e) /\ ((w = v /\ forall t, In t S -> ~ way v t) \/ (way v w /\ In w S /\ first_with v e)).
  Record state (S : list vertex) (g : digraph node) : Prop := {
    st_zero : filter (fun i : node => fst i =? 0) (g_nodes g) = map index_e E;
    st_nodes : NoDup (g_nodes g);
    st_dims : forall i, In i (g_nodes g) -> fst i = 0 \/ fst i = 1;
    st_ones : forall z, In (1, z) (g_nodes g) <-> exists i, In (i, (1, z)) (g_edges g);
    st_edges : NoDup (g_edges g);
    st_arrows : forall a, In a (g_edges g) <-> exists e w, kept S e w /\ a = (index_e e, index_v w);
    st_order : forall v t, way v t -> ~ In t S -> filter (fun a => eqb (snd a) (index_v v)) (g_edges g) = filter (fun a => eqb (snd a) (index_v v)) (g_edges G0) }.

  Lemma ends_in e v : In e E -> In v (e_ends e) -> In v V.
  Proof. intros I I'. destruct (j_ends _ _ _ J e I) as (a & b & Q & A & B). rewrite Q in I'. destruct I' as [<-|[<-|[]]]; auto. Qed.
  Lemma edge_eq e e' : In e E -> In e' E -> e_tag e = e_tag e' -> e = e'.
  Proof. exact (key_inj e_tag E (j_edges _ _ _ J) e e'). Qed.
  Lemma vertex_eq x y : In x (V ++ T) -> In y (V ++ T) -> v_tag x = v_tag y -> x = y.
  Proof. exact (j_same _ _ _ J x y). Qed.
  Lemma kept_in S e w : kept S e w -> In w (V ++ T).
  Proof.
    intros (I & v & Iv & [[-> _]|[(_ & W & _) _]]); apply in_or_app; [left; exact (ends_in e v I Iv)|right; exact W].
  Qed.
  (** ** the graph of the first domain *)
  Definition pairs_of (e : edge) : list (node * node) := map (fun v => (index_e e, index_v v)) (e_ends e).
  Lemma G0_edges a : In a (g_edges G0) <-> exists e v, In e E /\ In v (e_ends e) /\ a = (index_e e, index_v v).
  Proof.
    unfold G0, graph_of. rewrite In_edges_from_edgelist, in_flat_map. split.
    - intros (e & I & I'). apply in_map_iff in I' as (v & <- & I'). exists e, v. auto.
    - intros (e & v & I & I' & ->). exists e. split; [exact I|]. apply in_map_iff. exists v. auto.
  Qed.
  Lemma zero_nodes : forall (l : list edge) (seen : list node), (forall e, In e l -> exists a b, e_ends e = [a; b]) -> NoDup (map e_tag l) ->
    (forall e, In e l -> ~ In (index_e e) seen) ->
    filter (fun i : node => fst i =? 0) (uniq_acc seen (flat_map (fun a => [fst a; snd a]) (flat_map pairs_of l))) = map index_e l.
  Proof.
    induction l as [|e l IH]; intros seen H N S; [reflexivity|]. destruct (H e (or_introl eq_refl)) as (a & b & Q).
    cbn [flat_map]. unfold pairs_of at 1. rewrite Q. cbn [map app flat_map fst snd uniq_acc].
    inversion N as [|? ? N1 N2]; subst.
    destruct (memb (index_e e) seen) eqn:M; [apply memb_In in M; exfalso; exact (S e (or_introl eq_refl) M)|]. cbn [filter].
    replace (fst (index_e e) =? 0) with true by reflexivity. cbn [map]. f_equal.
    assert (Step : forall seen, (forall e0, In e0 l -> ~ In (index_e e0) seen) -> forall e0, In e0 l -> ~ In (index_e e0) (seen ++ [index_e e])).
    { intros s0 S0 e0 I0. rewrite in_app_iff. intros [X|[X|[]]]; [exact (S0 e0 I0 X)|]. injection X as X. apply N1. rewrite X. apply in_map. exact I0. }
    assert (StepV : forall seen v, (forall e0, In e0 l -> ~ In (index_e e0) seen) -> forall e0, In e0 l -> ~ In (index_e e0) (seen ++ [index_v v])).
    { intros s0 v S0 e0 I0. rewrite in_app_iff. intros [X|[X|[]]]; [exact (S0 e0 I0 X)|discriminate]. }
    assert (S1 := Step seen (fun e0 I0 => S e0 (or_intror I0))).
    destruct (memb (index_v a) (seen ++ [index_e e])); cbn [filter].
    - replace (memb (index_e e) (seen ++ [index_e e])) with true by (symmetry; apply memb_In, in_or_app; right; left; reflexivity).
      destruct (memb (index_v b) (seen ++ [index_e e])); cbn [filter fst index_v Nat.eqb]; apply IH; auto; intros; apply H; right; auto.
    - replace (memb (index_e e) ((seen ++ [index_e e]) ++ [index_v a])) with true
        by (symmetry; apply memb_In, in_or_app; left; apply in_or_app; right; left; reflexivity).
      cbn [fst index_v Nat.eqb].
      destruct (memb (index_v b) ((seen ++ [index_e e]) ++ [index_v a])); cbn [filter fst index_v Nat.eqb]; apply IH; auto; intros; apply H; right; auto.
  Qed.
  Lemma state_0 : state [] G0.
  Proof.
    split.
    - apply (zero_nodes E []); [|exact (j_edges _ _ _ J)|intros e _ []]. intros e I. destruct (j_ends _ _ _ J e I) as (a & b & Q & _). exists a, b. exact Q.
    - apply NoDup_uniq.
    - intros i I. apply In_nodes_from_edgelist in I as (a & I & Q). apply in_flat_map in I as (e & I & I'). apply in_map_iff in I' as (v & <- & I').
      destruct Q as [<-|<-]; [left|right]; reflexivity.
    - intros z. unfold G0, graph_of at 1. rewrite In_nodes_from_edgelist. split.
      + intros (a & I & Q). exists (fst a). assert (I2 : In a (g_edges G0)) by (apply In_edges_from_edgelist; exact I).
        apply G0_edges in I2 as Q2. destruct Q2 as (e & v & _ & _ & ->). destruct Q as [Q|Q]; [discriminate|]. simpl in Q. rewrite <- Q. exact I2.
      + intros (i & I). exists (i, (1, z)). split; [exact (proj1 (In_edges_from_edgelist _ _) I)|right; reflexivity].
    - apply NoDup_uniq.
    - intros a. rewrite G0_edges. split.
      + intros (e & v & I & I' & ->). exists e, v. split; [|reflexivity]. split; [exact I|]. exists v. split; [exact I'|]. left. split; [reflexivity|intros t []].
      + intros (e & w & (I & v & I' & [[-> _]|(_ & [] & _)]) & ->). exists e, v. auto.
    - intros v t _ _. reflexivity.
  Qed.
  (** ** one tool *)
  Lemma filter_none {A} (f : A -> bool) l : (forall x, In x l -> f x = false) -> filter f l = [].
  Proof. induction l as [|x l IH]; intros H; [reflexivity|]. simpl. rewrite (H x (or_introl eq_refl)). apply IH. intros y I. apply H. right. exact I. Qed.
  Lemma filter_first v : In v V -> forall l, (forall e, In e l -> In e E) -> (exists e, In e l /\ In v (e_ends e)) ->
    exists l1 e l2 r, l = l1 ++ e :: l2 /\ In v (e_ends e) /\ (forall e', In e' l1 -> ~ In v (e_ends e')) /\
      filter (fun a : node * node => eqb (snd a) (index_v v)) (flat_map pairs_of l) = (index_e e, index_v v) :: r.
  Proof.
    intros Iv. induction l as [|e l IH]; intros H X; [destruct X as (e & [] & _)|]. cbn [flat_map]. rewrite filter_app.
    assert (HE : In e E) by (apply H; left; reflexivity).
    assert (Q : forall w, In w (e_ends e) -> eqb (index_v w) (index_v v) = true <-> w = v).
    { intros w Iw. rewrite eqb_true. split; [|intros ->; reflexivity]. intros Q. injection Q as Q. apply vertex_eq; auto; apply in_or_app; left; [exact (ends_in e w HE Iw)|exact Iv]. }
    assert (DD : In v (e_ends e) \/ ~ In v (e_ends e)).
    { destruct (in_dec Z.eq_dec (v_tag v) (map v_tag (e_ends e))) as [I|I]; [left|right; intros X2; apply I, in_map, X2].
      apply in_map_iff in I as (w & Q1 & I). rewrite <- (proj1 (Q w I)); [exact I|]. rewrite eqb_true. unfold index_v. rewrite Q1. reflexivity. }
    destruct DD as [I|I].
    - exists [], e, l. unfold pairs_of at 1. destruct (filter (fun a => eqb (snd a) (index_v v)) (map (fun w => (index_e e, index_v w)) (e_ends e))) as [|x r] eqn:F.
      + exfalso. assert (I2 : In (index_e e, index_v v) []); [|destruct I2]. rewrite <- F. apply filter_In. split; [apply in_map_iff; exists v; auto|].
        simpl. apply eqb_refl.
      + assert (I2 : In x (x :: r)) by (left; reflexivity). rewrite <- F in I2. apply filter_In in I2 as [I2 Q2]. apply in_map_iff in I2 as (w & <- & Iw). simpl in Q2.
        apply (Q w Iw) in Q2. subst w. eexists. split; [reflexivity|]. split; [exact I|]. split; [intros e' []|]. reflexivity.
    - destruct IH as (l1 & e1 & l2 & r & -> & A & B & C).
      + intros e' I'. apply H. right. exact I'.
      + destruct X as (e' & [<-|I'] & X); [contradiction|]. exists e'. auto.
      + exists (e :: l1), e1, l2, r. split; [reflexivity|]. split; [exact A|]. split; [intros e' [<-|I']; [exact I|apply B; exact I']|].
        rewrite (filter_none _ (pairs_of e)); [exact C|]. intros x I'. apply in_map_iff in I' as (w & <- & Iw). simpl. apply eqb_false. intros Q2.
        assert (w = v) by (apply (Q w Iw); rewrite eqb_true; exact Q2). subst w. contradiction.
  Qed.
  Lemma first_unique v e e' : first_with v e -> first_with v e' -> e = e'.
  Proof.
    intros (l1 & l2 & Q & I & N) (m1 & m2 & Q' & I' & N'). rewrite Q in Q'. revert m1 Q' N'.
    assert (G : forall (l1 m1 : list edge) l2 m2, l1 ++ e :: l2 = m1 ++ e' :: m2 -> (forall x, In x l1 -> ~ In v (e_ends x)) -> (forall x, In x m1 -> ~ In v (e_ends x)) -> e = e').
    { clear - I I'. induction l1 as [|x l1 IH]; intros m1 l2 m2 Q N N'; destruct m1 as [|y m1]; simpl in Q; injection Q as Q1 Q2.
      - exact Q1.
      - subst y. exfalso. apply (N' e); [left; reflexivity|exact I].
      - subst x. exfalso. apply (N e'); [left; reflexivity|exact I'].
      - apply (IH m1 l2 m2 Q2); intros z Iz; [apply N|apply N']; right; exact Iz. }
    intros m1 Q' N'. exact (G l1 m1 l2 m2 Q' N N').
  Qed.
  Lemma first_in v e : first_with v e -> In e E.
  Proof. intros (l1 & l2 & Q & _). rewrite Q. apply in_or_app. right. left. reflexivity. Qed.
  Lemma first_ends v e : first_with v e -> In v (e_ends e).
  Proof. intros (l1 & l2 & Q & I & _). exact I. Qed.
  Lemma first_exists v t : way v t -> exists e r, first_with v e /\ filter (fun a : node * node => eqb (snd a) (index_v v)) (g_edges G0) = (index_e e, index_v v) :: r.
  Proof.
    intros W. destruct (filter_first v (proj1 W) E) as (l1 & e & l2 & r & Q & I & N & F); [auto|exact (j_used _ _ _ J v t W)|].
    exists e. unfold G0, graph_of, from_edgelist. cbn [g_edges]. rewrite filter_uniq. change (flat_map _ (d_edges c0)) with (flat_map pairs_of E). rewrite F.
    unfold uniq. cbn [uniq_acc]. eexists. split; [exists l1, l2; auto|]. reflexivity.
  Qed.
  Definition chunk_of (t : vertex) : list node :=
    filter (fun i => negb (eqb i (index_v t))) (map index_v (filter (fun v => same_geometry tol (v_point v) (v_point t)) V)).
  Lemma chunk_In t i : In t T -> (In i (chunk_of t) <-> exists v, way v t /\ i = index_v v).
  Proof.
    intros It. unfold chunk_of. rewrite filter_In, in_map_iff. split.
    - intros [(v & <- & I) Q]. apply filter_In in I as [I G]. exists v. split; [|reflexivity]. split; [exact I|]. split; [exact It|]. split; [exact G|].
      intros X. unfold index_v in Q. rewrite X, eqb_refl in Q. discriminate.
    - intros (v & (I & _ & G & X) & ->). split; [exists v; split; [reflexivity|]; apply filter_In; auto|].
      apply negb_true_iff, eqb_false. intros Q. injection Q as Q. contradiction.
  Qed.
  Lemma chunk_v t v : In t T -> In v V -> (In (index_v v) (chunk_of t) <-> way v t).
  Proof.
    intros It Iv. rewrite (chunk_In t _ It). split; [|intros W; exists v; auto]. intros (w & W & Q). injection Q as Q.
    assert (v = w) by (apply vertex_eq; auto; apply in_or_app; left; [exact Iv|exact (proj1 W)]). subst w. exact W.
  Qed.
  Lemma node_of_edge S g e : state S g -> In e E -> In (index_e e) (g_nodes g).
  Proof.
    intros St I. assert (I2 : In (index_e e) (map index_e E)) by (apply in_map; exact I). rewrite <- (st_zero _ _ St) in I2. apply filter_In in I2. exact (proj1 I2).
  Qed.
  Lemma step_ok S g t : state S g -> In t T -> ~ In t S -> (forall s, In s S -> In s T) -> exists g', include_tool tol V g t = Ok g' /\ state (t :: S) g'.
  Proof.
    intros St It NS ST.
    destruct (mapM_ex (fun i => do p <- predecessors g i; get_at p 0) (fun i p => exists v e, way v t /\ i = index_v v /\ first_with v e /\ p = index_e e) (chunk_of t)) as (ps & Ep & F).
    { intros i I. apply (chunk_In t i It) in I as (v & W & ->). destruct (first_exists v t W) as (e & r & Fw & Fl).
      exists (index_e e). rewrite <- (st_order _ _ St v t W NS) in Fl. split.
      - unfold predecessors. assert (In (index_v v) (g_nodes g)) as Nd.
        { apply (st_ones _ _ St). exists (index_e e). assert (X : In (index_e e, index_v v) ((index_e e, index_v v) :: r)) by (left; reflexivity). rewrite <- Fl in X. apply filter_In in X. exact (proj1 X). }
        apply memb_In in Nd. rewrite Nd. cbn [bind]. rewrite Fl. reflexivity.
      - exists v, e. auto. }
    assert (PS : forall p, In p ps <-> exists v e, way v t /\ first_with v e /\ p = index_e e).
    { intros p. split.
      - intros I. destruct (Forall2_right _ _ _ F p I) as (i & _ & v & e & W & _ & Fw & Q). exists v, e. auto.
      - intros (v & e & W & Fw & ->). destruct (Forall2_left _ _ _ F (index_v v)) as (p & I & v' & e' & W' & Q & Fw' & ->); [apply chunk_v; auto; exact (proj1 W)|].
        injection Q as Q. assert (v' = v) by (apply vertex_eq; auto; apply in_or_app; left; [exact (proj1 W')|exact (proj1 W)]). subst v'.
        rewrite (first_unique v e e' Fw Fw'). exact I. }
    assert (PN : forall p, In p ps -> In p (g_nodes g)).
    { intros p I. apply PS in I as (v & e & _ & Fw & ->). apply (node_of_edge S); [exact St|exact (first_in v e Fw)]. }
    destruct (add_star (index_v t) ps g PN) as (A & B & C & C' & Fe & Fn). set (g1 := add_edges_from g (map (fun p => (p, index_v t)) ps)) in *.
    exists (remove_nodes_from g1 (chunk_of t)). split; [unfold include_tool; fold (chunk_of t); rewrite Ep; reflexivity|].
    assert (Tn : ~ In (index_v t) (chunk_of t)).
    { intros X. apply (chunk_In t _ It) in X as (v & W & Q). injection Q as Q. destruct W as (_ & _ & _ & W). congruence. }
    assert (Zn : forall e, ~ In (index_e e) (chunk_of t)) by (intros e X; apply (chunk_In t _ It) in X as (v & _ & Q); discriminate).
    assert (Arr : forall a, In a (g_edges (remove_nodes_from g1 (chunk_of t))) <-> exists e w, kept (t :: S) e w /\ a = (index_e e, index_v w)).
    { intros a. cbn [remove_nodes_from g_edges]. rewrite filter_In, andb_true_iff, !negb_true_iff, !memb_notIn, A, (st_arrows _ _ St). split.
      - intros [[(e & w & (Ie & v & Iv & K) & ->)|(p & Ip & ->)] [N1 N2]].
        + exists e, w. split; [|reflexivity]. split; [exact Ie|]. exists v. split; [exact Iv|]. simpl in N2. destruct K as [[-> K]|(W & I & Fw)].
          * left. split; [reflexivity|]. intros s [<-|I]; [|apply K; exact I]. intros W. apply N2. apply chunk_v; auto. exact (proj1 W).
          * right. split; [exact W|]. split; [right; exact I|exact Fw].
        + apply PS in Ip as (v & e & W & Fw & ->). exists e, t. split; [|reflexivity]. split; [exact (first_in v e Fw)|].
          exists v. split; [exact (first_ends v e Fw)|]. right. split; [exact W|]. split; [left; reflexivity|exact Fw].
      - intros (e & w & (Ie & v & Iv & K) & ->). assert (N1 := Zn e). destruct K as [[-> K]|(W & [<-|I] & Fw)].
        + split; [left; exists e, v; split; [|reflexivity]; split; [exact Ie|]; exists v; split; [exact Iv|]; left; split; [reflexivity|]; intros s Is; apply K; right; exact Is|].
          split; [exact N1|]. simpl. intros X. apply chunk_v in X; [|exact It|exact (ends_in e v Ie Iv)]. exact (K t (or_introl eq_refl) X).
        + split; [right; exists (index_e e); split; [apply PS; exists v, e; auto|reflexivity]|]. split; [exact N1|exact Tn].
        + split; [left; exists e, w; split; [|reflexivity]; split; [exact Ie|]; exists v; split; [exact Iv|]; right; auto|].
          split; [exact N1|]. simpl. intros X. apply (chunk_In t _ It) in X as (u & Wu & Q). injection Q as Q. exact (j_old _ _ _ J u t w Wu (ST w I) Q). }
    split.
    - cbn [remove_nodes_from g_nodes]. transitivity (filter (fun i : node => fst i =? 0) (g_nodes g1)); [|exact (eq_trans (Fn (fun i => fst i =? 0) eq_refl) (st_zero _ _ St))]. clear.
      assert (Zc : forall i, In i (chunk_of t) -> fst i = 1).
      { intros i X. unfold chunk_of in X. apply filter_In in X as [X _]. apply in_map_iff in X as (v & <- & _). reflexivity. }
      induction (g_nodes g1) as [|i l IH]; [reflexivity|]. simpl. destruct (memb i (chunk_of t)) eqn:M; cbn [negb].
      + apply memb_In, Zc in M. rewrite M. exact IH.
      + simpl. destruct (fst i =? 0); rewrite IH; reflexivity.
    - apply NoDup_filter, C', (st_nodes _ _ St).
    - intros i I. apply filter_In in I as [I _]. apply B in I as [I|[_ ->]]; [exact (st_dims _ _ St i I)|right; reflexivity].
    - intros z. cbn [remove_nodes_from g_nodes]. rewrite filter_In, negb_true_iff, memb_notIn, B. split.
      + intros [[I|[Np Q]] N].
        * apply (st_ones _ _ St) in I as (i & I). exists i. apply filter_In. split; [apply A; left; exact I|]. rewrite andb_true_iff, !negb_true_iff, !memb_notIn. simpl.
          split; [|exact N]. apply (st_arrows _ _ St) in I as (e & w & _ & Q). injection Q as -> _. apply Zn.
        * destruct ps as [|p ps']; [congruence|]. exists p. apply filter_In. rewrite Q. split; [apply A; right; exists p; split; [left|]; reflexivity|].
          rewrite andb_true_iff, !negb_true_iff, !memb_notIn. simpl. split; [|exact Tn]. destruct (proj1 (PS p) (or_introl eq_refl)) as (v & e & _ & _ & ->). apply Zn.
      + intros (i & I). apply filter_In in I as [I N]. rewrite andb_true_iff, !negb_true_iff, !memb_notIn in N. simpl in N. split; [|exact (proj2 N)].
        apply A in I as [I|(p & Ip & Q)]; [left; apply (st_ones _ _ St); exists i; exact I|]. injection Q as _ Q. right. split; [intros ->; destruct Ip|unfold index_v; rewrite Q; reflexivity].
    - apply NoDup_filter, C, (st_edges _ _ St).
    - exact Arr.
    - intros v s W Ns. cbn [remove_nodes_from g_edges]. rewrite <- (st_order _ _ St v s W) by (intros X; apply Ns; right; exact X).
      assert (Nv : ~ In (index_v v) (chunk_of t)).
      { intros X. apply chunk_v in X; [|exact It|exact (proj1 W)]. apply Ns. left. exact (j_once _ _ _ J v t s X W). }
      rewrite <- (Fe (fun a => eqb (snd a) (index_v v))).
      + assert (Sub : forall a, In a (g_edges g1) -> ~ In (fst a) (chunk_of t)).
        { intros a I. apply A in I as [I|(p & Ip & ->)]; [apply (st_arrows _ _ St) in I as (e & w & _ & ->); apply Zn|].
          apply PS in Ip as (u & e & _ & _ & ->). apply Zn. }
        clear - Nv Sub. induction (g_edges g1) as [|a l IH]; [reflexivity|]. simpl.
        assert (Sa := Sub a (or_introl eq_refl)). apply memb_notIn in Sa. rewrite Sa. cbn [negb andb].
        destruct (eqb (snd a) (index_v v)) eqn:Q.
        * pose proof (proj1 (eqb_true _ _) Q) as Q1. clear Q. rename Q1 into Q. rewrite Q. apply memb_notIn in Nv. rewrite Nv. cbn [negb filter]. rewrite Q, eqb_refl. f_equal. apply IH. intros b I. apply Sub. right. exact I.
        * destruct (memb (snd a) (chunk_of t)); cbn [negb filter]; rewrite ?Q; apply IH; intros b I; apply Sub; right; exact I.
      + intros p. simpl. apply eqb_false. intros Q. injection Q as Q. exact (j_old _ _ _ J v s t W It Q).
  Qed.
  Lemma loop_ok : forall l S g, state S g -> NoDup l -> (forall t, In t l -> In t T /\ ~ In t S) -> (forall s, In s S -> In s T) ->
    exists g', foldM (include_tool tol V) l g = Ok g' /\ state (rev l ++ S) g'.
  Proof.
    induction l as [|t l IH]; intros S g St N H ST; [exists g; auto|]. inversion N as [|? ? N1 N2]; subst.
    destruct (step_ok S g t St) as (g1 & E1 & St1); [apply H; left; reflexivity|apply H; left; reflexivity|exact ST|].
    destruct (IH (t :: S) g1 St1 N2) as (g' & E' & St').
    - intros s I. split; [apply H; right; exact I|]. intros [<-|X]; [contradiction|]. destruct (H s (or_intror I)) as [_ Y]. contradiction.
    - intros s [<-|I]; [apply H; left; reflexivity|apply ST; exact I].
    - exists g'. cbn [foldM]. rewrite E1. cbn [bind]. split; [exact E'|]. cbn [rev]. rewrite <- app_assoc. exact St'.
  Qed.
  (** ** the result *)
  Definition final (e : edge) (w : vertex) : Prop :=
    In e E /\ exists v, In v (e_ends e) /\ ((w = v /\ forall t, ~ way v t) \/ (way v w /\ first_with v e)).
  Lemma final_kept e w : kept (rev T ++ []) e w <-> final e w.
  Proof.
    unfold kept, final. rewrite app_nil_r. split; intros (I & v & Iv & K); (split; [exact I|]; exists v; split; [exact Iv|]).
    - destruct K as [[-> K]|(W & _ & Fw)]; [left; split; [reflexivity|]|right; auto]. intros t W. apply (K t); [apply -> in_rev; exact (proj1 (proj2 W))|exact W].
    - destruct K as [[-> K]|(W & Fw)]; [left; split; [reflexivity|]; intros t _; apply K|right; split; [exact W|]; split; [apply -> in_rev; exact (proj1 (proj2 W))|exact Fw]].
  Qed.
  Let all_vertices := dict_of (map (fun v => (v_tag v, v)) (V ++ T)).
  Let all_edges := dict_of (map (fun e => (e_tag e, e)) (E ++ d_edges c1)).
  Lemma find_vertex w : In w (V ++ T) -> dindex all_vertices (v_tag w) = Ok w.
  Proof.
    intros I. unfold dindex, all_vertices. replace (dget _ (v_tag w)) with (Some w); [reflexivity|]. symmetry. apply dget_consistent; [|apply in_map_iff; exists w; auto].
    intros k v v' A B. apply in_map_iff in A as (x & Q & A). apply in_map_iff in B as (y & Q' & B). injection Q as <- <-. injection Q' as Q' <-.
    apply vertex_eq; auto.
  Qed.
  Lemma find_edge e : In e E -> dindex all_edges (e_tag e) = Ok e.
  Proof.
    intros I. unfold dindex, all_edges. rewrite dget_dict_of, map_app, rev_app_distr, dget_app.
    replace (dget (rev (map (fun e0 => (e_tag e0, e0)) (d_edges c1))) (e_tag e)) with (@None edge).
    - rewrite <- dget_dict_of. replace (dget _ (e_tag e)) with (Some e); [reflexivity|]. symmetry. apply dget_consistent; [|apply in_map_iff; exists e; auto].
      intros k v v' A B. apply in_map_iff in A as (x & Q & A). apply in_map_iff in B as (y & Q' & B). injection Q as <- <-. injection Q' as Q' <-. apply edge_eq; auto.
    - symmetry. apply dget_None. unfold dkeys. rewrite map_rev, map_map. intros X. apply in_rev in X. apply in_map_iff in X as (e' & Q & I'). exact (j_foreign _ _ _ J e e' I I' Q).
  Qed.
  Lemma swap_ok e vs : exists l, swap_brep argsort e vs = Ok (mk_edge (e_tag e) (e_phys e) l) /\ Permutation l vs /\ StronglySorted Z.le (map v_tag l).
  Proof.
    destruct (Hsort (map v_tag vs)) as [P Q]. rewrite map_length in P.
    assert (L : forall is, (forall i, In i is -> i < length vs) -> exists l, mapM (get_at vs) is = Ok l /\ map v_tag l = map (fun i => nth i (map v_tag vs) 0%Z) is /\ (forall d, l = map (fun i => nth i vs d) is)).
    { induction is as [|i is IH]; intros H; [exists []; auto|]. destruct IH as (l & El & Ql & Dl); [intros j I; apply H; right; exact I|].
      assert (Li := H i (or_introl eq_refl)). destruct (nth_error vs i) as [v|] eqn:Ev; [|apply nth_error_None in Ev; lia].
      exists (v :: l). cbn [mapM]. unfold get_at at 1. rewrite Ev. cbn [bind]. rewrite El. split; [reflexivity|]. split.
      - cbn [map]. f_equal; [|exact Ql]. symmetry. apply nth_error_nth. rewrite nth_error_map, Ev. reflexivity.
      - intros d. cbn [map]. f_equal; [|apply Dl]. symmetry. apply nth_error_nth. exact Ev. }
    destruct (L (argsort (map v_tag vs))) as (l & El & Ql & Dl).
    { intros i I. apply (Permutation_in _ P) in I. apply in_seq in I. lia. }
    exists l. unfold swap_brep. rewrite El. split; [reflexivity|]. split; [|rewrite Ql; exact Q].
    destruct vs as [|v0 vs']; [simpl in P; apply Permutation_sym, Permutation_nil in P; simpl in El; rewrite P in El; injection El as <-; constructor|].
    rewrite (Dl v0). eapply Permutation_trans; [apply Permutation_map; exact P|]. rewrite <- (seq_nth_all (v0 :: vs') v0) at 2. reflexivity.
  Qed.
  Lemma brep_of g : state (rev T ++ []) g -> forall e, In e E ->
    exists vs, NoDup (map v_tag vs) /\ (forall w, In w vs <-> final e w) /\
      (do idx <- brep g (index_e e); mapM (fun j : node => dindex all_vertices (snd j)) idx) = match vs with [] => Err KeyError | _ => Ok vs end.
  Proof.
    intros St e I. set (js := map snd (filter (fun a => eqb (fst a) (index_e e)) (g_edges g))).
    assert (Jn : NoDup js).
    { unfold js. apply NoDup_map_inj_in; [|apply NoDup_filter, (st_edges _ _ St)]. intros [x y] [x' y'] A B Q. apply filter_In in A as [_ A]. apply filter_In in B as [_ B].
      simpl in A, B, Q. apply (proj1 (eqb_true _ _)) in A. apply (proj1 (eqb_true _ _)) in B. congruence. }
    assert (Js : forall j, In j js <-> exists w, final e w /\ j = index_v w).
    { intros j. unfold js. rewrite in_map_iff. split.
      - intros (a & <- & A). apply filter_In in A as [A Q]. apply (proj1 (eqb_true _ _)) in Q. apply (st_arrows _ _ St) in A as (e' & w & K & ->). simpl in Q. injection Q as Q.
        apply final_kept in K. assert (e' = e) by (apply edge_eq; auto; exact (proj1 K)). subst e'. exists w. auto.
      - intros (w & K & ->). exists (index_e e, index_v w). split; [reflexivity|]. apply filter_In. split; [|apply eqb_refl]. apply (st_arrows _ _ St). exists e, w. split; [apply final_kept; exact K|reflexivity]. }
    destruct (mapM_ex (fun j : node => dindex all_vertices (snd j)) (fun j w => j = index_v w /\ final e w) js) as (vs & Ev & F).
    { intros j Ij. apply Js in Ij as (w & K & ->). exists w. split; [|auto]. apply find_vertex. apply (kept_in (rev T ++ []) e). apply final_kept. exact K. }
    exists vs. assert (Qj : js = map index_v vs) by (clear - F; induction F as [|j w js vs [-> _] F IH]; [reflexivity|]; simpl; f_equal; exact IH).
    split; [|split].
    - rewrite Qj in Jn. clear - Jn. induction vs as [|w vs IH]; [constructor|]. inversion Jn as [|? ? N1 N2]; subst. constructor; [|apply IH; exact N2].
      intros X. apply N1. apply in_map_iff in X as (u & Q & X). apply in_map_iff. exists u. split; [unfold index_v; rewrite Q; reflexivity|exact X].
    - intros w. split.
      + intros Iw. destruct (Forall2_right _ _ _ F w Iw) as (j & _ & _ & K). exact K.
      + intros K. destruct (Forall2_left _ _ _ F (index_v w)) as (u & Iu & Q & Ku); [apply Js; exists w; auto|]. injection Q as Q.
        assert (w = u) by (apply vertex_eq; auto; apply (kept_in (rev T ++ []) e), final_kept; assumption). subst u. exact Iu.
    - unfold brep, successors. assert (Nd := node_of_edge _ _ _ St I). apply memb_In in Nd. rewrite Nd. cbn [bind]. fold js.
      replace (filter (fun j => negb (eqb j (index_e e))) js) with js.
      + rewrite Qj. destruct vs as [|w vs]; [reflexivity|]. rewrite Qj in Ev. exact Ev.
      + rewrite Qj. clear. induction vs as [|w vs IH]; [reflexivity|]. cbn [map filter]. replace (eqb (index_v w) (index_e e)) with false; [cbn [negb]; f_equal; exact IH|].
        symmetry. apply eqb_false. discriminate.
  Qed.
  Hypothesis Hv : no_collision hash 0 (map v_tag (V ++ T)).
  Hypothesis He : no_collision hash 1 (map e_tag E).
  Lemma union_prefix : exists g ws, state (rev T ++ []) g /\ NoDup (map v_tag ws) /\ (forall w, In w ws <-> exists e, final e w) /\
    domain_union hash tol argsort c0 c1 =
      (do edges <- mapM (fun e => do idx <- brep g (index_e e); do vs <- mapM (fun j : node => dindex all_vertices (snd j)) idx; swap_brep argsort e vs) E;
       Ok (create_domain1 hash ws edges)).
  Proof.
    destruct (loop_ok T [] G0 state_0) as (g & Eg & St).
    { apply (NoDup_map_inv v_tag). exact (j_second _ _ _ J). }
    { intros t I. split; [exact I|intros []]. }
    { intros s []. }
    assert (Arr : forall z, In (1, z) (g_nodes g) <-> exists e w, final e w /\ z = v_tag w).
    { intros z. rewrite (st_ones _ _ St). split.
      - intros (i & A). apply (st_arrows _ _ St) in A as (e & w & K & Q). injection Q as _ ->. exists e, w. split; [apply final_kept; exact K|reflexivity].
      - intros (e & w & K & ->). exists (index_e e). apply (st_arrows _ _ St). exists e, w. split; [apply final_kept; exact K|reflexivity]. }
    set (ones := filter (fun i : node => fst i =? 1) (g_nodes g)).
    destruct (mapM_ex (fun i : node => dindex all_vertices (snd i)) (fun i w => i = index_v w /\ exists e, final e w) ones) as (ws & Ew & F).
    { intros [d z] I. apply filter_In in I as [I Q]. simpl in Q. apply Nat.eqb_eq in Q. subst d. apply Arr in I as (e & w & K & ->). exists w.
      split; [|split; [reflexivity|exists e; exact K]]. apply find_vertex. apply (kept_in (rev T ++ []) e). apply final_kept. exact K. }
    assert (Qo : ones = map index_v ws) by (clear - F; induction F as [|j w js vs [-> _] F IH]; [reflexivity|]; simpl; f_equal; exact IH).
    assert (No : NoDup ones) by (apply NoDup_filter, (st_nodes _ _ St)).
    exists g, ws. split; [exact St|]. split; [|split].
    - rewrite Qo in No. clear - No. induction ws as [|w vs IH]; [constructor|]. inversion No as [|? ? N1 N2]; subst. constructor; [|apply IH; exact N2].
      intros X. apply N1. apply in_map_iff in X as (u & Q & X). apply in_map_iff. exists u. split; [unfold index_v; rewrite Q; reflexivity|exact X].
    - intros w. split.
      + intros Iw. destruct (Forall2_right _ _ _ F w Iw) as (j & _ & _ & K). exact K.
      + intros (e & K). destruct (Forall2_left _ _ _ F (index_v w)) as (u & Iu & Q & e' & Ku).
        { apply filter_In. split; [apply Arr; exists e, w; auto|reflexivity]. }
        injection Q as Q. assert (w = u) by (apply vertex_eq; auto; [apply (kept_in (rev T ++ []) e)|apply (kept_in (rev T ++ []) e')]; apply final_kept; assumption). subst u. exact Iu.
    - unfold domain_union. cbv zeta. fold V T E. fold G0. rewrite Eg. cbn [bind]. fold ones.
      assert (Z : filter (fun i : node => fst i =? 0) (g_nodes g) = map index_e E) by exact (st_zero _ _ St). rewrite Z.
      assert (C0 : mapM (fun i : node => dindex all_edges (snd i)) (map index_e E) = Ok E).
      { assert (G : forall l, (forall e, In e l -> In e E) -> mapM (fun i : node => dindex all_edges (snd i)) (map index_e l) = Ok l).
        { induction l as [|e l IH]; intros H; [reflexivity|]. cbn [map mapM index_e snd]. rewrite (find_edge e) by (apply H; left; reflexivity). cbn [bind].
          rewrite IH by (intros x I; apply H; right; exact I). reflexivity. }
        apply G. auto. }
      fold all_edges. rewrite C0. cbn [bind]. fold all_vertices. rewrite Ew. cbn [bind].
      assert (M : forall l, mapM (fun ie : node * edge => do idx <- brep g (fst ie); do vs <- mapM (fun j : node => dindex all_vertices (snd j)) idx; swap_brep argsort (snd ie) vs) (combine (map index_e l) l) =
                  mapM (fun e => do idx <- brep g (index_e e); do vs <- mapM (fun j : node => dindex all_vertices (snd j)) idx; swap_brep argsort e vs) l).
      { induction l as [|e l IH]; [reflexivity|]. cbn [map combine mapM fst snd]. rewrite IH. reflexivity. }
      rewrite M. reflexivity.
  Qed.
  Definition ends_final (e e' : edge) : Prop :=
    e_tag e' = e_tag e /\ e_phys e' = e_phys e /\ NoDup (map v_tag (e_ends e')) /\ StronglySorted Z.le (map v_tag (e_ends e')) /\ (forall w, In w (e_ends e') <-> final e w).
  Lemma bind_assoc3 {A B C} (r : res A) (f : A -> res B) (k : B -> res C) : (do x <- r; do y <- f x; k y) = (do y <- (do x <- r; f x); k y).
  Proof. destruct r; reflexivity. Qed.
  Lemma union_runs : (forall e, In e E -> exists w, final e w) -> exists D, domain_union hash tol argsort c0 c1 = Ok D /\
    Forall2 ends_final E (d_edges D) /\ NoDup (map v_tag (d_vertices D)) /\ forall w, In w (d_vertices D) <-> exists e, final e w.
  Proof.
    intros H. destruct union_prefix as (g & ws & St & Nw & Iw & ->).
    destruct (mapM_ex (fun e => do idx <- brep g (index_e e); do vs <- mapM (fun j : node => dindex all_vertices (snd j)) idx; swap_brep argsort e vs) ends_final E) as (es & Ee & F).
    { intros e I. destruct (brep_of g St e I) as (vs & Nv & Iv & Q). rewrite bind_assoc3, Q. destruct vs as [|v vs].
      - exfalso. destruct (H e I) as (w & K). apply Iv in K. destruct K.
      - cbn [bind]. destruct (swap_ok e (v :: vs)) as (l & El & Pl & Sl). rewrite El. eexists. split; [reflexivity|]. split; [reflexivity|]. split; [reflexivity|]. cbn [e_ends].
        split; [apply (Permutation_NoDup (l := map v_tag (v :: vs))); [apply Permutation_sym, Permutation_map, Pl|exact Nv]|]. split; [exact Sl|].
        intros w. rewrite <- Iv. split; intros X; [apply (Permutation_in _ Pl)|apply (Permutation_in _ (Permutation_sym Pl))]; exact X. }
    rewrite Ee. cbn [bind]. eexists. split; [reflexivity|]. unfold create_domain1. cbn [d_edges d_vertices].
    assert (Tg : map e_tag es = map e_tag E) by (clear - F; induction F as [|e e' l l' (Q & _) F IH]; [reflexivity|]; simpl; f_equal; auto).
    assert (L1 : last_by (fun e => hash 1 (e_tag e)) es = es).
    { apply last_by_id. rewrite <- (map_map e_tag (hash 1)), Tg. apply NoDup_map_inj_in; [exact He|exact (j_edges _ _ _ J)]. }
    assert (L0 : last_by (fun v => hash 0 (v_tag v)) ws = ws).
    { apply last_by_id. rewrite <- (map_map v_tag (hash 0)). apply NoDup_map_inj_in; [|exact Nw]. intros s t A B. apply Hv.
      - apply in_map_iff in A as (w & <- & A). apply in_map. apply Iw in A as (e & K). apply (kept_in (rev T ++ []) e), final_kept, K.
      - apply in_map_iff in B as (w & <- & B). apply in_map. apply Iw in B as (e & K). apply (kept_in (rev T ++ []) e), final_kept, K. }
    rewrite L1, L0. auto.
  Qed.
  Lemma union_inv D : domain_union hash tol argsort c0 c1 = Ok D -> forall e, In e E -> exists w, final e w.
  Proof.
    destruct union_prefix as (g & ws & St & Nw & Iw & ->). intros Q e I. apply bind_Ok in Q as (es & Q & _). apply mapM_Forall2 in Q.
    destruct (Forall2_left _ _ _ Q e I) as (e' & _ & Qe). rewrite bind_assoc3 in Qe. destruct (brep_of g St e I) as (vs & _ & Iv & Qb). rewrite Qb in Qe.
    destruct vs as [|v vs]; [discriminate|]. exists v. apply Iv. left. reflexivity.
  Qed.
  (** ** no edge loses an end *)
  Lemma stands_some v : In v V -> exists w, stands_for tol c0 c1 v w.
  Proof.
    intros Iv. destruct (filter (fun t => same_geometry tol (v_point v) (v_point t) && negb (v_tag v =? v_tag t)%Z) T) as [|t r] eqn:Q.
    - exists v. right. split; [reflexivity|]. intros t (_ & It & G & N). assert (X : In t []); [|destruct X]. rewrite <- Q. apply filter_In. split; [exact It|].
      unfold at_tool in G. unfold same_geometry. rewrite G. simpl. apply negb_true_iff, Z.eqb_neq. exact N.
    - assert (X : In t (t :: r)) by (left; reflexivity). rewrite <- Q in X. apply filter_In in X as [It X]. apply andb_true_iff in X as [G N]. apply negb_true_iff, Z.eqb_neq in N.
      exists t. left. split; [exact Iv|]. split; [exact It|]. split; [exact G|exact N].
  Qed.
  Lemma way_dec v : In v V -> (exists t, way v t) \/ forall t, ~ way v t.
  Proof. intros I. destruct (stands_some v I) as (w & [W|[_ N]]); [left; exists w; exact W|right; exact N]. Qed.
  Lemma stands_in v w : In v V -> stands_for tol c0 c1 v w -> In w (V ++ T).
  Proof. intros I [W|[-> _]]; apply in_or_app; [right; exact (proj1 (proj2 W))|left; exact I]. Qed.
  Lemma stands_unique v w w' : stands_for tol c0 c1 v w -> stands_for tol c0 c1 v w' -> w = w'.
  Proof.
    intros [W|[-> N]] [W'|[-> N']]; [exact (j_once _ _ _ J v w w' W W')|exfalso; exact (N' w W)|exfalso; exact (N w' W')|reflexivity].
  Qed.
  Lemma first_only v t e : one_edge tol c0 c1 -> way v t -> In e E -> In v (e_ends e) -> first_with v e.
  Proof.
    intros One W Ie Iv. destruct (first_exists v t W) as (e1 & r & Fw & _). rewrite <- (One v t e1 e W (first_in v e1 Fw) Ie (first_ends v e1 Fw) Iv). exact Fw.
  Qed.
  Lemma final_stands e a b : one_edge tol c0 c1 -> In e E -> e_ends e = [a; b] -> forall w, final e w <-> stands_for tol c0 c1 a w \/ stands_for tol c0 c1 b w.
  Proof.
    intros One Ie Q w. split.
    - intros (_ & v & Iv & K). assert (S : stands_for tol c0 c1 v w) by (destruct K as [[-> K]|[W _]]; [right; auto|left; exact W]).
      rewrite Q in Iv. destruct Iv as [<-|[<-|[]]]; auto.
    - intros [S|S]; (split; [exact Ie|]); [exists a|exists b]; (split; [rewrite Q; simpl; auto|]); (destruct S as [W|[-> N]]; [right; split; [exact W|]|left; auto]);
        apply (first_only _ w); auto; rewrite Q; simpl; auto.
  Qed.
  Lemma union_ok : one_edge tol c0 c1 -> no_collapse tol c0 c1 -> exists D, domain_union hash tol argsort c0 c1 = Ok D /\
    Forall2 (fun e e' => exists a b a' b', e_ends e = [a; b] /\ stands_for tol c0 c1 a a' /\ stands_for tol c0 c1 b b' /\ joins e' e a' b') E (d_edges D) /\ spanned D.
  Proof.
    intros One Nc. destruct union_runs as (D & ED & F & Nd & Iw).
    { intros e I. destruct (j_ends _ _ _ J e I) as (a & b & Q & Ia & Ib). destruct (stands_some a Ia) as (w & S). exists w. apply (final_stands e a b One I Q). left. exact S. }
    exists D. split; [exact ED|]. split.
    - apply (Forall2_In_impl ends_final); [|exact F]. intros e e' I (Q1 & Q2 & Nd' & S & K). destruct (j_ends _ _ _ J e I) as (a & b & Q & Ia & Ib).
      destruct (stands_some a Ia) as (a' & Sa). destruct (stands_some b Ib) as (b' & Sb). exists a, b, a', b'. split; [exact Q|]. split; [exact Sa|]. split; [exact Sb|].
      split; [exact Q1|]. split; [exact Q2|]. split; [|exact S].
      assert (Ua : forall w, stands_for tol c0 c1 a w -> w = a') by (intros w Sw; exact (stands_unique a w a' Sw Sa)).
      assert (Ub : forall w, stands_for tol c0 c1 b w -> w = b') by (intros w Sw; exact (stands_unique b w b' Sw Sb)).
      apply NoDup_Permutation; [exact (NoDup_map_inv _ _ Nd')| |].
      + constructor; [|constructor; [intros []|constructor]]. intros [X|[]]. exact (Nc e a b a' b' I Q Sa Sb (f_equal v_tag (eq_sym X))).
      + intros w. rewrite K, (final_stands e a b One I Q w). split; [intros [X|X]; [left; symmetry; apply Ua; exact X|right; left; symmetry; apply Ub; exact X]|].
        intros [<-|[<-|[]]]; auto.
    - split; [exact Nd|]. intros w. rewrite Iw. split.
      + intros (e & K). destruct (Forall2_left _ _ _ F e (proj1 K)) as (e' & I' & (_ & _ & _ & _ & Q)). exists e'. split; [exact I'|]. apply Q. exact K.
      + intros (e' & I' & X). destruct (Forall2_right _ _ _ F e' I') as (e & I & (_ & _ & _ & _ & Q)). exists e. apply Q. exact X.
  Qed.
  (** ** a shared vertex is lost *)
  Lemma union_shared v t e1 e2 D : way v t -> In e1 E -> In e2 E -> e1 <> e2 -> In v (e_ends e1) -> In v (e_ends e2) ->
    domain_union hash tol argsort c0 c1 = Ok D -> exists e', In e' (d_edges D) /\ length (e_ends e') < 2.
  Proof.
    intros W I1 I2 Ne V1 V2 ED. destruct (union_runs (union_inv D ED)) as (D' & ED' & F & _ & _). rewrite ED in ED'. injection ED' as <-.
    destruct (first_exists v t W) as (e0 & r & Fw & _).
    assert (X : exists e, In e E /\ In v (e_ends e) /\ e <> e0).
    { destruct (Z.eq_dec (e_tag e1) (e_tag e0)) as [Q|Q].
      - exists e2. split; [exact I2|]. split; [exact V2|]. intros ->. apply Ne. apply edge_eq; auto.
      - exists e1. split; [exact I1|]. split; [exact V1|]. intros ->. congruence. }
    destruct X as (e & I & Iv & Nf). destruct (Forall2_left _ _ _ F e I) as (e' & I' & (_ & _ & Nd & _ & K)). exists e'. split; [exact I'|].
    destruct (j_ends _ _ _ J e I) as (a & b & Q & Ia & Ib).
    assert (Lost : forall w, final e w -> exists u, In u (e_ends e) /\ u <> v /\ stands_for tol c0 c1 u w).
    { intros w (_ & u & Iu & Ku). exists u. split; [exact Iu|]. destruct Ku as [[-> N]|[Wu Fu]].
      - split; [intros ->; exact (N t W)|right; auto].
      - split; [intros ->; apply Nf; exact (first_unique v e e0 Fu Fw)|left; exact Wu]. }
    rewrite Q in Iv.
    assert (One : exists u, forall w, final e w -> stands_for tol c0 c1 u w).
    { destruct Iv as [<-|[<-|[]]]; [exists b|exists a]; intros w Kw; destruct (Lost w Kw) as (u & Iu & Nu & S); rewrite Q in Iu; destruct Iu as [<-|[<-|[]]]; auto; contradiction. }
    destruct One as (u & Hu). destruct (e_ends e') as [|x [|y l]] eqn:Qe; [simpl; lia|simpl; lia|exfalso].
    assert (Sx := Hu x (proj1 (K x) (or_introl eq_refl))). assert (Sy := Hu y (proj1 (K y) (or_intror (or_introl eq_refl)))).
    inversion Nd as [|? ? N1 _]; subst. apply N1. left. rewrite (stands_unique u x y Sx Sy). reflexivity.
  Qed.
End Union.
