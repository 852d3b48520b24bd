(** * Membership of shapes, immersed shapes, intervals: C68, C37, C45 *)
From Coq Require Import List Arith ZArith Bool Lia Permutation Sorted.
From Verif Require Import Base BaseProof ShapeModel ShapeSpec ShapeProof DomProof BoxProof.
Import ListNotations.

Section Member.
  Context {P : Type}.
  Variable pclose : P -> P -> bool.
  Notation shape := (shape P).

  Lemma graded_children (s : shape) : graded s -> forall c, In c (s_boundary s) -> S (s_dim c) = s_dim s /\ graded c.
  Proof.
    destruct s as [k t ph p b i]. unfold s_dim at 2. cbn [graded s_boundary s_kind]. intros [_ H]. induction b as [|x b IH]; intros c Hc; [destruct Hc|].
    cbn [map fold_right] in H. destruct H as [Hx H]. destruct Hc as [<-|Hc]; auto.
  Qed.
  Lemma graded_point (s : shape) : graded s -> s_dim s = 0 -> exists p, s_point s = Some p.
  Proof. intros G D. apply dim0 in D. destruct s as [k t ph [p|] b i]; simpl in *; [eauto|]. destruct G as [G _]. destruct (G D). reflexivity. Qed.
  Lemma plain_immersed' (s : shape) : plain s -> s_dim s <> 0 -> immersed s = [] /\ forall c, In c (s_boundary s) -> plain c.
  Proof. intros H D. destruct (plain_immersed s H D) as [A B]. split; auto. apply Forall_forall. auto. Qed.

  (** comparing raises nothing *)
  Lemma eq_total fuel : forall s t : shape, depth s <= fuel -> plain s -> plain t -> graded s -> graded t -> s_dim s = s_dim t ->
    exists b, shape_eq pclose fuel s t = Ok b.
  Proof.
    induction fuel as [|fuel IH]; intros s t Hf Ps Pt Gs Gt D; [destruct s; simpl in Hf; lia|].
    destruct (Nat.eq_dec (s_dim s) 0) as [Z0|N0].
    - destruct (graded_point s Gs Z0) as (p & Ep). destruct (graded_point t Gt) as (q & Eq); [congruence|].
      cbn [shape_eq]. rewrite (proj1 (dim0 s) Z0), Ep, Eq. eauto.
    - assert (Nt : s_dim t <> 0) by congruence.
      destruct (plain_immersed' s Ps N0) as [Is Cs]. destruct (plain_immersed' t Pt Nt) as [It Ct].
      assert (M : forall l l', (forall c, In c l -> In c (s_boundary s)) -> (forall c, In c l' -> In c (s_boundary t)) ->
        exists q, mapM (fun p => shape_eq pclose fuel (fst p) (snd p)) (combine l l') = Ok q).
      { induction l as [|x l IHl]; intros [|y l'] Hl Hl'; simpl; eauto.
        assert (Hx := Hl x (or_introl eq_refl)). assert (Hy := Hl' y (or_introl eq_refl)).
        destruct (graded_children s Gs x Hx) as [Dx Gx]. destruct (graded_children t Gt y Hy) as [Dy Gy].
        destruct (IH x y) as (b & Eb); auto; [assert (depth x < depth s) by (apply depth_child; auto); lia|lia|].
        rewrite Eb. cbn [bind]. destruct (IHl l') as (q & Eq); [intros; apply Hl; right; auto|intros; apply Hl'; right; auto|]. rewrite Eq. cbn [bind]. eauto. }
      destruct (M (s_boundary s) (s_boundary t)) as (q & Eq); auto.
      cbn [shape_eq]. rewrite Is, It, Eq. destruct (s_kind s) eqn:Ks; [destruct N0; apply dim0; exact Ks|..];
        (destruct (negb (length (s_boundary s) =? 0) && (length (s_boundary s) =? length (s_boundary t))); cbn; eauto).
  Qed.

  Lemma count_one (Q : shape -> Prop) (dec : shape -> bool) : (forall c, dec c = true <-> Q c) -> forall l,
    length (filter dec l) = 1 <-> exists l1 c l2, l = l1 ++ c :: l2 /\ Q c /\ forall d, In d (l1 ++ l2) -> ~ Q d.
  Proof.
    intros HQ. assert (Z : forall l, length (filter dec l) = 0 <-> forall d, In d l -> ~ Q d).
    { induction l as [|x l IH]; simpl; [split; auto; intros _ d []|]. destruct (dec x) eqn:E.
      - split; [discriminate|]. intros H. destruct (H x); auto. apply HQ. auto.
      - rewrite IH. split; [|auto]. intros H d [<-|Hd]; auto. intros q. apply HQ in q. congruence. }
    induction l as [|x l IH]; simpl.
    - split; [discriminate|]. intros (l1 & c & l2 & E & _). destruct l1; discriminate.
    - destruct (dec x) eqn:E; simpl.
      + split.
        * intros H. injection H as H. exists [], x, l. split; auto. split; [apply HQ; auto|]. apply Z. auto.
        * intros (l1 & c & l2 & El & Qc & N). f_equal. apply Z. destruct l1 as [|y l1].
          -- injection El as <- <-. exact N.
          -- injection El as <- El. destruct (N x); [left; auto|]. apply HQ. auto.
      + rewrite IH. split.
        * intros (l1 & c & l2 & -> & Qc & N). exists (x :: l1), c, l2. split; auto. split; auto. intros d [<-|Hd]; auto. intros q. apply HQ in q. congruence.
        * intros (l1 & c & l2 & El & Qc & N). destruct l1 as [|y l1].
          -- injection El as <- <-. apply HQ in Qc. congruence.
          -- injection El as <- ->. exists l1, c, l2. split; auto. split; auto. intros d Hd. apply N. right. auto.
  Qed.

  Lemma once_lemma fuel (l : list shape) other : (forall c, In c l -> depth c <= fuel /\ plain c /\ graded c) -> plain other -> graded other -> uniform l other ->
    exists b, (if existsb (fun c => (s_dim c =? s_dim other)%nat && (s_tag c =? s_tag other)%Z) l
               then do q <- mapM (fun c => shape_eq pclose fuel c other) l; Ok (length (filter (fun b => b) q) =? 1)%nat else Ok false) = Ok b /\
      (b = true <-> exactly_one pclose l other).
  Proof.
    intros Hl Po Go U. destruct (existsb _ l) eqn:E.
    - assert (D : forall c, In c l -> s_dim c = s_dim other).
      { destruct U as [U|U]; auto. apply existsb_exists in E as (c & Hc & E). apply andb_true_iff in E as [E _]. apply Nat.eqb_eq in E. destruct (U c Hc E). }
      set (dec := fun c => match shape_eq pclose fuel c other with Ok b => b | Err _ => false end).
      assert (M : mapM (fun c => shape_eq pclose fuel c other) l = Ok (map dec l)).
      { clear U E. induction l as [|x l IH]; auto. cbn [mapM map]. destruct (Hl x (or_introl eq_refl)) as (H1 & H2 & H3).
        destruct (eq_total fuel x other H1 H2 Po H3 Go (D x (or_introl eq_refl))) as (b & Eb). unfold dec at 1. rewrite Eb. cbn [bind].
        rewrite IH by (intros; try apply Hl; try apply D; right; auto). reflexivity. }
      rewrite M. cbn [bind]. eexists. split; [reflexivity|].
      assert (L : length (filter (fun b => b) (map dec l)) = length (filter dec l)).
      { clear. induction l as [|x l IH]; auto. simpl. destruct (dec x); simpl; auto. }
      rewrite L, Nat.eqb_eq. unfold exactly_one.
      assert (Q : forall c, In c l -> (dec c = true <-> same pclose c other)).
      { intros c Hc. destruct (Hl c Hc) as (H1 & H2 & H3). rewrite <- (equality_lemma pclose fuel c other H1 H2). unfold dec. destruct (shape_eq pclose fuel c other); split; congruence. }
      (* restrict to the members of l *)
      clear - Q. revert Q. assert (G : forall l', (forall c, In c l' -> In c l) -> (forall c, In c l -> (dec c = true <-> same pclose c other)) ->
        (length (filter dec l') = 1 <-> exists l1 c l2, l' = l1 ++ c :: l2 /\ same pclose c other /\ forall d, In d (l1 ++ l2) -> ~ same pclose d other)).
      { intros l' Hi Q. rewrite (count_one (fun c => dec c = true) dec (fun c => iff_refl _) l'). split; intros (l1 & c & l2 & -> & Qc & N); exists l1, c, l2; (split; [reflexivity|]).
        - split; [apply Q; auto; apply Hi, in_or_app; right; left; auto|]. intros d Hd S. apply (N d Hd). apply Q; auto. apply Hi. apply in_app_or in Hd as [|]; apply in_or_app; simpl; auto.
        - split; [apply Q; auto; apply Hi, in_or_app; right; left; auto|]. intros d Hd S. apply (N d Hd). apply Q; auto. apply Hi. apply in_app_or in Hd as [|]; apply in_or_app; simpl; auto. }
      apply G. auto.
    - exists false. split; auto. split; [discriminate|]. intros (l1 & c & l2 & -> & S & _). exfalso.
      assert (X : existsb (fun c => (s_dim c =? s_dim other)%nat && (s_tag c =? s_tag other)%Z) (l1 ++ c :: l2) = true).
      { apply existsb_exists. exists c. split; [apply in_or_app; right; left; auto|]. inversion S; subst; [|]; apply andb_true_iff; split; try (apply Nat.eqb_eq; congruence); apply Z.eqb_eq; auto. }
      congruence.
  Qed.

  Lemma contains_lemma fuel (s other : shape) :
    (forall c, child s c -> depth c <= fuel /\ plain c /\ graded c) -> plain other -> graded other -> uniform (s_boundary s) other -> uniform (immersed s) other ->
    exists b, contains pclose fuel s other = Ok b /\ (b = true <-> exactly_one pclose (s_boundary s) other \/ exactly_one pclose (immersed s) other).
  Proof.
    intros Hc Po Go U1 U2.
    destruct (once_lemma fuel (s_boundary s) other) as (b & Eb & Qb); auto; [intros c H; apply Hc; left; auto|].
    destruct (once_lemma fuel (immersed s) other) as (i & Ei & Qi); auto; [intros c H; apply Hc; right; auto|].
    exists (b || i). split.
    - unfold contains. rewrite Eb. cbn [bind]. rewrite Ei. reflexivity.
    - rewrite orb_true_iff, Qb, Qi. tauto.
  Qed.

  Lemma exactly_one_distinct (l : list shape) other : NoDup (map s_tag l) -> (exactly_one pclose l other <-> exists c, In c l /\ same pclose c other).
  Proof.
    intros N. split.
    - intros (l1 & c & l2 & -> & S & _). exists c. split; auto. apply in_or_app. right. left. auto.
    - intros (c & Hc & S). apply in_split in Hc as (l1 & l2 & ->). exists l1, c, l2. split; auto. split; auto. intros d Hd S'.
      rewrite map_app in N. cbn [map] in N. apply NoDup_remove_2 in N. apply N. rewrite <- map_app.
      assert (T : forall x, same pclose x other -> s_tag x = s_tag other) by (intros x Sx; inversion Sx; auto).
      rewrite (T c S), <- (T d S'). apply in_map. auto.
  Qed.
  Lemma member_lemma fuel (s other : shape) :
    (forall c, child s c -> depth c <= fuel /\ plain c /\ graded c) -> plain other -> graded other -> uniform (s_boundary s) other -> uniform (immersed s) other ->
    NoDup (map s_tag (s_boundary s)) -> NoDup (map s_tag (immersed s)) ->
    exists b, contains pclose fuel s other = Ok b /\ (b = true <-> exists c, child s c /\ same pclose c other).
  Proof.
    intros Hc Po Go U1 U2 N1 N2. destruct (contains_lemma fuel s other Hc Po Go U1 U2) as (b & E & Q). exists b. split; auto. rewrite Q.
    rewrite (exactly_one_distinct _ _ N1), (exactly_one_distinct _ _ N2). unfold child. split.
    - intros [(c & A & B)|(c & A & B)]; eauto.
    - intros (c & [A|A] & B); eauto.
  Qed.

  (** immersed shapes: the setter of immersed_shapes *)
  Lemma immersed_lemma (s : shape) (shapes : list shape) :
    (Forall (admissible s) shapes -> exists s', set_immersed s shapes = Ok s' /\ s_embedded s' = shapes /\
       s_kind s' = s_kind s /\ s_tag s' = s_tag s /\ s_phys s' = s_phys s /\ s_point s' = s_point s /\ s_boundary s' = s_boundary s /\
       (s_kind s <> Wire \/ Forall (fun c => immersed c = []) shapes -> immersed s' = shapes)) /\
    (~ Forall (admissible s) shapes -> set_immersed s shapes = Err ValueError).
  Proof.
    unfold set_immersed.
    assert (Q : forallb (fun c => memb (s_dim c) (admissible_dimensions (s_kind s))) shapes = true <-> Forall (admissible s) shapes).
    { rewrite forallb_forall, Forall_forall. split; intros H x Hx; apply admissible_memb, H; auto. }
    split; intros H.
    - apply Q in H. rewrite H. eexists. split; [reflexivity|]. cbn [s_embedded s_kind s_tag s_phys s_point s_boundary]. repeat (split; [reflexivity|]).
      intros K. cbn [immersed]. destruct (s_kind s) eqn:E; auto. destruct K as [K|K]; [congruence|]. clear - K.
      induction K as [|c l Hc K IH]; auto. cbn [flat_map]. rewrite Hc. cbn [app]. f_equal. exact IH.
    - destruct (forallb _ shapes); auto. destruct H. apply Q. auto.
  Qed.
End Member.

Lemma graph_arg {P} dimension fuel (D : domain P) arg d shapes : arg = Some d \/ (arg = None /\ d = dimension) ->
  nth_error D d = Some shapes -> Forall (fun s => depth s <= fuel) shapes ->
  exists g, build_graph dimension fuel D arg = Ok g /\
    (forall a b, In (a, b) (g_edges g) <-> exists s t c, In s shapes /\ reach s t /\ child t c /\ a = s_index dimension t /\ b = s_index dimension c) /\
    (forall x, In x (g_nodes g) <-> (exists y, In (x, y) (g_edges g) \/ In (y, x) (g_edges g)) \/
                                    (d = 0 /\ g_edges g = [] /\ exists s, In s shapes /\ x = s_index dimension s)).
Proof. intros [->|[-> ->]]; exact (graph_lemma dimension fuel D _ shapes). Qed.

Section Interval.
  Context {P : Type}.
  Variable argsort : list Z -> list nat.
  Hypothesis argsort_ok : is_argsort argsort.
  Notation shape := (shape P).

  Lemma box_1D_lemma fuel p q (rest : list P) line bc_0 bc_1 : 2 <= fuel -> let n := S (S (length rest)) in
    exists a b others e g, build_box_1D argsort fuel (p :: q :: rest) line bc_0 bc_1 = Ok ([a :: b :: others; [e]], g) /\
      (Forall is_vertex (a :: b :: others) /\ map s_point (a :: b :: others) = map Some (p :: q :: rest) /\
       map s_tag (a :: b :: others) = map Z.of_nat (seq 0 n) /\ map s_phys (a :: b :: others) = bc_0 :: bc_1 :: repeat None (length rest)) /\
      (s_kind e = Edge /\ s_tag e = 0%Z /\ s_phys e = line /\ s_boundary e = [a; b] /\ immersed e = []) /\
      (forall x y, In (x, y) (g_edges g) <-> (x, y) = ((0, 0), (1, 0))%Z \/ (x, y) = ((0, 0), (1, 1))%Z).
  Proof.
    intros Hf n. set (others := map (fun c => new_vertex (Z.of_nat (fst c)) (snd c)) (combine (seq 2 (length rest)) rest)).
    set (a := set_physical (new_vertex 0 p) bc_0). set (b := set_physical (new_vertex 1 q) bc_1).
    set (e := mk_shape Edge 0%Z line None [a; b] [] : shape).
    assert (Ve : Forall is_vertex (a :: b :: others)).
    { constructor; [split; [reflexivity|discriminate]|]. constructor; [split; [reflexivity|discriminate]|].
      apply Forall_forall. intros v Hv. apply in_map_iff in Hv as (i & <- & _). split; [reflexivity|discriminate]. }
    assert (D0 : append_shapes (empty_domain 1) (a :: b :: others) = Ok [a :: b :: others; []]).
    { rewrite (append_ok (empty_domain 1) _ 0); [reflexivity| |simpl; lia]. eapply Forall_impl; [|exact Ve]. intros v [K _]. unfold s_dim. rewrite K. reflexivity. }
    destruct (graph_lemma 1 fuel [a :: b :: others; [e]] 1 [e] eq_refl) as (g & Eg & Ag & _).
    { constructor; [exact Hf|constructor]. }
    exists a, b, others, e, g. split; [|split; [|split]].
    - unfold build_box_1D. cbn [length seq combine map fst snd get_at nth_error bind set_at].
      fold others. change (Z.of_nat 0) with 0%Z. change (Z.of_nat 1) with 1%Z. fold a b. rewrite D0. cbn [bind].
      unfold new_edge. rewrite (boundary_id argsort argsort_ok).
      + cbn [bind]. rewrite (append_ok _ _ 1); [|repeat constructor|simpl; lia]. cbn [bind set_at nth app].
        unfold build_graph in *. exact (f_equal (fun r => do g <- r; Ok ([a :: b :: others; [e]], g)) Eg).
      + repeat constructor; unfold admissible; simpl; lia.
      + repeat constructor.
    - split; [exact Ve|]. assert (L : length (seq 2 (length rest)) = length rest) by apply seq_length. split; [|split].
      + cbn [map]. f_equal. f_equal. unfold others. rewrite map_map. cbn [new_vertex new_shape s_point]. clear - L. revert L. generalize (seq 2 (length rest)). 
        induction rest as [|x l IH]; intros [|k s] L; try discriminate; auto. cbn [combine map snd]. f_equal. apply IH. injection L. auto.
      + unfold n. cbn [map seq]. f_equal. f_equal. unfold others. rewrite map_map. cbn [new_vertex new_shape s_tag]. clear - L. revert L. generalize (seq 2 (length rest)).
        induction rest as [|x l IH]; intros [|k s] L; try discriminate; auto. cbn [combine map fst]. f_equal. apply IH. injection L. auto.
      + cbn [map]. f_equal. f_equal. unfold others. rewrite map_map. cbn [new_vertex new_shape s_phys]. clear - L. revert L. generalize (seq 2 (length rest)).
        induction rest as [|x l IH]; intros [|k s] L; try discriminate; auto. cbn [combine map repeat length]. f_equal. apply IH. injection L. auto.
    - repeat split.
    - intros x y. rewrite Ag. split.
      + intros (s & t & c & [<-|[]] & R & C & -> & ->). assert (t = e).
        { clear C. induction R as [|t c' R IH C' N]; auto. subst t. destruct C' as [[<-|[<-|[]]]|[]]; destruct N; reflexivity. }
        subst t. destruct C as [[<-|[<-|[]]]|[]]; auto.
      + intros [Q|Q]; injection Q as -> ->.
        * exists e, e, a. split; [left; auto|]. split; [constructor|]. split; [left; left; auto|]. split; reflexivity.
        * exists e, e, b. split; [left; auto|]. split; [constructor|]. split; [left; right; left; auto|]. split; reflexivity.
  Qed.
End Interval.
