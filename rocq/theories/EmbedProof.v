(** * Proofs about embed_vertex_in_edge *)
From Coq Require Import List Arith ZArith Bool Reals Lra Lia Permutation Sorted.
From Verif Require Import Base BaseProof VecBase VecProof GeoModel GeoSpec GeoProof VertexModel ShapeSpec VertexSpec EmbedModel EmbedSpec.
Import ListNotations.
Local Open Scope nat_scope.

(** ** Order of points *)
Lemma R_compare_spec x y : match R_compare x y with Lt => (x < y)%R | Gt => (y < x)%R | Eq => x = y end.
Proof.
  unfold R_compare. destruct (Rltb x y) eqn:E; [apply Rltb_true in E; auto|]. destruct (Rltb y x) eqn:F; [apply Rltb_true in F; auto|].
  apply Rltb_false in E. apply Rltb_false in F. lra.
Qed.
Lemma vec_compare_spec p q : match vec_compare p q with Lt => lex p q | Gt => lex q p | Eq => p = q end.
Proof.
  unfold vec_compare, lex. pose proof (R_compare_spec (vx p) (vx q)) as X. destruct (R_compare (vx p) (vx q)); auto.
  pose proof (R_compare_spec (vy p) (vy q)) as Y. destruct (R_compare (vy p) (vy q)); auto.
  pose proof (R_compare_spec (vz p) (vz q)) as Z. destruct (R_compare (vz p) (vz q)); auto 6. apply vec_ext; auto.
Qed.
Lemma lex_trans p q r : lex p q -> lex q r -> lex p r.
Proof. unfold lex. intros [|(? & [|(? & ?)])] [|(? & [|(? & ?)])]; try (left; lra); right; split; try lra; try (left; lra); right; split; lra. Qed.
Lemma lex_irrefl p : ~ lex p p.
Proof. unfold lex. intros [|(? & [|(? & ?)])]; lra. Qed.

Lemma insert_point_spec p i l : StronglySorted lex (map fst l) ->
  StronglySorted lex (map fst (insert_point p i l)) /\
  (forall q j, In (q, j) (insert_point p i l) <-> In (q, j) l \/ (q = p /\ j = i /\ ~ In p (map fst l))).
Proof.
  induction l as [|[q j] l IH]; intros S; cbn [insert_point map fst].
  - split; [repeat constructor|]. intros q j. split; [intros [[= <- <-]|[]]; auto|intros [[]|(-> & -> & _)]; left; auto].
  - inversion S as [|? ? S' F]; subst. rewrite Forall_forall in F. pose proof (vec_compare_spec p q) as C. destruct (vec_compare p q).
    + subst q. split; [exact S|]. intros r k. split; [auto|]. intros [H|(-> & -> & N)]; auto. exfalso. apply N. left. reflexivity.
    + assert (NI : ~ In p (q :: map fst l)).
      { intros [->|H]; [apply (lex_irrefl p); auto|]. apply (lex_irrefl p). eapply lex_trans; [exact C|]. apply F. auto. }
      split.
      * cbn [map fst]. constructor; [exact S|]. constructor; auto. apply Forall_forall. intros x Hx. eapply lex_trans; [exact C|apply F; auto].
      * intros r k. split; [intros [[= <- <-]|H]; auto 6|]. intros [H|(-> & -> & _)]; [right; auto|left; auto].
    + destruct (IH S') as (I1 & I2). split.
      * cbn [map fst]. constructor; auto. apply Forall_forall. intros x Hx. apply in_map_iff in Hx as ([y k] & <- & Hy). apply I2 in Hy as [Hy|(-> & -> & _)]; auto.
        apply F. apply in_map_iff. exists (y, k). auto.
      * intros r k. split.
        -- intros [[= <- <-]|H]; [left; left; auto|]. apply I2 in H as [H|(-> & -> & N)]; [left; right; auto|]. right. repeat split; auto.
           intros [->|H]; auto. apply (lex_irrefl p). auto.
        -- intros [[[= <- <-]|H]|(-> & -> & N)]; [left; auto|right; apply I2; auto|]. right. apply I2. right. repeat split; auto. intros H. apply N. right. auto.
Qed.
Lemma nth_error_numbered {A} (l : list A) s i x : In (i, x) (combine (seq s (length l)) l) <-> s <= i /\ nth_error l (i - s) = Some x.
Proof.
  revert s. induction l as [|y l IH]; intros s; cbn [length seq combine].
  - split; [intros []|]. intros (_ & H). destruct (i - s); discriminate.
  - split.
    + intros [[= <- <-]|H]; [rewrite Nat.sub_diag; auto|]. apply IH in H as (H1 & H2). split; [lia|]. replace (i - s) with (S (i - S s)) by lia. auto.
    + intros (H1 & H2). destruct (Nat.eq_dec s i) as [->|N]; [rewrite Nat.sub_diag in H2; injection H2 as ->; left; auto|].
      right. apply IH. split; [lia|]. replace (i - s) with (S (i - S s)) in H2 by lia. auto.
Qed.
Definition firsts (pts : list vec) (l : list (vec * nat)) : Prop :=
  StronglySorted lex (map fst l) /\
  forall p i, In (p, i) l <-> nth_error pts i = Some p /\ forall j, nth_error pts j = Some p -> i <= j.
Lemma firsts_step pts l p : firsts pts l -> firsts (pts ++ [p]) (insert_point p (length pts) l).
Proof.
  intros (S & F). destruct (insert_point_spec p (length pts) l S) as (I1 & I2). split; auto. intros q i. rewrite I2. split.
  - intros [H|(-> & -> & N)].
    + apply F in H as (H1 & H2). assert (i < length pts) by (apply nth_error_Some; congruence). split; [rewrite nth_error_app1; auto|].
      intros j Hj. destruct (Nat.lt_ge_cases j (length pts)); [rewrite nth_error_app1 in Hj; auto|lia].
    + split; [rewrite nth_error_app2, Nat.sub_diag; auto|]. intros j Hj. destruct (Nat.lt_ge_cases j (length pts)); [|auto]. rewrite nth_error_app1 in Hj by auto. exfalso.
      assert (H0 : exists i, nth_error pts i = Some p /\ forall j, nth_error pts j = Some p -> i <= j).
      { clear - Hj. revert j Hj. induction pts as [|q pts IH]; intros [|j] Hj; try discriminate.
        - exists 0. split; auto. lia.
        - simpl in Hj. destruct (IH _ Hj) as (i & Hi & M). destruct (vec_compare q p) eqn:E.
          + pose proof (vec_compare_spec q p) as C. rewrite E in C. subst q. exists 0. split; auto. lia.
          + exists (S i). split; auto. intros [|k] Hk; [|apply le_n_S; auto]. injection Hk as ->. pose proof (vec_compare_spec p p) as C. rewrite E in C. apply lex_irrefl in C. tauto.
          + exists (S i). split; auto. intros [|k] Hk; [|apply le_n_S; auto]. injection Hk as ->. pose proof (vec_compare_spec p p) as C. rewrite E in C. apply lex_irrefl in C. tauto. }
      destruct H0 as (i & Hi). apply F in Hi. apply N. apply in_map_iff. exists (p, i). auto.
  - intros (H1 & H2). destruct (Nat.lt_ge_cases i (length pts)) as [L|L].
    + left. apply F. rewrite nth_error_app1 in H1 by auto. split; auto. intros j Hj. apply H2. rewrite nth_error_app1; auto. apply nth_error_Some. congruence.
    + right. assert (i = length pts). { assert (i < length (pts ++ [p])) by (apply nth_error_Some; congruence). rewrite app_length in *. simpl in *. lia. }
      subst i. rewrite nth_error_app2, Nat.sub_diag in H1 by lia. simpl in H1. injection H1 as ->. repeat split; auto. intros H. apply in_map_iff in H as ([x i] & <- & H). simpl in *. apply F in H as (H & _).
      assert (i < length pts) by (apply nth_error_Some; congruence). specialize (H2 i). rewrite nth_error_app1 in H2 by auto. apply H2 in H. lia.
Qed.
Lemma firsts_fold pts : forall pre l, firsts pre l ->
  firsts (pre ++ pts) (fold_left (fun l p => insert_point (snd p) (fst p) l) (combine (seq (length pre) (length pts)) pts) l).
Proof.
  induction pts as [|p pts IH]; intros pre l F; cbn [length seq combine fold_left]; [rewrite app_nil_r; auto|].
  replace (pre ++ p :: pts) with ((pre ++ [p]) ++ pts) by (rewrite <- app_assoc; auto).
  replace (S (length pre)) with (length (pre ++ [p])) by (rewrite app_length; simpl; lia). apply IH. apply firsts_step. auto.
Qed.
Lemma firsts_all pts : firsts pts (fold_left (fun l p => insert_point (snd p) (fst p) l) (combine (seq 0 (length pts)) pts) []).
Proof.
  apply (firsts_fold pts [] []). split; [constructor|]. intros p i. split; [intros []|]. intros (H & _). destruct i; discriminate.
Qed.

(** ** The heap *)
Lemma vpoint_live h x : x < length h -> vpoint h x = Ok (pt h x).
Proof. intros L. unfold vpoint, get_at, pt. destruct (nth_error h x) as [v|] eqn:E; [|apply nth_error_None in E; lia]. rewrite (nth_error_nth _ _ _ E). reflexivity. Qed.
Lemma vtag_live h x : x < length h -> vtag h x = Ok (tg h x).
Proof. intros L. unfold vtag, get_at, tg. destruct (nth_error h x) as [v|] eqn:E; [|apply nth_error_None in E; lia]. rewrite (nth_error_nth _ _ _ E). reflexivity. Qed.
Definition moved (h : heap) (x : nat) (f : vec -> vec) : heap := set_at h x (tg h x, f (pt h x)).
Lemma move_live h x f : x < length h -> move h x f = Ok (moved h x f).
Proof.
  intros L. unfold move, moved, get_at, tg, pt. destruct (nth_error h x) as [v|] eqn:E; [|apply nth_error_None in E; lia]. rewrite (nth_error_nth _ _ _ E). reflexivity.
Qed.
Lemma nth_set_at {A} (l : list A) i v d j : i < length l -> nth j (set_at l i v) d = if (j =? i)%nat then v else nth j l d.
Proof.
  revert i j. induction l as [|x l IH]; intros [|i] j L; simpl in *; try lia; destruct j; simpl; auto. apply IH. lia.
Qed.
Lemma length_moved h x f : length (moved h x f) = length h.
Proof. apply length_set_at. Qed.
Lemma pt_moved h x f y : x < length h -> pt (moved h x f) y = if (y =? x)%nat then f (pt h x) else pt h y.
Proof. intros L. unfold pt at 1, moved. rewrite nth_set_at by auto. destruct (y =? x); auto. Qed.
Lemma tg_moved h x f y : x < length h -> tg (moved h x f) y = tg h y.
Proof. intros L. unfold tg at 1, moved. rewrite nth_set_at by auto. destruct (y =? x) eqn:E; auto. apply Nat.eqb_eq in E as ->. auto. Qed.
Lemma heap_ext (h h' : heap) : length h = length h' -> (forall x, pt h x = pt h' x) -> (forall x, tg h x = tg h' x) -> h = h'.
Proof.
  intros L Hp Ht. apply nth_ext with (d := (0%Z, vzero)) (d' := (0%Z, vzero)); auto. intros n _. specialize (Hp n). specialize (Ht n). unfold pt, tg in *.
  destruct (nth n h _), (nth n h' _). simpl in *. congruence.
Qed.
Lemma vsub_vadd p t : vadd (vsub p t) t = p.
Proof. apply vec_ext; unfold vadd, vsub; cbn [vx vy vz]; ring. Qed.
Lemma moved_back h x t : x < length h -> moved (moved h x (fun p => vsub p t)) x (fun p => vadd p t) = h.
Proof.
  intros L. apply heap_ext; [rewrite !length_moved; auto| |].
  - intros y. rewrite !pt_moved by (rewrite ?length_moved; auto). rewrite Nat.eqb_refl. destruct (y =? x) eqn:E; auto. apply Nat.eqb_eq in E as ->. apply vsub_vadd.
  - intros y. rewrite !tg_moved by (rewrite ?length_moved; auto). auto.
Qed.
(** both ends moved to and fro *)
Definition shifted (h : heap) (a b : nat) : heap := moved (moved h a (fun p => vsub p (pt h a))) b (fun p => vsub p (pt h a)).
Lemma moved_back2 h a b t : a < length h -> b < length h ->
  moved (moved (moved (moved h a (fun p => vsub p t)) b (fun p => vsub p t)) a (fun p => vadd p t)) b (fun p => vadd p t) = h.
Proof.
  intros La Lb. apply heap_ext; [rewrite !length_moved; auto| |].
  - intros y. rewrite !pt_moved by (rewrite ?length_moved; auto). rewrite !Nat.eqb_refl.
    destruct (y =? b) eqn:E1, (y =? a) eqn:E2, (b =? a) eqn:E3, (a =? b) eqn:E4;
      repeat match goal with H : (_ =? _)%nat = true |- _ => apply Nat.eqb_eq in H | H : (_ =? _)%nat = false |- _ => apply Nat.eqb_neq in H end; subst; try congruence; try lia;
      try reflexivity; try apply vsub_vadd; apply vec_ext; unfold vadd, vsub; cbn [vx vy vz]; ring.
  - intros y. rewrite !tg_moved by (rewrite ?length_moved; auto). auto.
Qed.

(** ** Nearness *)
Lemma isclose_default_iff x y : isclose_default x y = true <-> near x y.
Proof. unfold isclose_default, near. apply Rleb_true. Qed.
Lemma allclose_default_iff p q : allclose_default p q = true <-> near_point p q.
Proof. unfold allclose_default, near_point. rewrite !andb_true_iff, !isclose_default_iff. tauto. Qed.
Lemma near_refl p : near_point p p.
Proof. unfold near_point, near. rewrite !Rminus_diag_eq, Rabs_R0 by auto. pose proof (Rabs_pos (vx p)). pose proof (Rabs_pos (vy p)). pose proof (Rabs_pos (vz p)). repeat split; lra. Qed.

(** ** The vertices at the ends *)
Lemma on_boundary_spec h p x y : x < length h -> y < length h -> point_on_edge_boundary h p [x; y] =
  Ok (if allclose_default p (pt h x) then Some 0 else if allclose_default p (pt h y) then Some 1 else None).
Proof.
  intros Lx Ly. unfold point_on_edge_boundary, close_to_ends. cbn [mapM]. rewrite !vpoint_live by auto. cbn [bind get_at nth_error].
  destruct (allclose_default p (pt h x)); auto. cbn. destruct (allclose_default p (pt h y)); auto.
Qed.
Lemma bc_step_spec h x y on iv : x < length h -> y < length h -> snd iv < length h -> bc_step h ([x; y], on) iv =
  Ok (if allclose_default (pt h (snd iv)) (pt h x) then ([snd iv; y], on ++ [fst iv])
      else if allclose_default (pt h (snd iv)) (pt h y) then ([x; snd iv], on ++ [fst iv]) else ([x; y], on)).
Proof.
  intros Lx Ly Lv. unfold bc_step, embed_vertex_in_edge_boundary. rewrite vpoint_live by auto. cbn [bind]. rewrite on_boundary_spec by auto. cbn [bind].
  destruct (allclose_default (pt h (snd iv)) (pt h x)); [reflexivity|]. destruct (allclose_default (pt h (snd iv)) (pt h y)); reflexivity.
Qed.
(** the loop always ends with two ends *)
Lemma bc_total h : forall l x y on, x < length h -> y < length h -> (forall iv, In iv l -> snd iv < length h) ->
  exists x' y' on', foldM (bc_step h) l ([x; y], on) = Ok ([x'; y'], on') /\ x' < length h /\ y' < length h.
Proof.
  induction l as [|iv l IH]; intros x y on Lx Ly L; [exists x, y, on; auto|]. cbn [foldM]. rewrite bc_step_spec by (auto; apply L; left; auto). cbn [bind].
  assert (L0 : snd iv < length h) by (apply L; left; auto). assert (L1 : forall iv, In iv l -> snd iv < length h) by (intros; apply L; right; auto).
  destruct (allclose_default (pt h (snd iv)) (pt h x)); [auto|]. destruct (allclose_default (pt h (snd iv)) (pt h y)); auto.
Qed.

(** ** The loop over the norms *)
Definition accepts (h : heap) (t : vec) (ra rb : R) (on : list nat) (iv : nat * nat) : bool :=
  negb (memb (fst iv) on) &&
  (Rltb ra (norm (vsub (pt h (snd iv)) t)) && Rltb (norm (vsub (pt h (snd iv)) t)) rb &&
   (negb (isclose_default (norm (vsub (pt h (snd iv)) t)) ra) && negb (isclose_default (norm (vsub (pt h (snd iv)) t)) rb))).
Lemma norm_loop h t ra rb on : forall l valid norms, (forall iv, In iv l -> snd iv < length h) ->
  foldM (norm_step t ra rb on) l (h, valid, norms) =
  Ok (h, valid ++ map fst (filter (accepts h t ra rb on) l), norms ++ map (fun iv => norm (vsub (pt h (snd iv)) t)) (filter (accepts h t ra rb on) l)).
Proof.
  induction l as [|iv l IH]; intros valid norms L; cbn [foldM filter map]; [rewrite !app_nil_r; reflexivity|].
  assert (L0 : snd iv < length h) by (apply L; left; auto). assert (L1 : forall iv, In iv l -> snd iv < length h) by (intros; apply L; right; auto).
  unfold norm_step at 1. destruct (accepts h t ra rb on iv) eqn:A; unfold accepts in A; (destruct (memb (fst iv) on) eqn:M; cbn [negb andb bind] in A |- *; [try discriminate; apply IH; auto|]);
  rewrite move_live by auto; cbn [bind]; rewrite vpoint_live by (rewrite length_moved; auto); cbn [bind]; rewrite pt_moved, Nat.eqb_refl by auto;
  rewrite move_live by (rewrite length_moved; auto); cbn [bind]; rewrite moved_back by auto;
  rewrite A; rewrite IH by auto; cbn [map]; rewrite <- ?app_assoc; reflexivity.
Qed.
Lemma get_numbered {A} (l : list A) (f : nat * A -> bool) : mapM (get_at l) (map fst (filter f (combine (seq 0 (length l)) l))) = Ok (map snd (filter f (combine (seq 0 (length l)) l))).
Proof.
  assert (G : forall q, (forall iv, In iv q -> nth_error l (fst iv) = Some (snd iv)) -> mapM (get_at l) (map fst q) = Ok (map snd q)).
  { induction q as [|iv q IH]; intros H; auto. cbn [map mapM]. unfold get_at at 1. rewrite H by (left; auto). cbn [bind]. rewrite IH by (intros; apply H; right; auto). reflexivity. }
  apply G. intros [i x] Hi. apply filter_In in Hi as (Hi & _). apply nth_error_numbered in Hi as (_ & Hi). rewrite Nat.sub_0_r in Hi. auto.
Qed.
