(** * Lemmas about shapes: C37, C38, C39 *)
From Coq Require Import List Arith ZArith Bool Lia Permutation Sorted.
From Verif Require Import Base BaseProof ShapeModel ShapeSpec.
Import ListNotations.

Section ShapeProof.
  Context {P : Type}.
  Variable pclose : P -> P -> bool.
  Variable argsort : list Z -> list nat.
  Hypothesis argsort_ok : is_argsort argsort.

  Definition take_nth (l : list (shape P)) (d : shape P) (perm : list nat) : list (shape P) := map (fun i => nth i l d) perm.
  Lemma take_shapes_ok l d perm : Forall (fun i => i < length l) perm -> take_shapes l perm = Ok (take_nth l d perm).
  Proof.
    intros H. unfold take_shapes, take_nth. apply mapM_Ok_map. intros i Hi. rewrite Forall_forall in H. unfold get_at.
    rewrite (nth_error_nth' l d) by auto. reflexivity.
  Qed.
  Lemma take_nth_perm l d perm : Permutation perm (seq 0 (length l)) -> Permutation (take_nth l d perm) l.
  Proof.
    intros H. unfold take_nth. transitivity (map (fun i => nth i l d) (seq 0 (length l))); [apply Permutation_map; auto|].
    clear H. assert (E : map (fun i => nth i l d) (seq 0 (length l)) = l); [|rewrite E; auto].
    induction l as [|x l IH]; auto. cbn [length seq map nth]. f_equal. rewrite <- seq_shift, map_map. exact IH.
  Qed.
  Lemma sorted_shapes (l : list (shape P)) : exists l', take_shapes l (argsort (map s_tag l)) = Ok l' /\ Permutation l' l /\ StronglySorted Z.le (map s_tag l').
  Proof.
    destruct (argsort_ok (map s_tag l)) as [A1 A2]. rewrite map_length in A1.
    set (d := @mk_shape P Vertex 0%Z None None [] []).
    exists (take_nth l d (argsort (map s_tag l))). split; [|split].
    - apply take_shapes_ok. apply Forall_forall. intros i Hi. apply (Permutation_in _ A1) in Hi. apply in_seq in Hi. lia.
    - apply take_nth_perm; auto.
    - unfold take_nth. rewrite map_map. replace (map (fun i => s_tag (nth i l d)) (argsort (map s_tag l))) with (map (fun i => nth i (map s_tag l) 0%Z) (argsort (map s_tag l))); auto.
      apply map_ext. intros i. change 0%Z with (s_tag d) at 1. apply map_nth.
  Qed.

  Lemma admissible_memb (s c : shape P) : memb (s_dim c) (admissible_dimensions (s_kind s)) = true <-> admissible s c.
  Proof. rewrite memb_In. unfold admissible_dimensions, admissible, s_dim. rewrite in_seq. lia. Qed.

  Lemma boundary_lemma (s : shape P) (shapes : list (shape P)) :
    (Forall (admissible s) shapes -> exists s', set_boundary argsort s shapes = Ok s' /\
       Permutation (s_boundary s') shapes /\ StronglySorted Z.le (map s_tag (s_boundary s')) /\
       s_kind s' = s_kind s /\ s_tag s' = s_tag s /\ s_phys s' = s_phys s /\ s_point s' = s_point s /\ s_embedded s' = s_embedded s) /\
    (~ Forall (admissible s) shapes -> set_boundary argsort s shapes = Err ValueError).
  Proof.
    unfold set_boundary. destruct (sorted_shapes shapes) as (l' & E & Pm & Ss). rewrite E. cbn [bind].
    assert (Q : forallb (fun c => memb (s_dim c) (admissible_dimensions (s_kind s))) l' = true <-> Forall (admissible s) shapes).
    { rewrite forallb_forall, Forall_forall. split; intros H x Hx.
      - apply admissible_memb, H. apply (Permutation_in _ (Permutation_sym Pm)). auto.
      - apply admissible_memb, H. apply (Permutation_in _ Pm). auto. }
    split; intros H.
    - apply Q in H. rewrite H. eexists. split; [reflexivity|]. simpl. repeat split; auto.
    - destruct (forallb _ l') eqn:F; auto. exfalso. apply H, Q. reflexivity.
  Qed.

  (** ** equality *)
  Lemma Forall2_len {A B} (R : A -> B -> Prop) l l' : Forall2 R l l' -> length l = length l'.
  Proof. induction 1; simpl; auto. Qed.
  Lemma list_max_le l n : list_max l <= n <-> Forall (fun k => k <= n) l.
  Proof. apply list_max_le. Qed.
  Lemma depth_child (s c : shape P) : In c (s_boundary s) \/ In c (s_embedded s) -> depth c < depth s.
  Proof.
    destruct s as [k t ph p b i]. simpl. intros H. assert (F : Forall (fun n => n <= list_max (map depth b ++ map depth i)) (map depth b ++ map depth i)) by (apply list_max_le; auto).
    rewrite Forall_forall in F. assert (depth c <= list_max (map depth b ++ map depth i)); [|lia]. apply F. apply in_or_app.
    destruct H; [left|right]; apply in_map; auto.
  Qed.
  Lemma immersed_depth n : forall s c : shape P, depth s <= n -> In c (immersed s) -> depth c < depth s.
  Proof.
    induction n as [|n IH]; intros s c Hn H; [destruct s; simpl in Hn; lia|].
    destruct s as [k t ph p b i]. assert (D : forall c', In c' i -> depth c' < depth (mk_shape k t ph p b i)) by (intros; apply depth_child; auto).
    destruct k; try (apply D; exact H). simpl in H. apply in_flat_map in H as (e & He & Hc). specialize (D e He).
    destruct (immersed e) as [|x l] eqn:E; [destruct Hc as [->|[]]; auto|]. rewrite <- E in Hc. apply IH in Hc; lia.
  Qed.
  Lemma immersed_lt (s c : shape P) : In c (immersed s) -> depth c < depth s.
  Proof. apply immersed_depth with (n := depth s). auto. Qed.

  Lemma dim0 (s : shape P) : s_dim s = 0 <-> s_kind s = Vertex.
  Proof. unfold s_dim. destruct (s_kind s); simpl; split; intros; try discriminate; auto. Qed.

  Lemma all_equal_true (f : shape P * shape P -> res bool) l l' : length l = length l' ->
    ((exists q, mapM f (combine l l') = Ok q /\ forallb (fun b => b) q = true) <-> Forall2 (fun x y => f (x, y) = Ok true) l l').
  Proof.
    revert l'. induction l as [|x l IH]; intros [|y l'] L; simpl in L; try discriminate.
    - simpl. split; eauto.
    - injection L as L. specialize (IH l' L). simpl. split.
      + intros (q & E & A). destruct (f (x, y)) as [b|] eqn:Ef; [|discriminate]. cbn [bind] in E.
        destruct (mapM f (combine l l')) as [q'|]; [|discriminate]. cbn [bind] in E. inversion E; subst. simpl in A. apply andb_true_iff in A as [-> A].
        constructor; auto. apply IH. eauto.
      + intros H. inversion H; subst. apply IH in H5 as (q & E & A). rewrite H3, E. cbn [bind]. exists (true :: q). auto.
  Qed.

  (** what the comparison computes *)
  Lemma shape_eq_true fuel (s t : shape P) : shape_eq pclose (S fuel) s t = Ok true <->
    (s_dim s = 0 /\ s_dim t = 0 /\ s_tag s = s_tag t /\ exists x y, s_point s = Some x /\ s_point t = Some y /\ pclose x y = true) \/
    (s_dim s <> 0 /\ s_dim t = s_dim s /\ s_tag s = s_tag t /\ length (s_boundary s) = length (s_boundary t) /\
     length (immersed s) = length (immersed t) /\ Forall2 (fun x y => shape_eq pclose fuel x y = Ok true) (immersed s) (immersed t) /\
     (immersed s = [] -> Forall2 (fun x y => shape_eq pclose fuel x y = Ok true) (s_boundary s) (s_boundary t)) /\
     exists q, mapM (fun p => shape_eq pclose fuel (fst p) (snd p)) (combine (s_boundary s) (s_boundary t)) = Ok q).
  Proof.
    destruct (Nat.eq_dec (s_dim s) 0) as [D|D].
    - assert (K := proj1 (dim0 s) D). cbn [shape_eq]. rewrite K. split.
      + intros H. left. destruct (s_point s) as [x|]; [|discriminate]. destruct (s_point t) as [y|]; [|discriminate]. injection H as H1.
        apply andb_true_iff in H1 as [H1 H2]. apply andb_true_iff in H1 as [H3 H4]. apply Nat.eqb_eq in H3. apply Z.eqb_eq in H4. repeat split; auto; try congruence. eauto.
      + intros [(_ & D' & T & x & y & -> & -> & C)|(D' & _)]; [|contradiction]. rewrite D, D', T, C, Z.eqb_refl. reflexivity.
    - assert (K : s_kind s <> Vertex) by (intros Q; apply D, dim0; auto).
      set (f := fun p : shape P * shape P => shape_eq pclose fuel (fst p) (snd p)).
      assert (E : shape_eq pclose (S fuel) s t =
        do b <- (if negb (length (s_boundary s) =? 0)%nat && (length (s_boundary s) =? length (s_boundary t))%nat
                 then do q <- mapM f (combine (s_boundary s) (s_boundary t)); Ok (forallb (fun b => b) q) else Ok true);
        do b <- (if negb (length (immersed s) =? 0)%nat && (length (immersed s) =? length (immersed t))%nat
                 then do q <- mapM f (combine (immersed s) (immersed t)); Ok (forallb (fun b => b) q) else Ok b);
        Ok ((s_dim s =? s_dim t)%nat && (s_tag s =? s_tag t)%Z && (length (s_boundary s) =? length (s_boundary t))%nat && (length (immersed s) =? length (immersed t))%nat && b)).
      { cbn [shape_eq]. destruct (s_kind s); try reflexivity. contradiction. }
      rewrite E. clear E K. split.
      + intros H. right. apply bind_Ok in H as (b & Hb & H). apply bind_Ok in H as (b' & Hb' & H). injection H as H1.
        apply andb_true_iff in H1 as [H1 ->]. apply andb_true_iff in H1 as [H1 L2]. apply andb_true_iff in H1 as [H1 L1]. apply andb_true_iff in H1 as [Hd Ht].
        rewrite L1 in Hb. rewrite L2 in Hb'. apply Nat.eqb_eq in L1, L2, Hd. apply Z.eqb_eq in Ht. rewrite andb_true_r in Hb, Hb'.
        split; auto. split; auto. split; auto. split; auto. split; auto.
        assert (I : Forall2 (fun x y => f (x, y) = Ok true) (immersed s) (immersed t) /\ (immersed s = [] -> b = true)).
        { destruct (Nat.eqb_spec (length (immersed s)) 0) as [Z0|N0].
          - simpl in Hb'. inversion Hb'; subst. split; auto. apply length_zero_iff_nil in Z0. rewrite Z0 in *. simpl in L2. symmetry in L2. apply length_zero_iff_nil in L2. rewrite L2. constructor.
          - simpl in Hb'. split; [|intros Z0; rewrite Z0 in N0; simpl in N0; lia]. apply all_equal_true; auto.
            apply bind_Ok in Hb' as (q & E & A). injection A as A'. exists q. rewrite A'. auto. }
        destruct I as [I1 I2]. split; auto.
        assert (B : (b = true -> Forall2 (fun x y => f (x, y) = Ok true) (s_boundary s) (s_boundary t)) /\ exists q, mapM f (combine (s_boundary s) (s_boundary t)) = Ok q).
        { destruct (Nat.eqb_spec (length (s_boundary s)) 0) as [Z0|N0].
          - apply length_zero_iff_nil in Z0. rewrite Z0 in *. simpl in L1. symmetry in L1. apply length_zero_iff_nil in L1. rewrite L1. simpl. split; eauto.
          - simpl in Hb. apply bind_Ok in Hb as (q & E & A). injection A as A'. split; eauto. intros Q. apply all_equal_true; auto. exists q. rewrite E. split; auto. congruence. }
        destruct B as [B1 B2]. split; auto.
      + intros [(D' & _)|(_ & Hd & Ht & L1 & L2 & I & B & q & Eq)]; [contradiction|].
        rewrite <- L1, <- L2, Hd, Ht, !Nat.eqb_refl, Z.eqb_refl, !andb_true_r. fold f in Eq. rewrite Eq. cbn [bind].
        apply (all_equal_true f) in I as (qi & Ei & Ai); auto. rewrite Ei. cbn [bind]. rewrite Ai.
        destruct (Nat.eqb_spec (length (immersed s)) 0) as [Z0|N0]; simpl.
        * apply length_zero_iff_nil in Z0. specialize (B Z0). apply (all_equal_true f) in B as (qb & Eb & Ab); auto. rewrite Eq in Eb. inversion Eb; subst qb. rewrite Ab.
          destruct (negb _); reflexivity.
        * destruct (negb _); reflexivity.
  Qed.

  Lemma same_length s t : same pclose s t -> s_dim s <> 0 -> length (s_boundary s) = length (s_boundary t) /\ length (immersed s) = length (immersed t).
  Proof.
    intros H D. inversion H; subst; [contradiction|]. split; eapply Forall2_len; eauto.
  Qed.

  (** shapes that are the same compare equal *)
  Lemma same_eq fuel : forall s t, depth s <= fuel -> same pclose s t -> shape_eq pclose fuel s t = Ok true.
  Proof.
    induction fuel as [|fuel IH]; intros s t Hf H; [destruct s; simpl in Hf; lia|].
    assert (A : forall l l', Forall (fun c => depth c < depth s) l -> Forall2 (same pclose) l l' -> Forall2 (fun x y => shape_eq pclose fuel x y = Ok true) l l').
    { intros l l' F F2. induction F2; constructor; inversion F; subst; auto. apply IH; auto. lia. }
    apply shape_eq_true. inversion H; subst.
    - left. repeat split; auto. eauto.
    - right. assert (B : Forall2 (fun x y => shape_eq pclose fuel x y = Ok true) (s_boundary s) (s_boundary t)).
      { apply A; auto. apply Forall_forall. intros c Hc. apply depth_child; auto. }
      repeat split; auto.
      + eapply Forall2_len; eauto.
      + eapply Forall2_len; eauto.
      + apply A; auto. apply Forall_forall. intros c Hc. apply immersed_lt; auto.
      + apply (all_equal_true (fun p => shape_eq pclose fuel (fst p) (snd p))) in B as (q & E & _); eauto. eapply Forall2_len; eauto.
  Qed.

  Lemma plain_immersed (s : shape P) : plain s -> s_dim s <> 0 -> immersed s = [] /\ Forall plain (s_boundary s).
  Proof.
    destruct s as [k t ph p b i]. intros [->|[-> H]] D; [contradiction D; reflexivity|]. split; [destruct k; reflexivity|].
    simpl. clear D. induction b as [|c b IH]; constructor; simpl in H; tauto.
  Qed.
  (** equal shapes without immersed shapes are the same *)
  Lemma eq_same fuel : forall s t, plain s -> shape_eq pclose fuel s t = Ok true -> same pclose s t.
  Proof.
    induction fuel as [|fuel IH]; intros s t Hp H; [discriminate|].
    apply shape_eq_true in H as [(D & D' & T & x & y & X & Y & C)|(D & D' & T & L1 & L2 & I & B & _)].
    - eapply same_vertex; eauto.
    - destruct (plain_immersed s Hp D) as [Z0 F]. apply same_other; auto.
      + specialize (B Z0). clear L1. revert F. induction B; intros F; constructor; inversion F; subst; auto.
      + rewrite Z0 in *. simpl in L2. symmetry in L2. apply length_zero_iff_nil in L2. rewrite L2. constructor.
  Qed.

  Lemma equality_lemma fuel s t : depth s <= fuel -> plain s -> (shape_eq pclose fuel s t = Ok true <-> same pclose s t).
  Proof. intros D Hp. split; [apply eq_same; auto|apply same_eq; auto]. Qed.

  Lemma pointed_children (s : shape P) : pointed s -> Forall pointed (s_boundary s) /\ Forall pointed (s_embedded s).
  Proof.
    destruct s as [k t ph p b i]. simpl. intros (_ & B & I). split.
    - clear -B. induction b; constructor; simpl in B; tauto.
    - clear -I. induction i; constructor; simpl in I; tauto.
  Qed.
  Lemma pointed_immersed n : forall s : shape P, depth s <= n -> pointed s -> Forall pointed (immersed s).
  Proof.
    induction n as [|n IH]; intros s Hn Hp; [destruct s; simpl in Hn; lia|].
    destruct (pointed_children s Hp) as [_ E]. destruct s as [k t ph p b i]. simpl s_embedded in E.
    destruct k; try exact E. simpl. apply Forall_forall. intros c Hc. apply in_flat_map in Hc as (e & He & Hc).
    assert (De : depth e < depth (mk_shape Wire t ph p b i)) by (apply depth_child; auto).
    rewrite Forall_forall in E. specialize (E e He). destruct (immersed e) as [|x l] eqn:Ee.
    - destruct Hc as [<-|[]]. auto.
    - rewrite <- Ee in Hc. assert (F : Forall pointed (immersed e)) by (apply IH; [lia|auto]). rewrite Forall_forall in F. auto.
  Qed.

  (** [same] is an equivalence if closeness is one *)
  Lemma same_refl : (forall x, pclose x x = true) -> forall n s, depth s <= n -> pointed s -> same pclose s s.
  Proof.
    intros R. induction n as [|n IH]; intros s Hn Hp; [destruct s; simpl in Hn; lia|].
    assert (G : forall l, Forall (fun c => depth c < depth s) l -> Forall pointed l -> Forall2 (same pclose) l l).
    { induction l; intros F1 F2; constructor; inversion F1; inversion F2; subst; auto. apply IH; auto. lia. }
    destruct (pointed_children s Hp) as [PB PE]. destruct (Nat.eq_dec (s_dim s) 0) as [D|D].
    - assert (K := proj1 (dim0 s) D). destruct s as [k t ph p b i]. simpl in *. destruct Hp as (Hp & _). destruct p as [x|]; [|exfalso; apply Hp; auto].
      subst k. apply (same_vertex pclose _ _ x x); auto.
    - apply same_other; auto.
      + apply G; auto. apply Forall_forall. intros c Hc. apply depth_child; auto.
      + apply G; [apply Forall_forall; intros c Hc; apply immersed_lt; auto|]. apply pointed_immersed with (n := depth s); auto.
  Qed.
  Lemma same_sym : (forall x y, pclose x y = true -> pclose y x = true) -> forall n s t, depth s <= n -> same pclose s t -> same pclose t s.
  Proof.
    intros R. induction n as [|n IH]; intros s t Hn H; [destruct s; simpl in Hn; lia|].
    assert (G : forall l l', Forall (fun c => depth c < depth s) l -> Forall2 (same pclose) l l' -> Forall2 (same pclose) l' l).
    { intros l l' F F2. induction F2; constructor; inversion F; subst; auto. apply IH; auto. lia. }
    inversion H; subst.
    - eapply same_vertex; eauto.
    - apply same_other; auto; try congruence.
      + apply G; auto. apply Forall_forall. intros c Hc. apply depth_child; auto.
      + apply G; auto. apply Forall_forall. intros c Hc. apply immersed_lt; auto.
  Qed.
  Lemma same_trans : (forall x y z, pclose x y = true -> pclose y z = true -> pclose x z = true) ->
    forall n s t u, depth s <= n -> same pclose s t -> same pclose t u -> same pclose s u.
  Proof.
    intros R. induction n as [|n IH]; intros s t u Hn H H'; [destruct s; simpl in Hn; lia|].
    assert (G : forall l l', Forall (fun c => depth c < depth s) l -> Forall2 (same pclose) l l' -> forall l'', Forall2 (same pclose) l' l'' -> Forall2 (same pclose) l l'').
    { intros l l' F F2. induction F2; intros l'' F3; inversion F3; subst; constructor; inversion F; subst; auto. eapply IH; eauto. lia. }
    inversion H; subst; inversion H'; subst; try congruence.
    - eapply same_vertex; eauto; try congruence. eapply R; eauto. congruence.
    - apply same_other; auto; try congruence.
      + eapply G; eauto. apply Forall_forall. intros c Hc. apply depth_child; auto.
      + eapply G; eauto. apply Forall_forall. intros c Hc. apply immersed_lt; auto.
  Qed.

  (** all equations together *)
  Lemma equivalence_lemma fuel : (forall x, pclose x x = true) -> (forall x y, pclose x y = true -> pclose y x = true) ->
    (forall x y z, pclose x y = true -> pclose y z = true -> pclose x z = true) ->
    (forall s, depth s <= fuel -> pointed s -> shape_eq pclose fuel s s = Ok true) /\
    (forall s t, depth s <= fuel -> depth t <= fuel -> plain s -> shape_eq pclose fuel s t = Ok true -> shape_eq pclose fuel t s = Ok true) /\
    (forall s t u, depth s <= fuel -> plain s -> plain t -> shape_eq pclose fuel s t = Ok true -> shape_eq pclose fuel t u = Ok true -> shape_eq pclose fuel s u = Ok true).
  Proof.
    intros Rf Sy Tr. split; [|split].
    - intros s D Hp. apply same_eq; auto. eapply same_refl; eauto.
    - intros s t D D' Hp H. apply same_eq; auto. eapply same_sym; eauto. eapply eq_same; eauto.
    - intros s t u D Hp Hp' H H'. apply same_eq; auto. eapply same_trans; eauto; eapply eq_same; eauto.
  Qed.

  (** general soundness: without the boundary *)
  Lemma eq_sound fuel s t : shape_eq pclose fuel s t = Ok true -> s_dim s = s_dim t /\ s_tag s = s_tag t /\
    (s_dim s <> 0 -> length (s_boundary s) = length (s_boundary t) /\
     exists fuel', fuel = S fuel' /\ Forall2 (fun x y => shape_eq pclose fuel' x y = Ok true) (immersed s) (immersed t)).
  Proof.
    destruct fuel as [|fuel]; [discriminate|]. intros H.
    apply shape_eq_true in H as [(D & D' & T & _)|(D & D' & T & L1 & L2 & I & _)].
    - repeat split; try congruence; contradiction.
    - repeat split; auto. exists fuel. auto.
  Qed.

  (** ** wires *)
  Lemma vertex_eq fuel (a b : shape P) : is_vertex a -> is_vertex b -> s_tag a <> s_tag b -> shape_eq pclose (S fuel) a b = Ok false.
  Proof.
    intros [Ka Pa] [Kb Pb] T. cbn [shape_eq]. rewrite Ka. destruct (s_point a); [|congruence]. destruct (s_point b); [|congruence].
    apply Z.eqb_neq in T. rewrite T, andb_false_r. reflexivity.
  Qed.
  Lemma vertex_eq_refl fuel (a : shape P) : (forall x, pclose x x = true) -> is_vertex a -> shape_eq pclose (S fuel) a a = Ok true.
  Proof.
    intros R [Ka Pa]. cbn [shape_eq]. rewrite Ka. destruct (s_point a); [|congruence]. rewrite Nat.eqb_refl, Z.eqb_refl, R. reflexivity.
  Qed.

  Lemma orient_walk fuel : (forall x, pclose x x = true) -> forall l w, walk w l ->
    exists o, orient_loop pclose (S fuel) w (map fst l) = Ok o /\ length o = length l /\
      vertices_loop pclose (S fuel) w (map fst l) = Ok (starts w l) /\
      forall i e a v, nth_error l i = Some (e, v) -> nth_error (starts w l) i = Some a -> exists s, nth_error o i = Some s /\ leads s e a v.
  Proof.
    intros R. induction l as [|[e v] l IH]; intros w Hw.
    - exists []. repeat split; auto. intros i e a v H. destruct i; discriminate.
    - destruct Hw as (V1 & V2 & T & B & Hw). destruct (IH v Hw) as (o & E & L & Ev & F). cbn [map fst orient_loop vertices_loop starts].
      destruct B as [B|B]; rewrite B; cbn [get_at nth_error bind].
      + rewrite vertex_eq_refl by auto. cbn [bind]. rewrite E, Ev. cbn [bind]. exists (1%Z :: o). split; auto. split; [simpl; auto|]. split; auto.
        intros [|i] e' a v' H H'; simpl in H, H'.
        * inversion H; inversion H'; subst. exists 1%Z. split; auto. left. auto.
        * simpl. eapply F; eauto.
      + rewrite vertex_eq by auto. cbn [bind]. rewrite E, Ev. cbn [bind]. exists ((-1)%Z :: o). split; auto. split; [simpl; auto|]. split; auto.
        intros [|i] e' a v' H H'; simpl in H, H'.
        * inversion H; inversion H'; subst. exists (-1)%Z. split; auto. right. auto.
        * simpl. eapply F; eauto.
  Qed.

  Lemma length_starts (w : shape P) l : length (starts w l) = length l.
  Proof. revert w. induction l as [|[e v] l IH]; intros w; simpl; auto. Qed.

  Lemma seed_walk (w : shape P) e v l : walk w ((e, v) :: l) -> (s_tag w < s_tag v)%Z -> seed_vertex (map fst ((e, v) :: l)) = Ok w.
  Proof.
    intros (_ & _ & _ & B & _) T. unfold seed_vertex. cbn [map fst get_at nth_error bind].
    destruct B as [B|B]; rewrite B; cbn [get_at nth_error bind]; f_equal.
    - destruct (Z.gtb_spec (s_tag w) (s_tag v)); auto. lia.
    - destruct (Z.gtb_spec (s_tag v) (s_tag w)); auto. lia.
  Qed.

  Lemma wire_lemma fuel (wire w e v : shape P) l : (forall x, pclose x x = true) ->
    immersed wire = map fst ((e, v) :: l) -> walk w ((e, v) :: l) -> (s_tag w < s_tag v)%Z ->
    exists o, orient_immersed_edges pclose (S fuel) wire = Ok o /\ length o = S (length l) /\
      (forall i e' a b, nth_error ((e, v) :: l) i = Some (e', b) -> nth_error (starts w ((e, v) :: l)) i = Some a ->
         exists s, nth_error o i = Some s /\ leads s e' a b) /\
      orient_immersed_vertices pclose (S fuel) wire = Ok (starts w ((e, v) :: l)) /\
      wire_ends wire o = Ok (w, last (map snd ((e, v) :: l)) w).
  Proof.
    intros R Im Hw T. destruct (orient_walk fuel R _ _ Hw) as (o & E & L & Ev & F). exists o.
    unfold orient_immersed_edges, orient_immersed_vertices. rewrite Im, (seed_walk w e v l Hw T). cbn [bind].
    split; auto. split; [simpl in L; auto|]. split; auto. split; auto.
    unfold wire_ends. rewrite Im, map_length, L. set (n := length ((e, v) :: l) - 1).
    assert (Hn : nth_error ((e, v) :: l) n = Some (last ((e, v) :: l) (e, v))).
    { rewrite (nth_error_nth' _ (e, v)) by (unfold n; simpl; lia). f_equal. unfold n.
      assert (G : forall (m : list (shape P * shape P)) d, m <> [] -> nth (length m - 1) m d = last m d).
      { induction m as [|x m IH]; intros d Hm; [congruence|]. destruct m as [|y m]; auto.
        replace (length (x :: y :: m) - 1) with (S (length (y :: m) - 1)) by (simpl; lia). change (nth (length (y :: m) - 1) (y :: m) d = last (y :: m) d). apply IH. discriminate. }
      apply G. discriminate. }
    destruct (last ((e, v) :: l) (e, v)) as [e' v'] eqn:La.
    destruct (F 0 e w v eq_refl eq_refl) as (s0 & N0 & L0).
    destruct (nth_error (starts w ((e, v) :: l)) n) as [a|] eqn:Na.
    2:{ apply nth_error_None in Na. rewrite length_starts in Na. unfold n in Na. simpl in Na. lia. }
    destruct (F n e' a v' Hn Na) as (s1 & N1 & L1).
    unfold get_at at 1. cbn [map fst nth_error bind]. unfold get_at at 1. change (e :: map fst l) with (map fst ((e, v) :: l)). rewrite (map_nth_error fst n _ Hn). cbn [bind fst].
    unfold get_at at 1. rewrite N0. cbn [bind]. unfold get_at at 1. rewrite N1. cbn [bind].
    assert (Q0 : get_at (s_boundary e) (if (s0 >? 0)%Z then 0 else 1) = Ok w) by (destruct L0 as [[-> B]|[-> B]]; rewrite B; reflexivity).
    assert (Q1 : get_at (s_boundary e') (if (s1 >? 0)%Z then 1 else 0) = Ok v') by (destruct L1 as [[-> B]|[-> B]]; rewrite B; reflexivity).
    rewrite Q0, Q1. cbn [bind]. f_equal. f_equal.
    assert (Lm : forall (m : list (shape P * shape P)) d d', m <> [] -> last (map snd m) d' = snd (last m d)).
    { induction m as [|x m IH]; intros d d' Hm; [congruence|]. destruct m as [|y m]; auto. cbn [map]. cbn [map] in IH. 
      change (last (snd y :: map snd m) d' = snd (last (y :: m) d)). apply IH. discriminate. }
    assert (Ne : (e, v) :: l <> []) by discriminate. pose proof (Lm ((e, v) :: l) (e, v) w Ne) as Q. rewrite La in Q. symmetry. exact Q.
  Qed.
End ShapeProof.
