(** * Lemmas about the difference of domains followed by their union: C84 *)
From Coq Require Import List Arith ZArith Bool Reals Lia Lra Permutation Sorted.
From Verif Require Import Base BaseProof VecBase VecProof GeoModel GeoProof2 VertexModel ShapeSpec VertexSpec DiffProof DomainModel DomainSpec DomainProof DomainProof2.
Import ListNotations.

Lemma steps_differ (path : list vertex) p q : NoDup (map v_tag path) -> In (p, q) (steps path) -> v_tag p <> v_tag q.
Proof.
  unfold steps. intros N I. apply In_nth_error in I as (k & Q).
  assert (K : forall (l1 l2 : list vertex) k (s : vertex * vertex), nth_error (combine l1 l2) k = Some s -> nth_error l1 k = Some (fst s) /\ nth_error l2 k = Some (snd s)).
  { clear. induction l1 as [|a l1 IH]; intros l2 k s H; [destruct k; discriminate|]. destruct l2 as [|b l2]; [destruct k; discriminate|]. destruct k as [|k]; [injection H as <-; auto|]. exact (IH l2 k s H). }
  apply K in Q as [Q1 Q2]. cbn [fst snd] in Q1, Q2. destruct path as [|p0 path]; [destruct k; discriminate|]. cbn [tl] in Q2. intros X.
  assert (k = S k); [|lia]. apply (proj1 (NoDup_nth_error _) N); [rewrite map_length; apply nth_error_Some; congruence|]. rewrite !nth_error_map. cbn [nth_error]. rewrite Q1, Q2. simpl. congruence.
Qed.

Lemma Forall2_concat {A B} (P : A -> B -> Prop) : forall ll r, Forall2 P (concat ll) r -> exists rr, r = concat rr /\ Forall2 (Forall2 P) ll rr.
Proof.
  induction ll as [|l ll IH]; intros r F; [inversion F; subst; exists []; split; [reflexivity|constructor]|]. cbn [concat] in F. apply Forall2_app_inv_l in F as (r1 & r2 & F1 & F2 & ->).
  destruct (IH r2 F2) as (rr & -> & F3). exists (r1 :: rr). split; [reflexivity|constructor; assumption].
Qed.
Lemma Forall2_concat_In {A B} (P : A -> list B -> Prop) : forall l ll, Forall2 P l ll -> forall y, In y (concat ll) -> exists x r, In x l /\ P x r /\ In y r.
Proof.
  induction 1 as [|x r l ll H F IH]; intros y I; [destruct I|]. cbn [concat] in I. apply in_app_or in I as [I|I]; [exists x, r; simpl; auto|].
  destruct (IH y I) as (x' & r' & I1 & I2 & I3). exists x', r'. simpl. auto.
Qed.
Lemma Forall2_three {A B C} (P : A -> B -> Prop) (Q : B -> C -> Prop) (S : A -> C -> Prop) : forall l l' l'', Forall2 P l l' -> Forall2 Q l' l'' -> (forall x y z, In x l -> In y l' -> P x y -> Q y z -> S x z) -> Forall2 S l l''.
Proof.
  induction l as [|x l IH]; intros l' l'' F G H; inversion F; subst; inversion G; subst; [constructor|]. constructor; [eapply H; simpl; eauto|]. eapply IH; eauto. intros a b c Ia Ib. apply H; right; assumption.
Qed.
Lemma Forall2_same {A B} (P : A -> B -> Prop) l l' : Forall2 P l l' -> length l = length l'.
Proof. induction 1; simpl; congruence. Qed.
Lemma Forall2_with {A B} (P : A -> B -> Prop) (Q : A -> Prop) l l' : Forall2 P l l' -> (forall x, In x l -> Q x) -> Forall2 (fun x y => Q x /\ P x y) l l'.
Proof. induction 1 as [|x y l l' H F IH]; intros G; constructor; [split; [apply G; left; reflexivity|exact H]|apply IH; intros z I; apply G; right; exact I]. Qed.
Lemma Forall2_turn {A B} (P : A -> B -> Prop) l l' : Forall2 P l l' -> Forall2 (fun y x => P x y) l' l.
Proof. induction 1; constructor; assumption. Qed.
Lemma Forall2_back {A B} (P : A -> B -> Prop) l l' y : Forall2 P l l' -> In y l' -> exists x, In x l /\ P x y.
Proof. induction 1 as [|x y' l l' H F IH]; intros I; [destruct I|]. destruct I as [<-|I]; [exists x; simpl; auto|]. destruct (IH I) as (x' & I' & H'). exists x'. simpl. auto. Qed.
Lemma Forall2_front {A B} (P : A -> B -> Prop) l l' x : Forall2 P l l' -> In x l -> exists y, In y l' /\ P x y.
Proof. induction 1 as [|x' y l l' H F IH]; intros I; [destruct I|]. destruct I as [<-|I]; [exists y; simpl; auto|]. destruct (IH I) as (y' & I' & H'). exists y'. simpl. auto. Qed.
Lemma in_tags_from tag z n : (tag <= z < tag + Z.of_nat n)%Z -> In z (tags_from tag n).
Proof. intros B. unfold tags_from. apply in_map_iff. exists (Z.to_nat (z - tag)). split; [lia|]. apply in_seq. lia. Qed.
Lemma pair_perm {A} (u w x y : A) : Permutation [u; w] [x; y] -> (u = x /\ w = y) \/ (u = y /\ w = x).
Proof. intros P. apply Permutation_length_2_inv in P as [Q|Q]; injection Q as -> ->; auto. Qed.

Section Composite.
  Variables tol eps : R.
  Variable unique_idx : list vec -> list nat.
  Variable argsort_R : list R -> list nat.
  Variable argsort : list Z -> list nat.
  Hypothesis Hsort : is_argsort argsort.
  Hypothesis HsortR : is_argsort_R argsort_R.
  Hypothesis Htol : (0 <= tol)%R.
  Variables (E : list edge) (T : list vertex) (tag : Z).
  Hypothesis CC : clean_cut tol eps E T tag.
  Hypothesis Hu : Permutation (unique_idx (map v_point T)) (seq 0 (length T)).
  Let m := 3 * length T + 1.

  Definition to (x p : vertex) : Prop :=
    (x = p /\ (In p T \/ forall s, In s T -> ~ at_tool tol p s)) \/ ((tag <= v_tag x)%Z /\ v_point x = v_point p /\ In p T).
  Definition made_of (e : edge) (es : list edge) : Prop := forall a b, e_ends e = [a; b] ->
    ((forall s, In s T -> ~ touches tol eps a b s) -> es = [e]) /\
    ((exists s, In s T /\ touches tol eps a b s) -> exists start mid finish, way_along tol eps T a b start mid finish /\
       Forall2 (fun e' s => (e_phys e' = e_phys e /\ (tag <= e_tag e')%Z) /\ exists x y, Permutation (e_ends e') [x; y] /\ to x (fst s) /\ to y (snd s)) es (steps (start :: mid ++ [finish]))).
  Definition old (e : edge) (v : vertex) : Prop := In v T \/ (In v (e_ends e) /\ forall s, In s T -> ~ at_tool tol v s).
  Definition new (t t' : Z) (v : vertex) : Prop := (t <= v_tag v < t')%Z /\ exists s, In s T /\ v_point v = v_point s.
  Record piece (t : Z) (e : edge) (es : list edge) (vs : list vertex) (t' : Z) : Prop := {
    p_range : (t <= t' <= t + Z.of_nat m)%Z;
    p_tags : es = [e] \/ forall e', In e' es -> (t <= e_tag e' < t')%Z;
    p_NoDup : NoDup (map e_tag es);
    p_vs : forall v, In v vs -> old e v \/ new t t' v;
    p_new : forall v v', In v vs -> In v' vs -> (tag <= v_tag v)%Z -> v_tag v = v_tag v' -> v = v';
    p_ends : forall e', In e' es -> exists x y, e_ends e' = [x; y] /\ In x vs /\ In y vs;
    p_one : forall v e' e'', (tag <= v_tag v)%Z -> In e' es -> In e'' es -> In v (e_ends e') -> In v (e_ends e'') -> e' = e'';
    p_used : forall v, In v vs -> exists e', In e' es /\ In v (e_ends e');
    p_made : made_of e es }.

  Lemma ends_old e v : In e E -> old e v -> (v_tag v < tag)%Z.
  Proof.
    intros Ie [I|[I _]]; [exact (proj2 (cc_tools _ _ _ _ _ CC) v I)|]. destruct (cc_ends _ _ _ _ _ CC e Ie) as (a & b & Q & _ & A & B). rewrite Q in I. destruct I as [<-|[<-|[]]]; assumption.
  Qed.
  Lemma end_tag (e : edge) v w : In e E -> In v (e_ends e) -> end_of tol T v w -> (v_tag w < tag)%Z /\ old e w.
  Proof.
    intros Ie Iv [[I A]|[-> N]].
    - split; [exact (proj2 (cc_tools _ _ _ _ _ CC) w I)|left; exact I].
    - assert (O : old e v) by (right; auto). split; [exact (ends_old e v Ie O)|exact O].
  Qed.
  Lemma end_to v w : end_of tol T v w -> In w T \/ forall s, In s T -> ~ at_tool tol w s.
  Proof. intros [[I _]|[-> N]]; auto. Qed.
  Lemma mid_short a b start mid finish : way_along tol eps T a b start mid finish -> length mid <= length T.
  Proof. intros (_ & _ & N & I & _). apply NoDup_incl_length; [exact N|]. intros s H. apply I in H. apply H. Qed.

  Lemma piece_untouched t e a b : In e E -> e_ends e = [a; b] -> (forall s, In s T -> ~ touches tol eps a b s) -> (tag <= t)%Z -> piece t e [e] (e_ends e) t.
  Proof.
    intros Ie He N Ht. assert (Na : forall v s, In v (e_ends e) -> In s T -> ~ at_tool tol v s).
    { intros v s Iv Is A. rewrite He in Iv. apply (N s Is). apply at_touches. destruct Iv as [->|[->|[]]]; auto. }
    assert (Tl : forall v, In v (e_ends e) -> (v_tag v < tag)%Z). { intros v Iv. apply (ends_old e v Ie). right. split; [exact Iv|]. intros s. exact (Na v s Iv). }
    constructor.
    - lia.
    - left. reflexivity.
    - constructor; [intros []|constructor].
    - intros v Iv. left. right. split; [exact Iv|]. intros s. exact (Na v s Iv).
    - intros v v' Iv _ L _. specialize (Tl v Iv). lia.
    - intros e' [<-|[]]. exists a, b. split; [exact He|]. rewrite He. simpl. auto.
    - intros v e' e'' _ [<-|[]] [<-|[]] _ _. reflexivity.
    - intros v Iv. exists e. simpl. auto.
    - intros a' b' He'. rewrite He in He'. injection He' as <- <-. split; [reflexivity|]. intros (s & Is & Hs). destruct (N s Is Hs).
  Qed.
  Lemma piece_chain t t' e a b start mid finish es vs : In e E -> e_ends e = [a; b] -> (exists s, In s T /\ touches tol eps a b s) -> (tag <= t)%Z ->
    way_along tol eps T a b start mid finish -> chain (e_phys e) t start finish (map v_point mid) es vs ->
    (t < t' <= t + Z.of_nat (3 * length mid + 1))%Z -> (forall z, In z (map v_tag vs ++ map e_tag es) -> (z < t')%Z) -> piece t e es vs t'.
  Proof.
    intros Ie He Tc Ht W C R M. assert (Lm := mid_short _ _ _ _ _ W). destruct W as (Ws & Wf & W3 & W4 & W5).
    assert (Ia : In a (e_ends e)) by (rewrite He; left; reflexivity). assert (Ib : In b (e_ends e)) by (rewrite He; right; left; reflexivity).
    destruct (end_tag e a start Ie Ia Ws) as [Ts Os]. destruct (end_tag e b finish Ie Ib Wf) as [Tf Of].
    constructor.
    - unfold m. lia.
    - right. intros e' I. pose proof (tags_range t (e_phys e) start finish mid es vs C (e_tag e')) as B. split.
      + apply B. apply in_or_app. left. apply in_map. exact I.
      + apply M. apply in_or_app. right. apply in_map. exact I.
    - pose proof (tags_NoDup t (e_phys e) start finish mid es vs C) as N. clear - N. induction (map e_tag es) as [|x l IH]; [constructor|]. cbn [app] in N. apply NoDup_cons_iff in N as [H N].
      constructor; [intros I; apply H; apply in_or_app; left; exact I|exact (IH N)].
    - intros v Iv. destruct (vs_cases t (e_phys e) start finish mid es vs C v Iv) as [->|[->|(B & s & Is & Q)]]; [left; exact Os|left; exact Of|right].
      split; [split; [lia|apply M; apply in_or_app; left; apply in_map; exact Iv]|]. exists s. split; [apply W4; exact Is|exact Q].
    - intros v v' Iv Iv' L Q. exact (vs_new tag t (e_phys e) start finish mid es vs C Ts Tf v v' Iv Iv' Q L).
    - intros e' I. exact (es_ends t (e_phys e) start finish mid es vs C e' I).
    - intros v e' e'' L. exact (es_one tag t (e_phys e) start finish mid es vs C Ts Tf v e' e'' L).
    - intros v Iv. apply In_nth_error in Iv as (k & Q). assert (K : k < length vs) by (apply nth_error_Some; congruence). rewrite (ch_vertices _ _ _ _ _ _ _ C) in K.
      set (j := k / 2). assert (D : k = 2 * j \/ k = 2 * j + 1).
      { pose proof (Nat.div_mod k 2 ltac:(lia)) as D. pose proof (Nat.mod_upper_bound k 2 ltac:(lia)) as B. fold j in D. lia. }
      destruct (nth_error es j) as [e'|] eqn:Ee; [|apply nth_error_None in Ee; lia]. exists e'. split; [exact (nth_error_In _ _ Ee)|].
      destruct (ch_link _ _ _ _ _ _ _ C j e' Ee) as (v0 & v1 & A & B & P & _). apply (Permutation_in _ (Permutation_sym P)).
      destruct D as [D|D]; rewrite D in Q; [rewrite A in Q; injection Q as ->; left; reflexivity|rewrite B in Q; injection Q as ->; right; left; reflexivity].
    - intros a' b' He'. rewrite He in He'. injection He' as <- <-. split; [intros N; destruct Tc as (s & Is & Hs); destruct (N s Is Hs)|]. intros _. exists start, mid, finish. split; [exact (conj Ws (conj Wf (conj W3 (conj W4 W5))))|].
      pose proof (es_steps tag t (e_phys e) start finish mid es vs C Ht) as F.
      assert (Tg : forall e', In e' es -> (tag <= e_tag e')%Z).
      { intros e' I. pose proof (tags_range t (e_phys e) start finish mid es vs C (e_tag e')) as B. enough (t <= e_tag e')%Z by lia. apply B. apply in_or_app. left. apply in_map. exact I. }
      apply (Forall2_with _ _ _ _ F) in Tg. eapply Forall2_impl; [|exact Tg]. clear F Tg. intros e' s [Tg (Ph & x & y & Ix & Iy & P & Gx & Gy)]. split; [exact (conj Ph Tg)|]. exists x, y. split; [exact P|].
      assert (G : forall x p, goes tag start finish mid vs x p -> to x p).
      { intros z p [[-> [->| ->]]|(_ & L & Q & I)]; [left; split; [reflexivity|exact (end_to _ _ Ws)]|left; split; [reflexivity|exact (end_to _ _ Wf)]|right]. split; [exact L|]. split; [exact Q|]. apply W4. exact I. }
      auto.
  Qed.

  Inductive pieces : Z -> list edge -> list (list edge * list vertex) -> Z -> Prop :=
  | pieces_nil t : pieces t [] [] t
  | pieces_cons t e l es vs outs t1 t2 : In e E -> piece t e es vs t1 -> pieces t1 l outs t2 -> pieces t (e :: l) ((es, vs) :: outs) t2.

  Lemma run_pieces : forall l, (forall e, In e l -> In e E) -> forall t done, (tag <= t)%Z -> exists out tf,
    foldM (fun st e =>
              let '(tag, out) := st in
              do r <- vertices_edge_difference tol tol unique_idx argsort_R argsort T e tag eps;
              let '(es, vs) := r in
              do tag <- (if negb (length vs =? 0)%nat && negb (length es =? 0)%nat
                         then do m <- np_max (map v_tag vs ++ map e_tag es); Ok (m + 1)%Z else Ok tag);
              Ok (tag, out ++ [(e, es, vs)]))
            l (t, done) = Ok (tf, done ++ out) /\ length out = length l /\ pieces t l (map (fun r => (written_edges r, written_vertices r)) out) tf.
  Proof.
    induction l as [|e l IH]; intros S t done Ht.
    - exists [], t. rewrite app_nil_r. split; [reflexivity|]. split; [reflexivity|constructor].
    - assert (Ie := S e (or_introl eq_refl)). destruct (cc_ends _ _ _ _ _ CC e Ie) as (a & b & He & _).
      destruct (cut_one tol eps unique_idx argsort_R argsort Hsort HsortR Htol E T tag CC Hu e t a b Ie He Ht) as (es & vs & Ed & Cs).
      assert (Nx : exists t1, (if negb (length vs =? 0)%nat && negb (length es =? 0)%nat then do m <- np_max (map v_tag vs ++ map e_tag es); Ok (m + 1)%Z else Ok t) = Ok t1 /\
        (tag <= t1)%Z /\ piece t e (written_edges (e, es, vs)) (written_vertices (e, es, vs)) t1).
      { destruct Cs as [(-> & -> & N)|(start & mid & finish & Tc & W & C)].
        - exists t. split; [reflexivity|]. split; [exact Ht|]. exact (piece_untouched t e a b Ie He N Ht).
        - assert (Le := ch_edges _ _ _ _ _ _ _ C). assert (Lv := ch_vertices _ _ _ _ _ _ _ C). rewrite map_length in Le.
          assert (B1 : (length es =? 0) = false) by (apply Nat.eqb_neq; lia). assert (B2 : (length vs =? 0) = false) by (apply Nat.eqb_neq; lia).
          unfold written_edges, written_vertices. rewrite B1, B2. cbn [negb andb].
          destruct (np_max_ok (map v_tag vs ++ map e_tag es)) as (mx & Em). { intros Q. apply app_eq_nil in Q as [_ Q]. apply map_eq_nil in Q. rewrite Q in Le. discriminate. }
          rewrite Em. cbn [bind]. exists (mx + 1)%Z. split; [reflexivity|].
          assert (Ia : In a (e_ends e)) by (rewrite He; left; reflexivity). assert (Ib : In b (e_ends e)) by (rewrite He; right; left; reflexivity).
          destruct (end_tag e a start Ie Ia (proj1 W)) as [Ts _]. destruct (end_tag e b finish Ie Ib (proj1 (proj2 W))) as [Tf _].
          assert (Bs : forall z, In z (map v_tag vs ++ map e_tag es) -> (z < t + Z.of_nat (3 * length mid + 1))%Z).
          { intros z I. apply in_app_or in I as [I|I].
            - apply in_map_iff in I as (v & <- & Iv). destruct (vs_cases t (e_phys e) start finish mid es vs C v Iv) as [->|[->|(B & _)]]; lia.
            - apply (tags_range t (e_phys e) start finish mid es vs C z). apply in_or_app. left. exact I. }
          assert (Mx := Bs _ (np_max_in _ _ Em)).
          assert (Lo : (t <= mx)%Z).
          { destruct es as [|e0 es0]; [discriminate|]. assert (X : (t <= e_tag e0)%Z) by (apply (tags_range t (e_phys e) start finish mid _ vs C (e_tag e0)); apply in_or_app; left; left; reflexivity).
            assert (Y : (e_tag e0 <= mx)%Z) by (apply (np_max_ge _ _ Em); apply in_or_app; right; left; reflexivity). lia. }
          split; [lia|]. apply (piece_chain t (mx + 1) e a b start mid finish es vs Ie He Tc Ht W C); [lia|]. intros z I. pose proof (np_max_ge _ _ Em z I). lia. }
      destruct Nx as (t1 & N1 & N2 & N3). destruct (IH (fun x I => S x (or_intror I)) t1 (done ++ [(e, es, vs)]) N2) as (out & tf & R1 & R2 & R3).
      exists ((e, es, vs) :: out), tf. split; [|split; [simpl; congruence|]].
      + cbn [foldM]. rewrite Ed. cbn [bind]. rewrite N1. cbn [bind]. rewrite R1, <- app_assoc. reflexivity.
      + cbn [map]. econstructor; [exact Ie|exact N3|exact R3].
  Qed.

  (** ** all pieces together *)
  Notation es_of := (flat_map (@fst (list edge) (list vertex))).
  Notation vs_of := (flat_map (@snd (list edge) (list vertex))).
  Lemma ps_range t l outs t' : pieces t l outs t' -> (t <= t' <= t + Z.of_nat (length l * m))%Z.
  Proof. induction 1 as [t|t e l es vs outs t1 t2 Ie P Ps IH]; [simpl; lia|]. pose proof (p_range _ _ _ _ _ P). cbn [length]. lia. Qed.
  Lemma ps_tags t l outs t' : pieces t l outs t' -> forall e', In e' (es_of outs) -> In e' l \/ (t <= e_tag e' < t')%Z.
  Proof.
    induction 1 as [t|t e l es vs outs t1 t2 Ie P Ps IH]; intros e' I; [destruct I|]. pose proof (p_range _ _ _ _ _ P) as R1. pose proof (ps_range _ _ _ _ Ps) as R2. cbn [flat_map fst] in I. apply in_app_or in I as [I|I].
    - destruct (p_tags _ _ _ _ _ P) as [->|H]; [destruct I as [<-|[]]; left; left; reflexivity|]. right. specialize (H e' I). lia.
    - destruct (IH e' I) as [H|H]; [left; right; exact H|right; lia].
  Qed.
  Lemma ps_NoDup t l outs t' : pieces t l outs t' -> (tag <= t)%Z -> NoDup (map e_tag l) -> (forall e, In e l -> In e E) -> NoDup (map e_tag (es_of outs)).
  Proof.
    induction 1 as [t|t e l es vs outs t1 t2 Ie P Ps IH]; intros Ht N S; [constructor|]. pose proof (p_range _ _ _ _ _ P) as R1. cbn [map] in N. apply NoDup_cons_iff in N as [Ne N].
    cbn [flat_map fst]. rewrite map_app. specialize (IH ltac:(lia) N (fun x I => S x (or_intror I))).
    assert (D : forall z, In z (map e_tag es) -> In z (map e_tag (es_of outs)) -> False).
    { intros z I1 I2. apply in_map_iff in I1 as (e1 & <- & I1). apply in_map_iff in I2 as (e2 & Q & I2).
      assert (H2 := ps_tags _ _ _ _ Ps e2 I2). assert (L := proj2 (cc_edges _ _ _ _ _ CC)). destruct (p_tags _ _ _ _ _ P) as [->|H1].
      - destruct I1 as [<-|[]]. destruct H2 as [H2|H2]; [apply Ne; rewrite <- Q; apply in_map; exact H2|]. specialize (L e Ie). lia.
      - specialize (H1 e1 I1). destruct H2 as [H2|H2]; [|lia]. specialize (L e2 (S e2 (or_intror H2))). lia. }
    pose proof (p_NoDup _ _ _ _ _ P) as N1. clear - N1 IH D. induction (map e_tag es) as [|x r IHr]; [exact IH|]. apply NoDup_cons_iff in N1 as [H N1]. cbn [app]. constructor.
    - intros I. apply in_app_or in I as [I|I]; [exact (H I)|]. exact (D x (or_introl eq_refl) I).
    - apply IHr; [|exact N1]. intros z I. apply D. right. exact I.
  Qed.
  Lemma ps_vs t l outs t' : pieces t l outs t' -> forall v, In v (vs_of outs) -> (exists e, In e l /\ old e v) \/ new t t' v.
  Proof.
    induction 1 as [t|t e l es vs outs t1 t2 Ie P Ps IH]; intros v I; [destruct I|]. pose proof (p_range _ _ _ _ _ P) as R1. pose proof (ps_range _ _ _ _ Ps) as R2. cbn [flat_map snd] in I. apply in_app_or in I as [I|I].
    - destruct (p_vs _ _ _ _ _ P v I) as [H|[H1 H2]]; [left; exists e; simpl; auto|right; split; [lia|exact H2]].
    - destruct (IH v I) as [(e' & I' & O)|[H1 H2]]; [left; exists e'; simpl; auto|right; split; [lia|exact H2]].
  Qed.
  Lemma piece_new_range t e es vs t' v : In e E -> piece t e es vs t' -> In v vs -> (tag <= v_tag v)%Z -> (t <= v_tag v < t')%Z.
  Proof. intros Ie P I L. destruct (p_vs _ _ _ _ _ P v I) as [O|[H _]]; [pose proof (ends_old e v Ie O); lia|exact H]. Qed.
  Lemma ps_new_range t l outs t' v : (forall e, In e l -> In e E) -> pieces t l outs t' -> In v (vs_of outs) -> (tag <= v_tag v)%Z -> (t <= v_tag v < t')%Z.
  Proof. intros S P I L. destruct (ps_vs _ _ _ _ P v I) as [(e & Ie & O)|[H _]]; [pose proof (ends_old e v (S e Ie) O); lia|exact H]. Qed.
  Lemma ps_new t l outs t' : pieces t l outs t' -> (forall e, In e l -> In e E) -> forall v v', In v (vs_of outs) -> In v' (vs_of outs) -> (tag <= v_tag v)%Z -> v_tag v = v_tag v' -> v = v'.
  Proof.
    induction 1 as [t|t e l es vs outs t1 t2 Ie P Ps IH]; intros S v v' I I' L Q; [destruct I|]. cbn [flat_map snd] in I, I'. assert (S' : forall x, In x l -> In x E) by (intros x Hx; apply S; right; exact Hx).
    apply in_app_or in I as [I|I]; apply in_app_or in I' as [I'|I'].
    - exact (p_new _ _ _ _ _ P v v' I I' L Q).
    - pose proof (piece_new_range _ _ _ _ _ v Ie P I L). pose proof (ps_new_range _ _ _ _ v' S' Ps I' ltac:(lia)). lia.
    - pose proof (piece_new_range _ _ _ _ _ v' Ie P I' ltac:(lia)). pose proof (ps_new_range _ _ _ _ v S' Ps I L). lia.
    - exact (IH S' v v' I I' L Q).
  Qed.
  Lemma ps_ends t l outs t' : pieces t l outs t' -> forall e', In e' (es_of outs) -> exists x y, e_ends e' = [x; y] /\ In x (vs_of outs) /\ In y (vs_of outs).
  Proof.
    induction 1 as [t|t e l es vs outs t1 t2 Ie P Ps IH]; intros e' I; [destruct I|]. cbn [flat_map fst snd] in *. apply in_app_or in I as [I|I].
    - destruct (p_ends _ _ _ _ _ P e' I) as (x & y & Q & Ix & Iy). exists x, y. split; [exact Q|]. split; apply in_or_app; left; assumption.
    - destruct (IH e' I) as (x & y & Q & Ix & Iy). exists x, y. split; [exact Q|]. split; apply in_or_app; right; assumption.
  Qed.
  Lemma ps_one t l outs t' : pieces t l outs t' -> (forall e, In e l -> In e E) -> forall v e' e'', (tag <= v_tag v)%Z -> In e' (es_of outs) -> In e'' (es_of outs) -> In v (e_ends e') -> In v (e_ends e'') -> e' = e''.
  Proof.
    induction 1 as [t|t e l es vs outs t1 t2 Ie P Ps IH]; intros S v e' e'' L I I' J J'; [destruct I|]. cbn [flat_map fst] in I, I'. assert (S' : forall x, In x l -> In x E) by (intros x Hx; apply S; right; exact Hx).
    assert (K1 : forall e0, In e0 es -> In v (e_ends e0) -> (t <= v_tag v < t1)%Z).
    { intros e0 I0 J0. apply (piece_new_range _ _ _ _ _ v Ie P); [|exact L]. destruct (p_ends _ _ _ _ _ P e0 I0) as (x & y & Q & Ix & Iy). rewrite Q in J0. destruct J0 as [<-|[<-|[]]]; assumption. }
    assert (K2 : forall e0, In e0 (es_of outs) -> In v (e_ends e0) -> (t1 <= v_tag v < t2)%Z).
    { intros e0 I0 J0. apply (ps_new_range _ _ _ _ v S' Ps); [|exact L]. destruct (ps_ends _ _ _ _ Ps e0 I0) as (x & y & Q & Ix & Iy). rewrite Q in J0. destruct J0 as [<-|[<-|[]]]; assumption. }
    apply in_app_or in I as [I|I]; apply in_app_or in I' as [I'|I'].
    - exact (p_one _ _ _ _ _ P v e' e'' L I I' J J').
    - pose proof (K1 _ I J). pose proof (K2 _ I' J'). lia.
    - pose proof (K2 _ I J). pose proof (K1 _ I' J'). lia.
    - exact (IH S' v e' e'' L I I' J J').
  Qed.
  Lemma ps_used t l outs t' : pieces t l outs t' -> forall v, In v (vs_of outs) -> exists e', In e' (es_of outs) /\ In v (e_ends e').
  Proof.
    induction 1 as [t|t e l es vs outs t1 t2 Ie P Ps IH]; intros v I; [destruct I|]. cbn [flat_map fst snd] in *. apply in_app_or in I as [I|I].
    - destruct (p_used _ _ _ _ _ P v I) as (e' & I' & J). exists e'. split; [apply in_or_app; left; exact I'|exact J].
    - destruct (IH v I) as (e' & I' & J). exists e'. split; [apply in_or_app; right; exact I'|exact J].
  Qed.
  Lemma ps_made t l outs t' : pieces t l outs t' -> Forall2 made_of l (map fst outs).
  Proof. induction 1 as [t|t e l es vs outs t1 t2 Ie P Ps IH]; [constructor|]. cbn [map fst]. constructor; [exact (p_made _ _ _ _ _ P)|exact IH]. Qed.

  Lemma way_tags e a b start mid finish : In e E -> e_ends e = [a; b] -> way_along tol eps T a b start mid finish -> NoDup (map v_tag (start :: mid ++ [finish])).
  Proof.
    intros Ie He (Ws & Wf & W3 & W4 & _). destruct (cc_ends _ _ _ _ _ CC e Ie) as (a0 & b0 & He0 & Nab & _). rewrite He in He0. injection He0 as <- <-.
    assert (Ia : In a (e_ends e)) by (rewrite He; left; reflexivity). assert (Ib : In b (e_ends e)) by (rewrite He; right; left; reflexivity).
    assert (TT : forall s s', In s T -> In s' T -> v_tag s = v_tag s' -> s = s').
    { intros s s' I I' Q. apply (cc_same _ _ _ _ _ CC); [apply in_or_app; right; exact I|apply in_or_app; right; exact I'|exact Q]. }
    assert (VT : forall v s, In v (e_ends e) -> In s T -> v_tag v = v_tag s -> v = s).
    { intros v s I I' Q. apply (cc_same _ _ _ _ _ CC); [apply in_or_app; left; apply in_flat_map; exists e; auto|apply in_or_app; right; exact I'|exact Q]. }
    assert (MS : forall v w s, In v (e_ends e) -> end_of tol T v w -> In s T -> ~ at_tool tol v s -> v_tag w <> v_tag s).
    { intros v w s Iv [[Iw A]|[-> N]] Is NA Q; [rewrite (TT w s Iw Is Q) in A; exact (NA A)|]. apply (N s Is). rewrite (VT v s Iv Is Q). apply at_refl. exact Htol. }
    cbn [map]. rewrite map_app. constructor.
    - intros I. apply in_app_or in I as [I|[I|[]]].
      + apply in_map_iff in I as (s & Q & I). apply W4 in I as (Is & _ & NA & _). exact (MS a start s Ia Ws Is NA (eq_sym Q)).
      + destruct Wf as [[If A]|[-> N]].
        * refine (MS a start finish Ia Ws If _ (eq_sym I)). intros A'. exact (cc_both _ _ _ _ _ CC e a b finish Ie He If (conj A' A)).
        * destruct Ws as [[Is A]|[-> N']]; [|exact (Nab (eq_sym I))]. apply (N start Is). rewrite (VT b start Ib Is I). apply at_refl. exact Htol.
    - apply (Permutation_NoDup (l := map v_tag [finish] ++ map v_tag mid)); [apply Permutation_app_comm|]. cbn [map app]. constructor.
      + intros I. apply in_map_iff in I as (s & Q & I). apply W4 in I as (Is & _ & _ & NB). exact (MS b finish s Ib Wf Is NB (eq_sym Q)).
      + clear MS Ws Wf. assert (H : forall s, In s mid -> In s T) by (intros s I; apply W4; exact I). clear W4. induction W3 as [|s l N W3 IH]; [constructor|]. cbn [map]. constructor.
        * intros I. apply in_map_iff in I as (s' & Q & I). apply N. rewrite (TT s s'); auto; [apply H; left; reflexivity|apply H; right; exact I].
        * apply IH. intros x I. apply H. right. exact I.
  Qed.

  Lemma touched_dec a b : (forall s, In s T -> ~ touches tol eps a b s) \/ exists s, In s T /\ touches tol eps a b s.
  Proof.
    clear. induction T as [|t l IH]; [left; intros s []|]. destruct (point_line_intersection tol (v_point t) (v_point a) (v_point b) eps) as [q|] eqn:Q.
    - right. exists t. split; [left; reflexivity|exists q; exact Q].
    - destruct IH as [N|(s & I & H)]; [left|right; exists s; simpl; auto]. intros s [<-|I]; [intros (q & Q'); congruence|exact (N s I)].
  Qed.

  Variable hash : nat -> Z -> Z.
  Variables (V1 : list vertex) (E1 : list edge).
  Hypothesis HE1 : forall e1, In e1 E1 -> (e_tag e1 < tag)%Z /\ forall e, In e E -> e_tag e1 <> e_tag e.
  Hypothesis H0 : no_collision hash 0 (map v_tag (flat_map e_ends E ++ T) ++ tags_from tag (length E * m)).
  Hypothesis H1 : no_collision hash 1 (map e_tag E ++ tags_from tag (length E * m)).


  Section Whole.
    Variables (outs : list (list edge * list vertex)) (tf : Z).
    Hypothesis PS : pieces tag E outs tf.
    Let D0 := mk_domain (last_by v_tag (vs_of outs)) (last_by e_tag (es_of outs)).
    Let c1 := mk_domain T E1.
    Lemma SE : forall e, In e E -> In e E. Proof. auto. Qed.
    Lemma edges_D0 : d_edges D0 = es_of outs.
    Proof. apply last_by_id. exact (ps_NoDup _ _ _ _ PS (Z.le_refl _) (proj1 (cc_edges _ _ _ _ _ CC)) SE). Qed.
    Lemma vs_old_new v : In v (vs_of outs) -> (In v (flat_map e_ends E ++ T) /\ (v_tag v < tag)%Z /\ (In v T \/ forall s, In s T -> ~ at_tool tol v s)) \/ new tag tf v.
    Proof.
      intros I. destruct (ps_vs _ _ _ _ PS v I) as [(e & Ie & O)|N]; [left|right; exact N]. split; [|split; [exact (ends_old e v Ie O)|destruct O as [O|[_ O]]; auto]].
      apply in_or_app. destruct O as [O|[O _]]; [right; exact O|left; apply in_flat_map; exists e; auto].
    Qed.
    Lemma all_by_tag : by_tag (vs_of outs ++ T).
    Proof.
      assert (K : forall x, In x (vs_of outs ++ T) -> (In x (flat_map e_ends E ++ T) /\ (v_tag x < tag)%Z) \/ (In x (vs_of outs) /\ (tag <= v_tag x)%Z)).
      { intros x I. apply in_app_or in I as [I|I]; [|left; split; [apply in_or_app; right; exact I|exact (proj2 (cc_tools _ _ _ _ _ CC) x I)]].
        destruct (vs_old_new x I) as [(A & B & _)|[B _]]; [left; auto|right; split; [exact I|lia]]. }
      intros x y Ix Iy Q. destruct (K x Ix) as [[A B]|[A B]]; destruct (K y Iy) as [[A' B']|[A' B']]; try lia; [exact (cc_same _ _ _ _ _ CC x y A A' Q)|exact (ps_new _ _ _ _ PS SE x y A A' B Q)].
    Qed.
    Lemma in_D0 v : In v (d_vertices D0) <-> In v (vs_of outs).
    Proof. apply last_by_In. intros x y Ix Iy Q. apply all_by_tag; [apply in_or_app; left; exact Ix|apply in_or_app; left; exact Iy|exact Q]. Qed.
    Lemma way_new v t : gives_way tol D0 c1 v t -> In v (vs_of outs) /\ In t T /\ (tag <= v_tag v)%Z /\ v_point v = v_point t.
    Proof.
      intros (Iv & It & A & N). apply in_D0 in Iv. change (In t T) in It. split; [exact Iv|]. split; [exact It|]. destruct (vs_old_new v Iv) as [(_ & _ & [Iv'|Nv])|[B (s & Is & Q)]].
      - exfalso. apply N. rewrite (cc_apart _ _ _ _ _ CC v t Iv' It A). reflexivity.
      - exfalso. exact (Nv t It A).
      - split; [lia|]. assert (s = t); [|congruence]. apply (cc_apart _ _ _ _ _ CC s t Is It). unfold at_tool in *. rewrite <- Q. exact A.
    Qed.
    Lemma to_stands x p : In x (vs_of outs) -> to x p -> stands_for tol D0 c1 x p.
    Proof.
      intros Ix [[-> O]|(L & Q & Ip)].
      - right. split; [reflexivity|]. intros t W. destruct (way_new p t W) as (_ & It & L & _). destruct W as (_ & _ & A & N). destruct O as [O|O].
        + apply N. rewrite (cc_apart _ _ _ _ _ CC p t O It A). reflexivity.
        + exact (O t It A).
      - left. split; [apply in_D0; exact Ix|]. split; [exact Ip|]. split; [unfold at_tool; rewrite Q; apply at_refl; exact Htol|]. pose proof (proj2 (cc_tools _ _ _ _ _ CC) p Ip). lia.
    Qed.
    Lemma joinable_D0 : joinable tol D0 c1.
    Proof.
      constructor.
      - rewrite edges_D0. exact (ps_NoDup _ _ _ _ PS (Z.le_refl _) (proj1 (cc_edges _ _ _ _ _ CC)) SE).
      - intros e e1 I I1. rewrite edges_D0 in I. destruct (HE1 e1 I1) as [L N]. destruct (ps_tags _ _ _ _ PS e I) as [Ie|B]; [exact (N e Ie)|lia].
      - apply last_by_NoDup.
      - exact (proj1 (cc_tools _ _ _ _ _ CC)).
      - intros x y Ix Iy. assert (K : forall z, In z (d_vertices D0 ++ d_vertices c1) -> In z (vs_of outs ++ T)) by (intros z I; apply in_app_or in I as [I|I]; apply in_or_app; [left; apply in_D0; exact I|right; exact I]).
        apply all_by_tag; apply K; assumption.
      - intros e I. rewrite edges_D0 in I. destruct (ps_ends _ _ _ _ PS e I) as (x & y & Q & Ix & Iy). exists x, y. split; [exact Q|]. split; apply in_D0; assumption.
      - intros v t t' W W'. destruct (way_new v t W) as (_ & It & _ & Q). destruct (way_new v t' W') as (_ & It' & _ & Q'). apply (cc_apart _ _ _ _ _ CC t t' It It'). unfold at_tool. rewrite <- Q, <- Q'. apply at_refl. exact Htol.
      - intros v t t' W I. destruct (way_new v t W) as (_ & _ & L & _). pose proof (proj2 (cc_tools _ _ _ _ _ CC) t' I). lia.
      - intros v t W. destruct (way_new v t W) as (Iv & _). rewrite edges_D0. exact (ps_used _ _ _ _ PS v Iv).
    Qed.
    Lemma one_edge_D0 : one_edge tol D0 c1.
    Proof. intros v t e e' W. destruct (way_new v t W) as (Iv & _ & L & _). rewrite edges_D0. exact (ps_one _ _ _ _ PS SE v e e' L). Qed.
    Lemma es_concat : es_of outs = concat (map fst outs).
    Proof. apply flat_map_concat_map. Qed.
    Lemma no_tool_stands v w : (forall t, In t T -> ~ at_tool tol v t) -> stands_for tol D0 c1 v w -> w = v.
    Proof. intros N [(_ & It & A & _)|[-> _]]; [destruct (N w It A)|reflexivity]. Qed.
    Lemma stands_step e' s x y u w u' w' : In e' (es_of outs) -> e_ends e' = [u; w] -> Permutation (e_ends e') [x; y] -> to x (fst s) -> to y (snd s) ->
      stands_for tol D0 c1 u u' -> stands_for tol D0 c1 w w' -> Permutation [u'; w'] [fst s; snd s].
    Proof.
      intros I Q P Tx Ty Su Sw. destruct (ps_ends _ _ _ _ PS e' I) as (u0 & w0 & Q0 & Iu & Iw). rewrite Q in Q0, P. injection Q0 as <- <-.
      destruct (pair_perm _ _ _ _ P) as [[<- <-]|[<- <-]].
      - rewrite (stands_unique tol D0 c1 joinable_D0 u u' (fst s) Su (to_stands u _ Iu Tx)), (stands_unique tol D0 c1 joinable_D0 w w' (snd s) Sw (to_stands w _ Iw Ty)). reflexivity.
      - rewrite (stands_unique tol D0 c1 joinable_D0 u u' (snd s) Su (to_stands u _ Iu Ty)), (stands_unique tol D0 c1 joinable_D0 w w' (fst s) Sw (to_stands w _ Iw Tx)). apply perm_swap.
    Qed.
    Lemma no_collapse_D0 : no_collapse tol D0 c1.
    Proof.
      intros e' u w u' w' I Q Su Sw. rewrite edges_D0 in I. assert (I' := I). rewrite es_concat in I'.
      destruct (Forall2_concat_In _ _ _ (ps_made _ _ _ _ PS) e' I') as (e & es & Ie & Md & Ie'). destruct (cc_ends _ _ _ _ _ CC e Ie) as (a & b & He & Nab & _).
      destruct (Md a b He) as [M1 M2]. destruct (touched_dec a b) as [N|Tc].
      - rewrite (M1 N) in Ie'. destruct Ie' as [<-|[]]. rewrite He in Q. injection Q as <- <-.
        rewrite (no_tool_stands a u'), (no_tool_stands b w'); auto; intros t It A; apply (N t It); apply at_touches; auto.
      - destruct (M2 Tc) as (start & mid & finish & W & F). pose proof (way_tags e a b start mid finish Ie He W) as Nd. apply In_nth_error in Ie' as (k & Qk).
        destruct (nth_error (steps (start :: mid ++ [finish])) k) as [[p q]|] eqn:Es.
        + assert (X : forall (l : list edge) (l' : list (vertex * vertex)) P k e s, Forall2 P l l' -> nth_error l k = Some e -> nth_error l' k = Some s -> P e s).
          { clear. induction l as [|x l IH]; intros l' P k e s F A B; inversion F; subst; destruct k; try discriminate; [injection A as <-; injection B as <-; assumption|eapply IH; eauto]. }
          destruct (X _ _ _ _ _ _ F Qk Es) as (_ & x & y & P & Tx & Ty). pose proof (stands_step e' (p, q) x y u w u' w' I Q P Tx Ty Su Sw) as PP. cbn [fst snd] in PP.
          pose proof (steps_differ _ _ _ Nd (nth_error_In _ _ Es)) as D. destruct (pair_perm _ _ _ _ PP) as [[-> ->]|[-> ->]]; [exact D|exact (not_eq_sym D)].
        + apply nth_error_None in Es. apply Forall2_same in F. assert (K : k < length es) by (apply nth_error_Some; congruence). lia.
    Qed.
    Lemma whole : exists R, domain_union hash tol argsort D0 c1 = Ok R /\ (exists ess, d_edges R = concat ess /\ Forall2 (refines tol eps T) E ess) /\ spanned R /\ NoDup (map e_tag (d_edges R)) /\
      (forall e', In e' (d_edges R) -> (tag <= e_tag e')%Z \/ exists e a b, In e E /\ e_ends e = [a; b] /\ (forall t, In t T -> ~ touches tol eps a b t) /\ joins e' e a b).
    Proof.
      assert (Rg := ps_range _ _ _ _ PS).
      destruct (union_ok hash tol argsort Hsort D0 c1 joinable_D0) as (R & ER & F & Sp).
      - intros s t Is It. assert (K : forall z, In z (map v_tag (d_vertices D0 ++ d_vertices c1)) -> In z (map v_tag (flat_map e_ends E ++ T) ++ tags_from tag (length E * m))).
        { intros z I. apply in_map_iff in I as (v & <- & I). apply in_app_or in I as [I|I]; [|apply in_or_app; left; apply in_map; apply in_or_app; right; exact I].
          apply in_D0 in I. apply in_or_app. destruct (vs_old_new v I) as [(A & _)|[B _]]; [left; apply in_map; exact A|right; apply in_tags_from; lia]. }
        apply H0; apply K; assumption.
      - intros s t Is It. assert (K : forall z, In z (map e_tag (d_edges D0)) -> In z (map e_tag E ++ tags_from tag (length E * m))).
        { intros z I. rewrite edges_D0 in I. apply in_map_iff in I as (e & <- & I). apply in_or_app. destruct (ps_tags _ _ _ _ PS e I) as [A|B]; [left; apply in_map; exact A|right; apply in_tags_from; lia]. }
        apply H1; apply K; assumption.
      - exact one_edge_D0.
      - exact no_collapse_D0.
      - exists R. split; [exact ER|]. rewrite edges_D0 in F. split; [|split; [exact Sp|split]].
        + rewrite es_concat in F. destruct (Forall2_concat _ _ _ F) as (ess & Q & FF). exists ess. split; [exact Q|].
          apply (Forall2_three _ _ _ E (map fst outs) ess (ps_made _ _ _ _ PS) FF). clear F Q FF. intros e es es' Ie Ies Md F a b He.
          assert (Sub : forall e', In e' es -> In e' (es_of outs)) by (intros e' I; rewrite es_concat; apply in_concat; exists es; auto). destruct (Md a b He) as [M1 M2]. split.
          * intros N. rewrite (M1 N) in F. inversion F as [|? e' ? ? (u & w & u' & w' & Q & Su & Sw & Jn) F' ]; subst. inversion F'; subst. exists e'. split; [reflexivity|]. rewrite He in Q. injection Q as <- <-.
            rewrite <- (no_tool_stands a u'), <- (no_tool_stands b w'); auto; intros t It A; apply (N t It); apply at_touches; auto.
          * intros Tc. destruct (M2 Tc) as (start & mid & finish & W & G). exists start, mid, finish. split; [exact W|]. apply Forall2_turn in F.
            apply (Forall2_three _ _ _ es' es _ F G). intros e' e0 s _ I0 (u & w & u' & w' & Q & Su & Sw & (J1 & J2 & J3 & J4)) ((Ph & _) & x & y & P & Tx & Ty).
            split; [congruence|]. split; [|exact J4]. eapply Permutation_trans; [exact J3|]. exact (stands_step e0 s x y u w u' w' (Sub e0 I0) Q P Tx Ty Su Sw).
        + replace (map e_tag (d_edges R)) with (map e_tag (es_of outs)); [exact (ps_NoDup _ _ _ _ PS (Z.le_refl _) (proj1 (cc_edges _ _ _ _ _ CC)) SE)|].
          clear - F. induction F as [|e e' l l' (u & w & u' & w' & _ & _ & _ & (Q & _)) F IH]; [reflexivity|]. cbn [map]. congruence.
        + intros e' I. destruct (Forall2_back _ _ _ _ F I) as (e0 & I0 & u & w & u' & w' & Q & Su & Sw & Jn). rewrite es_concat in I0.
          destruct (Forall2_concat_In _ _ _ (ps_made _ _ _ _ PS) e0 I0) as (e & es & Ie & Md & Ie0). destruct (cc_ends _ _ _ _ _ CC e Ie) as (a & b & He & _).
          destruct (Md a b He) as [M1 M2]. destruct (touched_dec a b) as [N|Tc].
          * right. exists e, a, b. split; [exact Ie|]. split; [exact He|]. split; [exact N|]. rewrite (M1 N) in Ie0. destruct Ie0 as [<-|[]]. rewrite He in Q. injection Q as <- <-.
            rewrite <- (no_tool_stands a u'), <- (no_tool_stands b w'); auto; intros t It A; apply (N t It); apply at_touches; auto.
          * left. destruct (M2 Tc) as (start & mid & finish & _ & G). destruct (Forall2_front _ _ _ _ G Ie0) as (s & _ & (_ & Tg) & _). destruct Jn as (J1 & _). lia.
    Qed.
  End Whole.

  Lemma composite_ok : let c0 := mk_domain V1 E in let c1 := mk_domain T E1 in exists D R,
    domain_difference tol tol unique_idx argsort_R argsort c0 c1 tag eps = Ok D /\ domain_union hash tol argsort D c1 = Ok R /\
    (exists ess, d_edges R = concat ess /\ Forall2 (refines tol eps T) E ess) /\ spanned R /\ NoDup (map e_tag (d_edges R)) /\
      (forall e', In e' (d_edges R) -> (tag <= e_tag e')%Z \/ exists e a b, In e E /\ e_ends e = [a; b] /\ (forall t, In t T -> ~ touches tol eps a b t) /\ joins e' e a b).
  Proof.
    intros c0 c1. destruct (run_pieces E SE tag [] (Z.le_refl _)) as (out & tf & R1 & R2 & R3). destruct (whole _ _ R3) as (R & W).
    eexists. exists R. split; [|exact W]. unfold domain_difference, vertices_edges_difference. cbn [d_vertices d_edges c0 c1]. rewrite R1. cbn [bind snd app]. rewrite R2, Nat.eqb_refl. cbn [negb].
    f_equal. f_equal; f_equal; rewrite flat_map_concat_map, (flat_map_concat_map _ (map _ out)), map_map; reflexivity.
  Qed.
End Composite.
