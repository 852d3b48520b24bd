(** * Lemmas about the difference of domains: C84 *)
From Coq Require Import List Arith ZArith Bool Reals Lia Lra Permutation Sorted.
From Verif Require Import Base BaseProof VecBase VecProof GeoModel GeoProof2 VertexModel ShapeSpec VertexSpec DiffProof DomainModel DomainSpec DomainProof.
Import ListNotations.

Lemma Forall2_nth_error {A B} (P : A -> B -> Prop) : forall l l', length l = length l' ->
  (forall k x y, nth_error l k = Some x -> nth_error l' k = Some y -> P x y) -> Forall2 P l l'.
Proof.
  induction l as [|x l IH]; intros [|y l'] L H; try discriminate; [constructor|]. constructor; [exact (H 0 x y eq_refl eq_refl)|].
  apply IH; [injection L as L; exact L|]. intros k a b. exact (H (S k) a b).
Qed.
Lemma pick_perm {A} (l : list A) is : Permutation is (seq 0 (length l)) -> exists r, mapM (get_at l) is = Ok r /\ Permutation r l.
Proof.
  intros P. assert (L : forall is, (forall i, In i is -> i < length l) -> exists r, mapM (get_at l) is = Ok r /\ (forall d, r = map (fun i => nth i l d) is)).
  { clear. induction is as [|i is IH]; intros H; [exists []; auto|]. destruct IH as (r & Er & Dr); [intros j I; apply H; right; exact I|].
    assert (Li := H i (or_introl eq_refl)). destruct (nth_error l i) as [v|] eqn:Ev; [|apply nth_error_None in Ev; lia].
    exists (v :: r). cbn [mapM]. unfold get_at at 1. rewrite Ev. cbn [bind]. rewrite Er. split; [reflexivity|]. intros d. cbn [map]. f_equal; [|apply Dr].
    symmetry. apply nth_error_nth. exact Ev. }
  destruct (L is) as (r & Er & Dr). { intros i I. apply (Permutation_in _ P) in I. apply in_seq in I. lia. }
  exists r. split; [exact Er|]. destruct l as [|x l'].
  - simpl in P. apply Permutation_sym, Permutation_nil in P. subst is. injection Er as <-. constructor.
  - rewrite (Dr x). eapply Permutation_trans; [apply Permutation_map; exact P|]. rewrite seq_nth_all. reflexivity.
Qed.
Lemma norm_sub_0 p a : (norm (vsub p a) <= 0)%R -> p = a.
Proof.
  intros H. pose proof (norm_nonneg (vsub p a)) as N. assert (Z : norm (vsub p a) = 0%R) by lra. apply norm_zero in Z. destruct p as [x y z], a as [x' y' z'].
  unfold vsub, vzero in Z. simpl in Z. injection Z as Z1 Z2 Z3. f_equal; lra.
Qed.
Lemma norm_sub_self a : norm (vsub a a) = 0%R.
Proof. replace (vsub a a) with vzero; [apply norm_vzero|]. destruct a as [x y z]. unfold vsub, vzero. simpl. f_equal; lra. Qed.
Lemma pli_cases tol p a b eps q : point_line_intersection tol p a b eps = Some q ->
  (allclose tol a p = true /\ q = a) \/ (allclose tol a p = false /\ allclose tol b p = true /\ q = b) \/ (allclose tol a p = false /\ allclose tol b p = false /\ q = p).
Proof.
  unfold point_line_intersection. intros H. destruct (allclose tol a p); [left; split; [reflexivity|congruence]|]. destruct (allclose tol b p); [right; left; repeat split; congruence|].
  right. right. destruct (point_line_incidence _ _ _ _); [|discriminate]. destruct (_ && _) in H; [|discriminate]. repeat split. congruence.
Qed.

(** ** one chain *)
Section Chain.
  Variables (tag0 t : Z) (phys : option Z) (start finish : vertex) (mid : list vertex) (es : list edge) (vs : list vertex).
  Hypothesis C : chain phys t start finish (map v_point mid) es vs.
  Hypothesis Tt : (tag0 <= t)%Z.
  Hypothesis Ts : (v_tag start < tag0)%Z.
  Hypothesis Tf : (v_tag finish < tag0)%Z.
  Let n := length mid.
  Lemma len_es : length es = S n. Proof. rewrite (ch_edges _ _ _ _ _ _ _ C), map_length. reflexivity. Qed.
  Lemma len_vs : length vs = 2 * S n. Proof. rewrite (ch_vertices _ _ _ _ _ _ _ C), len_es. reflexivity. Qed.
  Lemma tags_range z : In z (map e_tag es ++ map v_tag (removelast (tl vs))) -> (t <= z < t + Z.of_nat (3 * n + 1))%Z.
  Proof.
    intros I. apply (Permutation_in _ (ch_tags _ _ _ _ _ _ _ C)) in I. rewrite map_length in I. fold n in I. unfold tags_from in I. apply in_map_iff in I as (i & <- & I). apply in_seq in I. lia.
  Qed.
  Lemma tags_NoDup : NoDup (map e_tag es ++ map v_tag (removelast (tl vs))).
  Proof. apply (Permutation_NoDup (Permutation_sym (ch_tags _ _ _ _ _ _ _ C))). apply NoDup_tags. Qed.
  Lemma nth_inner k : k < 2 * n -> nth_error (removelast (tl vs)) k = nth_error vs (S k).
  Proof.
    intros H. pose proof len_vs as L. destruct vs as [|v0 vs0]; [simpl in L; lia|]. cbn [tl]. simpl in L. rewrite nth_removelast by lia. reflexivity.
  Qed.
  Lemma vs_first : nth_error vs 0 = Some start.
  Proof.
    destruct (nth_error es 0) as [e|] eqn:Ee; [|apply nth_error_None in Ee; rewrite len_es in Ee; lia].
    destruct (ch_link _ _ _ _ _ _ _ C 0 e Ee) as (v0 & v1 & A & _ & _ & _ & _ & Q & _). rewrite Nat.mul_0_r in A. rewrite A, Q. reflexivity.
  Qed.
  Lemma vs_last : nth_error vs (2 * n + 1) = Some finish.
  Proof.
    destruct (nth_error es n) as [e|] eqn:Ee; [|apply nth_error_None in Ee; rewrite len_es in Ee; lia].
    destruct (ch_link _ _ _ _ _ _ _ C n e Ee) as (v0 & v1 & _ & B & _ & _ & _ & _ & Q).
    replace (nth_error (map v_point mid) n) with (@None vec) in Q; [rewrite B, Q; reflexivity|]. symmetry. apply nth_error_None. rewrite map_length. reflexivity.
  Qed.
  (** the vertex at an inner position [k] is new *)
  Lemma vs_inner k v : 1 <= k <= 2 * n -> nth_error vs k = Some v ->
    (t <= v_tag v < t + Z.of_nat (3 * n + 1))%Z /\ exists s, nth_error mid ((k - 1) / 2) = Some s /\ v_point v = v_point s.
  Proof.
    intros K Q. split.
    - apply tags_range. apply in_or_app. right. apply in_map. apply (nth_error_In _ (k - 1)). rewrite nth_inner by lia. replace (S (k - 1)) with k by lia. exact Q.
    - set (j := (k - 1) / 2). assert (D : k - 1 = 2 * j \/ k - 1 = 2 * j + 1).
      { pose proof (Nat.div_mod (k - 1) 2 ltac:(lia)) as D. pose proof (Nat.mod_upper_bound (k - 1) 2 ltac:(lia)) as B. fold j in D. lia. }
      assert (P : forall q, nth_error (map v_point mid) j = Some q -> exists s, nth_error mid j = Some s /\ q = v_point s).
      { intros q P. rewrite nth_error_map in P. destruct (nth_error mid j) as [s|]; [|discriminate]. injection P as <-. exists s. auto. }
      destruct D as [D|D].
      + destruct (nth_error es j) as [e|] eqn:Ee; [|apply nth_error_None in Ee; rewrite len_es in Ee; lia].
        destruct (ch_link _ _ _ _ _ _ _ C j e Ee) as (v0 & v1 & _ & B & _ & _ & _ & _ & X). replace (2 * j + 1) with k in B by lia. rewrite Q in B. injection B as <-.
        destruct (nth_error (map v_point mid) j) as [q|] eqn:Eq; [|apply nth_error_None in Eq; rewrite map_length in Eq; fold n in Eq; lia].
        destruct (P q eq_refl) as (s & S1 & S2). exists s. split; [exact S1|]. rewrite (proj1 X). exact S2.
      + destruct (nth_error es (S j)) as [e|] eqn:Ee; [|apply nth_error_None in Ee; rewrite len_es in Ee; lia].
        destruct (ch_link _ _ _ _ _ _ _ C (S j) e Ee) as (v0 & v1 & A & _ & _ & _ & _ & X & _). replace (2 * S j) with k in A by lia. rewrite Q in A. injection A as <-.
        destruct (P _ (proj1 X)) as (s & S1 & S2). exists s. auto.
  Qed.
  Lemma vs_cases v : In v vs -> v = start \/ v = finish \/ ((t <= v_tag v < t + Z.of_nat (3 * n + 1))%Z /\ exists s, In s mid /\ v_point v = v_point s).
  Proof.
    intros I. apply In_nth_error in I as (k & Q). assert (K : k < 2 * S n) by (rewrite <- len_vs; apply nth_error_Some; congruence).
    destruct (Nat.eq_dec k 0) as [->|K0]; [left; rewrite vs_first in Q; congruence|]. destruct (Nat.eq_dec k (2 * n + 1)) as [->|K1]; [right; left; rewrite vs_last in Q; congruence|].
    right. right. destruct (vs_inner k v) as (R & s & S1 & S2); [lia|exact Q|]. split; [exact R|]. exists s. split; [exact (nth_error_In _ _ S1)|exact S2].
  Qed.
  Lemma vs_new_pos k k' v v' : nth_error vs k = Some v -> nth_error vs k' = Some v' -> v_tag v = v_tag v' -> (tag0 <= v_tag v)%Z -> k = k'.
  Proof.
    intros Q Q' T N. assert (H : forall k v, nth_error vs k = Some v -> (tag0 <= v_tag v)%Z -> 1 <= k <= 2 * n).
    { clear Q Q' T N. intros j w Q N. assert (K : j < 2 * S n) by (rewrite <- len_vs; apply nth_error_Some; congruence).
      destruct (Nat.eq_dec j 0) as [->|K0]; [rewrite vs_first in Q; injection Q as <-; lia|]. destruct (Nat.eq_dec j (2 * n + 1)) as [->|K1]; [rewrite vs_last in Q; injection Q as <-; lia|]. lia. }
    assert (H1 := H k v Q N). assert (H2 := H k' v' Q' ltac:(lia)). pose proof tags_NoDup as ND. apply NoDup_tail in ND.
    assert (L : length (removelast (tl vs)) = 2 * n).
    { pose proof len_vs as L. destruct vs as [|v0 vs0]; [simpl in L; lia|]. cbn [tl]. simpl in L. destruct vs0 as [|v1 vs1] using rev_ind; [simpl in L; lia|].
      rewrite removelast_last. rewrite app_length in L. simpl in L. lia. }
    assert (X : k - 1 = k' - 1); [|lia]. apply (proj1 (NoDup_nth_error _) ND); [rewrite map_length; lia|].
    rewrite !nth_error_map, !nth_inner by lia. replace (S (k - 1)) with k by lia. replace (S (k' - 1)) with k' by lia. rewrite Q, Q'. simpl. congruence.
  Qed.
  Lemma vs_new v v' : In v vs -> In v' vs -> v_tag v = v_tag v' -> (tag0 <= v_tag v)%Z -> v = v'.
  Proof.
    intros I I' T N. apply In_nth_error in I as (k & Q). apply In_nth_error in I' as (k' & Q'). assert (k = k') by (exact (vs_new_pos k k' v v' Q Q' T N)). congruence.
  Qed.
  Lemma es_ends e' : In e' es -> exists x y, e_ends e' = [x; y] /\ In x vs /\ In y vs.
  Proof.
    intros I. apply In_nth_error in I as (k & Q). destruct (ch_link _ _ _ _ _ _ _ C k e' Q) as (v0 & v1 & A & B & P & _). apply nth_error_In in A. apply nth_error_In in B.
    assert (L := Permutation_length P). destruct (e_ends e') as [|x [|y [|z l]]]; try discriminate. exists x, y. split; [reflexivity|].
    assert (H : forall w, In w [v0; v1] -> In w vs) by (intros w [<-|[<-|[]]]; auto). split; apply H, (Permutation_in _ P); simpl; auto.
  Qed.
  Lemma es_one v e' e'' : (tag0 <= v_tag v)%Z -> In e' es -> In e'' es -> In v (e_ends e') -> In v (e_ends e'') -> e' = e''.
  Proof.
    intros N I I' X X'. apply In_nth_error in I as (k & Q). apply In_nth_error in I' as (k' & Q').
    assert (P : forall k e', nth_error es k = Some e' -> In v (e_ends e') -> exists i, i <= 1 /\ nth_error vs (2 * k + i) = Some v).
    { clear - C. intros k e' Q X. destruct (ch_link _ _ _ _ _ _ _ C k e' Q) as (v0 & v1 & A & B & P & _). apply (Permutation_in _ P) in X. destruct X as [<-|[<-|[]]].
      - exists 0. rewrite Nat.add_0_r. auto.
      - exists 1. auto. }
    destruct (P k e' Q X) as (i & Li & Vi). destruct (P k' e'' Q' X') as (i' & Li' & Vi').
    assert (k = k') by (pose proof (vs_new_pos _ _ _ _ Vi Vi' eq_refl N); lia). congruence.
  Qed.
  (** ends of the edges, and where they go *)
  Definition goes (x p : vertex) : Prop := (x = p /\ (x = start \/ x = finish)) \/ (In x vs /\ (tag0 <= v_tag x)%Z /\ v_point x = v_point p /\ In p mid).
  Lemma es_steps : Forall2 (fun e' s => e_phys e' = phys /\ exists x y, In x vs /\ In y vs /\ Permutation (e_ends e') [x; y] /\ goes x (fst s) /\ goes y (snd s)) es (steps (start :: mid ++ [finish])).
  Proof.
    assert (Lp : forall path : list vertex, path <> [] -> length (steps path) = length path - 1).
    { intros [|p path] H; [congruence|]. unfold steps. rewrite combine_length. cbn [tl length]. lia. }
    apply Forall2_nth_error.
    - rewrite Lp by discriminate. rewrite len_es. cbn [length]. rewrite app_length. simpl. fold n. lia.
    - intros k e' [p p'] Q St. destruct (ch_link _ _ _ _ _ _ _ C k e' Q) as (v0 & v1 & A & B & P & _ & Ph & X & Y). split; [exact Ph|].
      assert (K : k < S n) by (rewrite <- len_es; apply nth_error_Some; congruence).
      assert (N : forall (l1 l2 : list vertex) k (s : vertex * vertex), nth_error (combine l1 l2) k = Some s -> nth_error l1 k = Some (fst s) /\ nth_error l2 k = Some (snd s)).
      { clear. induction l1 as [|a l1 IH]; intros l2 k s H; [destruct k; discriminate|]. destruct l2 as [|b l2]; [destruct k; discriminate|]. destruct k as [|k]; [injection H as <-; auto|]. exact (IH l2 k s H). }
      apply N in St as [S1 S2]. cbn [fst snd tl] in S1, S2. exists v0, v1. split; [exact (nth_error_In _ _ A)|]. split; [exact (nth_error_In _ _ B)|]. split; [exact P|]. split.
      + destruct k as [|k]; [simpl in S1; injection S1 as <-; left; auto|]. cbn [nth_error] in S1. right. split; [exact (nth_error_In _ _ A)|].
        destruct (vs_inner (2 * S k) v0) as (Rg & s & M1 & M2); [lia|exact A|]. split; [lia|].
        assert (nth_error (mid ++ [finish]) k = nth_error mid k) as Ap by (apply nth_error_app1; fold n; lia). rewrite Ap in S1.
        replace ((2 * S k - 1) / 2) with k in M1 by (replace (2 * S k - 1) with (1 + k * 2) by lia; rewrite Nat.div_add by lia; reflexivity).
        rewrite S1 in M1. injection M1 as <-. split; [exact M2|exact (nth_error_In _ _ S1)].
      + cbn [snd]. destruct (Nat.eq_dec k n) as [->|Kn].
        * rewrite nth_error_app2 in S2 by (fold n; lia). fold n in S2. rewrite Nat.sub_diag in S2. injection S2 as <-. left. rewrite vs_last in B. injection B as <-. auto.
        * right. split; [exact (nth_error_In _ _ B)|]. destruct (vs_inner (2 * k + 1) v1) as (Rg & s & M1 & M2); [lia|exact B|]. split; [lia|].
          rewrite nth_error_app1 in S2 by (fold n; lia). replace ((2 * k + 1 - 1) / 2) with k in M1 by (replace (2 * k + 1 - 1) with (k * 2) by lia; rewrite Nat.div_mul by lia; reflexivity).
          rewrite S2 in M1. injection M1 as <-. split; [exact M2|exact (nth_error_In _ _ S2)].
  Qed.
End Chain.

(** ** one edge *)
Lemma In_touching tol eps a b ts p : In p (touching tol eps a b ts) <-> In (snd p) ts /\ point_line_intersection tol (v_point (snd p)) a b eps = Some (fst p).
Proof.
  unfold touching. rewrite in_flat_map. split.
  - intros (v & Iv & I). destruct (point_line_intersection tol (v_point v) a b eps) as [q|] eqn:Q; [|destruct I]. destruct I as [<-|[]]. auto.
  - intros (Iv & Q). exists (snd p). split; [exact Iv|]. rewrite Q. left. destruct p. reflexivity.
Qed.
Lemma NoDup_touching tol eps a b ts : NoDup ts -> NoDup (map snd (touching tol eps a b ts)).
Proof.
  induction 1 as [|v ts N D IH]; [constructor|]. unfold touching. cbn [flat_map]. rewrite map_app. fold (touching tol eps a b ts).
  destruct (point_line_intersection tol (v_point v) a b eps) as [q|]; [|exact IH]. cbn [map snd app]. constructor; [|exact IH].
  intros I. apply in_map_iff in I as (p & <- & I). apply In_touching in I as [I _]. exact (N I).
Qed.
Lemma np_max_in l m : np_max l = Ok m -> In m l.
Proof.
  destruct l as [|y l]; [discriminate|]. intros E. injection E as <-. revert y. induction l as [|z l IH]; intros y; cbn [fold_left]; [left; reflexivity|].
  destruct (IH (Z.max y z)) as [H|H]; [|right; right; exact H]. rewrite <- H. destruct (Z.max_spec y z) as [[_ ->]|[_ ->]]; [right; left; reflexivity|left; reflexivity].
Qed.
Lemma np_max_ok l : l <> [] -> exists m, np_max l = Ok m.
Proof. destruct l as [|y l]; [congruence|]. intros _. eexists. reflexivity. Qed.

Section Pieces.
  Variables tol eps : R.
  Variable unique_idx : list vec -> list nat.
  Variable argsort_R : list R -> list nat.
  Variable argsort : list Z -> list nat.
  Hypothesis Hsort : is_argsort argsort.
  Hypothesis HsortR : is_argsort_R argsort_R.
  Hypothesis Htol : (0 <= tol)%R.
  Variables (E : list edge) (T : list vertex) (tag : Z).
  Hypothesis CC : clean_cut tol eps E T tag.
  Hypothesis Hu : Permutation (unique_idx (map v_point T)) (seq 0 (length T)).
  Notation diff := (vertices_edge_difference tol tol unique_idx argsort_R argsort).

  Lemma at_refl v : at_tool tol v v.
  Proof. unfold at_tool. apply allclose_refl. exact Htol. Qed.
  Lemma NoDup_T : NoDup T.
  Proof. exact (NoDup_map_inv _ _ (proj1 (cc_tools _ _ _ _ _ CC))). Qed.
  Lemma pli_tool a b t q : point_line_intersection tol (v_point t) (v_point a) (v_point b) eps = Some q ->
    (at_tool tol a t /\ q = v_point a) \/ (~ at_tool tol a t /\ at_tool tol b t /\ q = v_point b) \/ (~ at_tool tol a t /\ ~ at_tool tol b t /\ q = v_point t).
  Proof.
    intros H. unfold at_tool. destruct (pli_cases _ _ _ _ _ _ H) as [(A & Q)|[(A & B & Q)|(A & B & Q)]]; [left; auto|right; left|right; right]; rewrite A; rewrite ?B; repeat split; auto; discriminate.
  Qed.
  Lemma pli_at_a a b t : at_tool tol a t -> point_line_intersection tol (v_point t) (v_point a) (v_point b) eps = Some (v_point a).
  Proof. unfold at_tool, point_line_intersection. intros ->. reflexivity. Qed.
  Lemma pli_at_b a b t : ~ at_tool tol a t -> at_tool tol b t -> point_line_intersection tol (v_point t) (v_point a) (v_point b) eps = Some (v_point b).
  Proof. unfold at_tool, point_line_intersection. intros A ->. destruct (allclose tol (v_point a) (v_point t)); [congruence|reflexivity]. Qed.
  Lemma at_touches a b t : at_tool tol a t \/ at_tool tol b t -> touches tol eps a b t.
  Proof.
    intros H. unfold touches. destruct (allclose tol (v_point a) (v_point t)) eqn:A; [eexists; apply pli_at_a; exact A|]. destruct H as [H|H]; [unfold at_tool in H; congruence|].
    eexists. apply pli_at_b; [unfold at_tool; congruence|exact H].
  Qed.

  Lemma cut_one e t a b : In e E -> e_ends e = [a; b] -> (tag <= t)%Z -> exists es vs, diff T e t eps = Ok (es, vs) /\
    ((es = [] /\ vs = [] /\ forall s, In s T -> ~ touches tol eps a b s) \/
     exists start mid finish, (exists s, In s T /\ touches tol eps a b s) /\ way_along tol eps T a b start mid finish /\ chain (e_phys e) t start finish (map v_point mid) es vs).
  Proof.
    intros Ie He Ht. destruct (pick_perm T _ Hu) as (ts & Ets & Pts). pose proof (difference_lemma tol tol unique_idx argsort_R argsort Hsort HsortR T ts e a b t eps Htol He Ets) as DL.
    cbv zeta in DL. set (found := touching tol eps (v_point a) (v_point b) ts) in *. destruct DL as [D0 D1].
    assert (If : forall p, In p found <-> In (snd p) T /\ point_line_intersection tol (v_point (snd p)) (v_point a) (v_point b) eps = Some (fst p)).
    { intros p. unfold found. rewrite In_touching. split; intros [I Q]; split; auto; [apply (Permutation_in _ Pts)|apply (Permutation_in _ (Permutation_sym Pts))]; exact I. }
    destruct found as [|f0 fr] eqn:Ef.
    - exists [], []. split; [exact (D0 eq_refl)|]. left. split; [reflexivity|]. split; [reflexivity|]. intros s Is (q & Q). destruct (proj2 (If (q, s)) (conj Is Q)).
    - rewrite <- Ef in *. clear D0. destruct (D1 ltac:(rewrite Ef; discriminate)) as (sorted & PS & BD & D2). clear D1.
      assert (Is : forall p, In p sorted <-> In (snd p) T /\ point_line_intersection tol (v_point (snd p)) (v_point a) (v_point b) eps = Some (fst p)).
      { intros p. rewrite <- If. split; [apply Permutation_in; exact PS|apply Permutation_in, Permutation_sym; exact PS]. }
      assert (Nd : NoDup (map snd sorted)).
      { apply (Permutation_NoDup (Permutation_map snd (Permutation_sym PS))). apply NoDup_touching. exact (Permutation_NoDup (Permutation_sym Pts) NoDup_T). }
      assert (Gap : forall p v, In (p, v) sorted -> (allclose_default p (v_point a) = true -> at_tool tol a v) /\ (allclose_default p (v_point b) = true -> at_tool tol b v)).
      { intros p v I. apply Is in I as [Iv Q]. exact (cc_gap _ _ _ _ _ CC e a b v p Ie He Iv Q). }
      assert (Ia : In a (e_ends e)) by (rewrite He; left; reflexivity). assert (Ib : In b (e_ends e)) by (rewrite He; right; left; reflexivity).
      destruct D2 as [(p & v & S1 & S2 & S3 & _)|(start & finish & pts & (pre & mid0 & post & S1 & S2 & Spre & Spost) & Run)].
      { exfalso. assert (I : In (p, v) sorted) by (rewrite S1; left; reflexivity). destruct (Gap p v I) as [G1 G2].
        apply (cc_both _ _ _ _ _ CC e a b v Ie He (proj1 (proj1 (Is _) I))). auto. }
      assert (Ss : forall l1 p l2, sorted = l1 ++ p :: l2 -> forall r, In r l2 -> (norm (vsub (fst p) (v_point a)) <= norm (vsub (fst r) (v_point a)))%R).
      { intros l1 p l2 Q r I. rewrite Q, map_app in BD. clear - BD I. induction l1 as [|x l1 IH]; cbn [map app] in BD.
        - apply StronglySorted_inv in BD as [_ F]. rewrite Forall_forall in F. apply F. apply in_map. exact I.
        - apply StronglySorted_inv in BD as [B _]. exact (IH B). }
      (* no tool at a when pre is empty *)
      assert (NoA : pre = [] -> start = a /\ forall s, In s T -> ~ at_tool tol a s).
      { intros ->. destruct Spre as [-> H]. split; [reflexivity|]. intros s Hs A. assert (I : In (v_point a, s) sorted) by (apply Is; split; [exact Hs|apply pli_at_a; exact A]).
        destruct sorted as [|[p0 v0] r] eqn:Er; [destruct I|]. specialize (H p0 v0 r eq_refl). assert (P0 : p0 = v_point a).
        { destruct I as [I|I]; [congruence|]. apply norm_sub_0. pose proof (Ss [] _ _ eq_refl _ I) as N. cbn [fst] in N. rewrite norm_sub_self in N. exact N. }
        rewrite P0, default_refl in H. discriminate. }
      assert (NoB : post = [] -> finish = b /\ forall s, In s T -> ~ at_tool tol b s).
      { intros ->. destruct Spost as [-> H]. split; [reflexivity|]. intros s Hs B. assert (NA : ~ at_tool tol a s) by (intros A; exact (cc_both _ _ _ _ _ CC e a b s Ie He Hs (conj A B))).
        assert (I : In (v_point b, s) sorted) by (apply Is; split; [exact Hs|apply pli_at_b; auto]).
        destruct (exists_last (l := sorted)) as (body & [pn vn] & El); [intros Q; rewrite Q in I; destruct I|]. specialize (H pn vn body El).
        assert (In_n : In (pn, vn) sorted) by (rewrite El; apply in_or_app; right; left; reflexivity). destruct (proj1 (Is _) In_n) as [Hn Qn]. cbn [fst snd] in Hn, Qn.
        assert (N : (norm (vsub (v_point b) (v_point a)) <= norm (vsub pn (v_point a)))%R).
        { assert (I' := I). rewrite El in I'. apply in_app_or in I' as [I'|[I'|[]]]; [|injection I' as -> _; lra]. apply in_split in I' as (l1 & l2 & Q).
          apply (Ss l1 (v_point b, s) (l2 ++ [(pn, vn)])) with (r := (pn, vn)); [rewrite El, Q, <- app_assoc; reflexivity|apply in_or_app; right; left; reflexivity]. }
        destruct (pli_tool _ _ _ _ Qn) as [(An & ->)|[(An & Bn & ->)|(An & Bn & ->)]].
        - rewrite norm_sub_self in N. apply norm_sub_0 in N. unfold at_tool in B, NA. rewrite N in B. exact (NA B).
        - rewrite default_refl in H. discriminate.
        - pose proof (cc_before _ _ _ _ _ CC e a b vn Ie He Hn (ex_intro _ _ Qn) An Bn). lra. }
      assert (Mid : forall p, In p mid0 -> In (snd p) T /\ touches tol eps a b (snd p) /\ ~ at_tool tol a (snd p) /\ ~ at_tool tol b (snd p) /\ fst p = v_point (snd p)).
      { intros p Ip. assert (I : In p sorted) by (rewrite S1; apply in_or_app; right; apply in_or_app; left; exact Ip). destruct (proj1 (Is p) I) as [Hs Q]. split; [exact Hs|]. split; [eexists; exact Q|].
        assert (NA : ~ at_tool tol a (snd p)).
        { intros A. destruct pre as [|[p1 v1] [|? ?]]; [exact (proj2 (NoA eq_refl) _ Hs A)| |destruct Spre].
          destruct Spre as [_ D]. assert (I1 : In (p1, v1) sorted) by (rewrite S1; left; reflexivity). destruct (proj1 (Is _) I1) as [H1 _]. pose proof (proj1 (Gap _ _ I1) D) as A1.
          assert (v1 = snd p) by exact (cc_one _ _ _ _ _ CC e a v1 (snd p) Ie Ia H1 Hs A1 A). subst v1. rewrite S1 in Nd. cbn [map app snd] in Nd. apply NoDup_cons_iff in Nd as [N _]. apply N.
          rewrite map_app. apply in_or_app. left. apply in_map. exact Ip. }
        assert (NB : ~ at_tool tol b (snd p)).
        { intros B. destruct post as [|[p1 v1] [|? ?]]; [exact (proj2 (NoB eq_refl) _ Hs B)| |destruct Spost].
          destruct Spost as [_ D]. assert (I1 : In (p1, v1) sorted) by (rewrite S1; apply in_or_app; right; apply in_or_app; right; left; reflexivity). destruct (proj1 (Is _) I1) as [H1 _]. pose proof (proj2 (Gap _ _ I1) D) as A1.
          assert (v1 = snd p) by exact (cc_one _ _ _ _ _ CC e b v1 (snd p) Ie Ib H1 Hs A1 B). subst v1. rewrite S1, map_app in Nd. apply NoDup_tail in Nd. rewrite map_app in Nd. cbn [map snd] in Nd.
          apply NoDup_remove_2 in Nd. apply Nd. rewrite app_nil_r. apply in_map. exact Ip. }
        split; [exact NA|]. split; [exact NB|]. destruct (pli_tool _ _ _ _ Q) as [(A & _)|[(_ & B & _)|(_ & _ & R)]]; [contradiction|contradiction|exact R]. }
      assert (Mpts : pts = map v_point (map snd mid0)). { rewrite S2, map_map. apply map_ext_in. intros p Ip. apply (Mid p Ip). }
      rewrite Mpts in Run. destruct Run as (es & vs & Rn & Ch).
      { intros q Iq. apply in_map_iff in Iq as (s & <- & Iq). apply in_map_iff in Iq as (p & <- & Ip). destruct (Mid p Ip) as (Hs & _ & NA & NB & _). split.
        - destruct (allclose tol (v_point (snd p)) (v_point a)) eqn:Q; [|reflexivity]. exfalso. apply NA. exact (cc_sym _ _ _ _ _ CC e a _ Ie Ia Hs Q).
        - destruct (allclose tol (v_point (snd p)) (v_point b)) eqn:Q; [|reflexivity]. exfalso. apply NB. exact (cc_sym _ _ _ _ _ CC e b _ Ie Ib Hs Q). }
      exists es, vs. split; [exact Rn|]. right. exists start, (map snd mid0), finish. split.
      { destruct (proj1 (If f0)) as [H Q]; [rewrite Ef; left; reflexivity|]. exists (snd f0). split; [exact H|eexists; exact Q]. }
      split; [|exact Ch]. split; [|split; [|split; [|split]]].
      + destruct pre as [|[p1 v1] [|? ?]]; [right; exact (NoA eq_refl)| |destruct Spre]. destruct Spre as [-> D]. left.
        assert (I1 : In (p1, v1) sorted) by (rewrite S1; left; reflexivity). split; [exact (proj1 (proj1 (Is _) I1))|exact (proj1 (Gap _ _ I1) D)].
      + destruct post as [|[p1 v1] [|? ?]]; [right; exact (NoB eq_refl)| |destruct Spost]. destruct Spost as [-> D]. left.
        assert (I1 : In (p1, v1) sorted) by (rewrite S1; apply in_or_app; right; apply in_or_app; right; left; reflexivity). split; [exact (proj1 (proj1 (Is _) I1))|exact (proj2 (Gap _ _ I1) D)].
      + rewrite S1, map_app in Nd. apply NoDup_tail in Nd. rewrite map_app in Nd. clear - Nd. induction (map snd mid0) as [|x l IH]; [constructor|]. cbn [app] in Nd. apply NoDup_cons_iff in Nd as [N Nd].
        constructor; [intros I; apply N; apply in_or_app; left; exact I|exact (IH Nd)].
      + intros s. split.
        * intros I. apply in_map_iff in I as (p & <- & Ip). destruct (Mid p Ip) as (H1 & H2 & H3 & H4 & _). auto.
        * intros (Hs & (q & Q) & NA & NB). assert (I : In (q, s) sorted) by (apply Is; auto). assert (I' := I). rewrite S1 in I'. apply in_app_or in I' as [I'|I']; [|apply in_app_or in I' as [I'|I']].
          -- exfalso. destruct pre as [|[p1 v1] [|? ?]]; [destruct I'| |destruct Spre]. destruct I' as [I'|[]]. injection I' as -> ->. apply NA. exact (proj1 (Gap _ _ I) (proj2 Spre)).
          -- apply in_map_iff. exists (q, s). auto.
          -- exfalso. destruct post as [|[p1 v1] [|? ?]]; [destruct I'| |destruct Spost]. destruct I' as [I'|[]]. injection I' as -> ->. apply NB. exact (proj2 (Gap _ _ I) (proj2 Spost)).
      + rewrite <- Mpts, S2. unfold by_distance in *. rewrite S1, !map_app in BD. clear - BD. induction (map fst pre) as [|x l IH].
        * cbn [app] in BD. induction (map fst mid0) as [|y l IH]; [constructor|]. cbn [app] in BD. apply StronglySorted_inv in BD as [B F]. constructor; [exact (IH B)|].
          apply Forall_forall. intros z I. rewrite Forall_forall in F. apply F. apply in_or_app. left. exact I.
        * cbn [app] in BD. apply StronglySorted_inv in BD as [B _]. exact (IH B).
  Qed.
End Pieces.
