(** * Proofs about embed_vertex_in_edge: which vertices are used *)
From Coq Require Import List Arith ZArith Bool Reals Lra Lia Permutation Sorted.
From Verif Require Import Base BaseProof VecBase VecProof GeoModel GeoSpec GeoProof VertexModel ShapeSpec VertexSpec EmbedModel EmbedSpec EmbedProof EmbedProof2.
Import ListNotations.
Local Open Scope nat_scope.

Lemma sorted_pt h l : StronglySorted lex (map (pt h) l) <-> StronglySorted (fun x y => lex (pt h x) (pt h y)) l.
Proof.
  induction l as [|x l IH]; cbn [map]; [split; constructor|]. split; intros S; inversion S as [|? ? S' F]; subst; constructor; try (apply IH; auto);
    rewrite Forall_forall in F |- *; intros y Hy; [apply F, in_map; auto|]. apply in_map_iff in Hy as (z & <- & Hz). auto.
Qed.
Lemma sorted_same h : forall l l', StronglySorted (fun x y => lex (pt h x) (pt h y)) l -> StronglySorted (fun x y => lex (pt h x) (pt h y)) l' ->
  (forall x, In x l <-> In x l') -> l = l'.
Proof.
  induction l as [|x l IH]; intros [|y l'] S S' E; auto.
  - exfalso. apply (E y). left. auto.
  - exfalso. apply (E x). left. auto.
  - inversion S as [|? ? S1 F]; inversion S' as [|? ? S1' F']; subst. rewrite Forall_forall in F, F'.
    assert (x = y) as ->.
    { destruct (proj1 (E x)) as [|H]; [left; auto|auto|]. destruct (proj2 (E y)) as [|H']; [left; auto|auto|]. exfalso. apply (lex_irrefl (pt h x)). eapply lex_trans; [apply F, H'|apply F', H]. }
    f_equal. apply IH; auto. intros z. split; intros Hz.
    + destruct (proj1 (E z)) as [->|]; [right; auto| |auto]. exfalso. apply (lex_irrefl (pt h z)). auto.
    + destruct (proj2 (E z)) as [->|]; [right; auto| |auto]. exfalso. apply (lex_irrefl (pt h z)). auto.
Qed.
Lemma first_unique h vs us us' : first_of_each h vs us -> first_of_each h vs us' -> us = us'.
Proof. intros (S & F) (S' & F'). apply sorted_pt in S. apply sorted_pt in S'. apply (sorted_same h); auto. intros x. rewrite F, F'. tauto. Qed.
Lemma first_nodup h vs us : first_of_each h vs us -> NoDup us.
Proof.
  intros (S & _). apply sorted_pt in S. induction S as [|x l S IH F]; constructor; auto. rewrite Forall_forall in F. intros H. apply F in H. apply lex_irrefl in H. auto.
Qed.

Definition cur (x x' : nat) (pre : list nat) : nat := if in_dec Nat.eq_dec x' pre then x' else x.
Lemma cur_in x x' pre : In x' pre -> cur x x' pre = x'.
Proof. intros H. unfold cur. destruct (in_dec _ _ _); tauto. Qed.
Lemma cur_out x x' pre : ~ In x' pre -> cur x x' pre = x.
Proof. intros H. unfold cur. destruct (in_dec _ _ _); tauto. Qed.
Lemma cur_same x x' pre y : y <> x' -> cur x x' (pre ++ [y]) = cur x x' pre.
Proof.
  intros N. unfold cur. destruct (in_dec _ _ (pre ++ _)) as [H|H], (in_dec _ _ pre) as [H'|H']; auto.
  - exfalso. apply in_app_or in H as [|[|[]]]; auto.
  - exfalso. apply H. apply in_or_app. auto.
Qed.
Lemma cur_now x x' pre : cur x x' (pre ++ [x']) = x'.
Proof. apply cur_in, in_or_app. right. left. auto. Qed.

Lemma bc_loop h us a b a' b' : live h (a :: b :: us) -> NoDup us ->
  replaced h (fun u => In u us) a a' -> replaced h (fun u => In u us /\ u <> a') b b' ->
  forall rest pre on, us = pre ++ rest -> exists on',
  foldM (bc_step h) (combine (seq (length pre) (length rest)) rest) ([cur a a' pre; cur b b' pre], on) = Ok ([a'; b'], on') /\
  forall i, In i on' <-> In i on \/ (exists u, In (i, u) (combine (seq (length pre) (length rest)) rest) /\ (u = a' \/ u = b')).
Proof.
  intros L ND Ra Rb. assert (Lu : forall u, In u us -> u < length h) by (intros; apply L; right; right; auto).
  assert (Lc : forall pre, (forall u, In u pre -> In u us) -> cur a a' pre < length h /\ cur b b' pre < length h).
  { intros pre Hp. unfold cur. split; destruct (in_dec _ _ _) as [H|H]; auto; apply L; [left; auto|right; left; auto]. }
  induction rest as [|u rest IH]; intros pre on E.
  - rewrite app_nil_r in E. subst pre. exists on. split.
    + cbn. repeat f_equal.
      * unfold cur. destruct (in_dec _ _ _); auto. destruct Ra as [(-> & _)|(H & _)]; [auto|tauto].
      * unfold cur. destruct (in_dec _ _ _); auto. destruct Rb as [(-> & _)|((H & _) & _)]; [auto|tauto].
    + intros i. split; auto. intros [|(v & [] & _)]; auto.
  - assert (Hu : In u us) by (rewrite E; apply in_or_app; right; left; auto).
    assert (Npre : ~ In u pre). { rewrite E in ND. apply NoDup_remove_2 in ND. intros H. apply ND, in_or_app. auto. }
    destruct (Lc pre) as (L1 & L2); [intros v Hv; rewrite E; apply in_or_app; auto|].
    cbn [length seq combine foldM]. rewrite bc_step_spec by (auto; cbn [snd]; auto). cbn [bind fst snd].
    specialize (IH (pre ++ [u])). rewrite app_length in IH. cbn [length] in IH. rewrite Nat.add_1_r in IH. rewrite <- app_assoc in IH. cbn [app] in IH.
    assert (Fin : forall on2 ends, ends = [cur a a' (pre ++ [u]); cur b b' (pre ++ [u])] -> (forall i, In i on2 <-> In i on \/ (i = length pre /\ (u = a' \/ u = b'))) ->
      exists on', foldM (bc_step h) (combine (seq (S (length pre)) (length rest)) rest) (ends, on2) = Ok ([a'; b'], on') /\
      forall i, In i on' <-> In i on \/ (exists v, In (i, v) ((length pre, u) :: combine (seq (S (length pre)) (length rest)) rest) /\ (v = a' \/ v = b'))).
    { intros on2 ends -> H. destruct (IH on2 E) as (on' & F & G). exists on'. split; [exact F|]. intros i. rewrite G, H. split.
      - intros [[?|(-> & ?)]|(v & ? & ?)]; [auto|right; exists u; split; [left|]; auto|right; exists v; split; [right|]; auto].
      - intros [?|(v & [[= <- <-]|Hv] & ?)]; auto. right. exists v. auto. }
    destruct (Nat.eq_dec u a') as [->|Na].
    + assert (C : allclose_default (pt h a') (pt h (cur a a' pre)) = true).
      { rewrite cur_out by auto. apply allclose_default_iff. destruct Ra as [(-> & _)|(_ & H & _)]; auto. apply near_refl. }
      rewrite C. apply Fin.
      * rewrite cur_now. f_equal. f_equal. destruct (Nat.eq_dec b' a') as [->|N]; [|rewrite cur_same; auto].
        rewrite cur_now. rewrite cur_out by auto. destruct Rb as [(-> & _)|((_ & H) & _)]; [auto|congruence].
      * intros i. rewrite in_app_iff. simpl. intuition.
    + assert (Ca : allclose_default (pt h u) (pt h (cur a a' pre)) = false).
      { apply not_true_iff_false. rewrite allclose_default_iff. unfold cur. destruct Ra as [(-> & H)|(_ & _ & H)]; [destruct (in_dec _ _ _); auto|]. destruct (H u Hu Na). destruct (in_dec _ _ _); auto. }
      rewrite Ca. destruct (Nat.eq_dec u b') as [->|Nb].
      * assert (C : allclose_default (pt h b') (pt h (cur b b' pre)) = true).
        { rewrite cur_out by auto. apply allclose_default_iff. destruct Rb as [(-> & _)|(_ & H & _)]; auto. apply near_refl. }
        rewrite C. apply Fin; [rewrite cur_now, cur_same by auto; auto|]. intros i. rewrite in_app_iff. simpl. intuition.
      * assert (C : allclose_default (pt h u) (pt h (cur b b' pre)) = false).
        { apply not_true_iff_false. rewrite allclose_default_iff. unfold cur. destruct Rb as [(-> & H)|(_ & _ & H)]; [destruct (in_dec _ _ _); auto|]. destruct (H u (conj Hu Na) Nb). destruct (in_dec _ _ _); auto. }
        rewrite C. apply Fin; [rewrite !cur_same by auto; auto|]. intros i. intuition.
Qed.

Lemma filter_sorted {A} (lt : A -> A -> Prop) f l : StronglySorted lt l -> StronglySorted lt (filter f l).
Proof.
  induction l as [|x l IH]; intros S; simpl; [constructor|]. inversion S as [|? ? S' F]; subst. destruct (f x); auto. constructor; auto.
  rewrite Forall_forall in F |- *. intros y Hy. apply filter_In in Hy as (Hy & _). auto.
Qed.
Lemma kept_sorted h f us : StronglySorted lex (map (pt h) us) -> forall s, StronglySorted lex (map (pt h) (map snd (filter f (combine (seq s (length us)) us)))).
Proof.
  intros S. apply sorted_pt in S. intros s. apply sorted_pt.
  induction us as [|u us IH] in s, S |- *; simpl; [constructor|]. inversion S as [|? ? S' F]; subst. rewrite Forall_forall in F. specialize (IH S' (Datatypes.S s)). destruct (f (s, u)); auto.
  simpl. constructor; auto. apply Forall_forall. intros y Hy. apply in_map_iff in Hy as ([i w] & <- & Hy). apply filter_In in Hy as (Hy & _). apply in_combine_r in Hy. auto.
Qed.
Lemma vsub_self p : vsub p p = vzero.
Proof. apply vec_ext; unfold vsub, vzero; cbn [vx vy vz]; ring. Qed.
Lemma vsub_zero_r p : vsub p vzero = p.
Proof. apply vec_ext; unfold vsub, vzero; cbn [vx vy vz]; ring. Qed.

Section Main.
  Variable argsort_R : list R -> list nat.
  Variable argsort : list Z -> list nat.
  Hypothesis AR : is_argsort_R argsort_R.
  Hypothesis AZ : is_argsort argsort.

  Lemma embed_lemma h vs e shift a b us a' b' : live h (a :: b :: vs) -> h_ends e = [a; b] -> first_of_each h vs us ->
    replaced h (fun u => In u us) a a' -> replaced h (fun u => In u us /\ u <> a') b b' ->
    exists es out, embed_vertex_in_edge argsort_R argsort h vs e shift = Ok (h, mk_host [a'; b'] (h_immersed e ++ es), out) /\
      (forall u, In u out <-> In u us /\ u <> a' /\ u <> b' /\ within (dist h a' u) (dist h a' b')) /\
      StronglySorted lex (map (pt h) out) /\
      (out = [] -> es = []) /\
      (out <> [] -> exists mid, Permutation mid out /\ StronglySorted (fun x y => (dist h a' x <= dist h a' y)%R) mid /\ joined h shift (a' :: mid ++ [b']) es).
  Proof.
    intros L He Fu Ra Rb. destruct (run argsort_R argsort AR AZ h vs e shift a b L He) as (us2 & a2 & b2 & on & es & Fu2 & Sub & B & La & Lb & R).
    apply (first_unique h vs us us2 Fu) in Fu2 as <-.
    assert (Lu : live h (a :: b :: us)). { intros x [<-|[<-|Hx]]; [apply L; left; auto|apply L; right; left; auto|]. apply L. right. right. auto. }
    destruct (bc_loop h us a b a' b' Lu (first_nodup h vs us Fu) Ra Rb us [] [] eq_refl) as (on2 & B2 & On). cbn [length] in B2, On. rewrite !cur_out in B2 by auto.
    rewrite B in B2. injection B2 as -> -> ->. clear B.
    set (h2 := shifted h a' b') in *. cbv zeta in R. set (ra := norm (pt h2 a')) in *. set (rb := norm (pt h2 b')) in *.
    set (kept := filter (accepts h2 (pt h a') ra rb on2) (combine (seq 0 (length us)) us)) in *.
    destruct R as (R1 & R2 & R3).
    assert (Pt : forall u, u <> a' -> u <> b' -> pt h2 u = pt h u).
    { intros u N1 N2. unfold h2, shifted. rewrite !pt_moved by (rewrite ?length_moved; auto). apply Nat.eqb_neq in N1. apply Nat.eqb_neq in N2. rewrite N1, N2. auto. }
    assert (NE : a' <> b' -> ra = 0%R /\ rb = dist h a' b').
    { intros N. unfold ra, rb, h2, shifted, dist. apply Nat.eqb_neq in N as N1. assert (N2 := N). apply not_eq_sym in N2. apply Nat.eqb_neq in N2.
      rewrite !pt_moved by (rewrite ?length_moved; auto). rewrite !Nat.eqb_refl, N1, N2. rewrite vsub_self, norm_vzero. auto. }
    assert (EQ : a' = b' -> ra = rb) by (intros E; unfold ra, rb; rewrite E; auto).
    assert (Mem : forall i u, In (i, u) kept <-> In (i, u) (combine (seq 0 (length us)) us) /\ u <> a' /\ u <> b' /\ within (dist h a' u) (dist h a' b')).
    { intros i u. unfold kept. rewrite filter_In. split.
      - intros (H & A). unfold accepts in A. cbn [fst snd] in A. apply andb_true_iff in A as (A1 & A2). apply negb_true_iff, memb_notIn in A1.
        assert (N : u <> a' /\ u <> b'). { split; intros ->; apply A1, On; right; eexists; split; eauto. } destruct N as (N1 & N2). repeat split; auto;
        rewrite (Pt u N1 N2) in A2; apply andb_true_iff in A2 as (A2 & A3); apply andb_true_iff in A2 as (A2 & A4); apply andb_true_iff in A3 as (A3 & A5);
        apply Rltb_true in A2; apply Rltb_true in A4; apply negb_true_iff, not_true_iff_false in A3; apply negb_true_iff, not_true_iff_false in A5; rewrite isclose_default_iff in A3, A5;
        (destruct (Nat.eq_dec a' b') as [E|NE']; [rewrite (EQ E) in *; lra|]); destruct (NE NE') as (Z1 & Z2); rewrite Z1 in *; rewrite Z2 in *; unfold dist in *; auto.
      - intros (H & N1 & N2 & W1 & W2 & W3 & W4). split; auto. unfold accepts. cbn [fst snd]. rewrite (Pt u N1 N2).
        destruct (Nat.eq_dec a' b') as [E|NE'].
        { exfalso. subst b'. unfold dist in W1, W2. rewrite vsub_self, norm_vzero in W2. lra. }
        destruct (NE NE') as (Z1 & Z2). rewrite Z1, Z2. fold (dist h a' u). rewrite !andb_true_iff, !negb_true_iff. repeat split.
        + apply memb_notIn. intros K. apply On in K as [[]|(v & Hv & Ev)]. apply nth_error_numbered in H as (_ & H). apply nth_error_numbered in Hv as (_ & Hv). rewrite H in Hv. injection Hv as <-. tauto.
        + apply Rltb_true. auto.
        + apply Rltb_true. auto.
        + apply not_true_iff_false. rewrite isclose_default_iff. auto.
        + apply not_true_iff_false. rewrite isclose_default_iff. auto. }
    assert (MemO : forall u, In u (map snd kept) <-> In u us /\ u <> a' /\ u <> b' /\ within (dist h a' u) (dist h a' b')).
    { intros u. rewrite in_map_iff. split.
      - intros ([i w] & <- & H). apply Mem in H as (H & H'). split; auto. apply in_combine_r in H. auto.
      - intros (H & H'). apply In_nth_error in H as (i & H). exists (i, u). split; auto. apply Mem. split; auto. apply nth_error_numbered. rewrite Nat.sub_0_r. split; [lia|auto]. }
    exists es, (map snd kept). split; [exact R1|]. split; [exact MemO|]. split; [apply kept_sorted; apply Fu|]. split.
    - intros K. apply R2. apply map_eq_nil in K. auto.
    - intros K. destruct R3 as (l & M & J); [intros E; apply K; rewrite E; auto|].
      assert (NE' : a' <> b').
      { intros <-. destruct kept as [|[i u] k]; [apply K; auto|]. destruct (proj1 (MemO u)) as (_ & _ & _ & W1 & W2 & _); [left; auto|]. unfold dist in W1, W2. rewrite vsub_self, norm_vzero in W2. lra. }
      destruct (NE NE') as (Z1 & Z2).
      assert (KE : ra :: rb :: map (fun iv => norm (vsub (pt h2 (snd iv)) (pt h a'))) kept = map (dist h a') (a' :: b' :: map snd kept)).
      { cbn [map]. rewrite map_map. f_equal; [rewrite Z1; unfold dist; rewrite vsub_self, norm_vzero; auto|]. f_equal; auto. apply map_ext_in. intros [i u] H. apply Mem in H as (_ & N1 & N2 & _). cbn [snd]. rewrite Pt; auto. }
      rewrite KE in M. destruct (AR (map (dist h a') (a' :: b' :: map snd kept))) as (P & S). rewrite map_length in P.
      destruct (take_perm _ _ P) as (l' & M' & Pl & _). rewrite M in M'. injection M' as <-.
      pose proof (sorted_by (dist h a') _ _ _ S P M) as Sl.
      assert (Da : dist h a' a' = 0%R) by (unfold dist; rewrite vsub_self, norm_vzero; auto).
      destruct (sorted_frame (dist h a') a' b' (map snd kept) l Pl Sl) as (mid & -> & Pm & Sm).
      + intros u H. apply MemO in H as (_ & _ & _ & W1 & W2 & _). lra.
      + destruct kept as [|[i u] k]; [exfalso; apply K; auto|]. destruct (proj1 (MemO u)) as (_ & _ & _ & W1 & W2 & _); [left; auto|]. lra.
      + exists mid. auto.
  Qed.

  (** ** Vertices on the ray from the first end through the second *)
  Lemma ray_dist h a b u t : (0 <= t)%R -> pt h u = between (pt h a) (pt h b) t -> dist h a u = (t * dist h a b)%R.
  Proof.
    intros T E. unfold dist. rewrite E. replace (vsub (between (pt h a) (pt h b) t) (pt h a)) with (vscale t (vsub (pt h b) (pt h a))); [rewrite norm_scale, Rabs_right; lra|].
    apply vec_ext; unfold between, vadd, vsub, vscale; cbn [vx vy vz]; ring.
  Qed.
  Lemma covers h : forall l x (D : vec) (t : nat -> R) (p0 : vec),
    (forall u, In u (x :: l) -> pt h u = vadd p0 (vscale (t u) D)) -> StronglySorted (fun u w => (t u <= t w)%R) (x :: l) ->
    forall s, (t x <= s <= t (last l x))%R -> l <> [] -> exists k u w, nth_error (x :: l) k = Some u /\ nth_error (x :: l) (S k) = Some w /\
      on_segment (pt h u) (pt h w) (vadd p0 (vscale s D)).
  Proof.
    induction l as [|y l IH]; intros x D t p0 Hp S s Hs N; [congruence|]. inversion S as [|? ? S' F]; subst. rewrite Forall_forall in F.
    assert (Txy : (t x <= t y)%R) by (apply F; left; auto).
    destruct (Rle_dec s (t y)) as [Le|Gt].
    - exists 0, x, y. repeat split; auto. rewrite (Hp x), (Hp y) by (simpl; auto).
      destruct (Req_dec (t x) (t y)) as [E|NE].
      + exists 0%R. split; [lra|]. assert (s = t x) as -> by lra. apply vec_ext; unfold between, vadd, vsub, vscale; cbn [vx vy vz]; ring.
      + exists ((s - t x) / (t y - t x))%R. split.
        * split; [apply Rmult_le_pos; [lra|left; apply Rinv_0_lt_compat; lra]|]. apply Rmult_le_reg_r with (t y - t x)%R; [lra|]. unfold Rdiv. rewrite Rmult_assoc, Rinv_l; lra.
        * apply vec_ext; unfold between, vadd, vsub, vscale; cbn [vx vy vz]; field; lra.
    - assert (l <> []). { intros ->. simpl in Hs. lra. }
      destruct (IH y D t p0) with (s := s) as (k & u & w & H1 & H2 & H3); auto.
      + intros u Hu. apply Hp. right. auto.
      + split; [lra|]. destruct Hs as (_ & Hs). replace (last l y) with (last (y :: l) x); auto. destruct l; [congruence|]. cbn [last]. clear. revert n. induction l as [|z l IH]; intros n; auto. cbn [last]. apply IH.
      + exists (Datatypes.S k), u, w. auto.
  Qed.

  Lemma embed_line h vs e shift a b us a' b' : live h (a :: b :: vs) -> h_ends e = [a; b] -> first_of_each h vs us ->
    replaced h (fun u => In u us) a a' -> replaced h (fun u => In u us /\ u <> a') b b' ->
    (forall u, In u us -> on_ray (pt h a') (pt h b') (pt h u)) ->
    exists es out, embed_vertex_in_edge argsort_R argsort h vs e shift = Ok (h, mk_host [a'; b'] (h_immersed e ++ es), out) /\
      (forall u, In u out -> on_segment (pt h a') (pt h b') (pt h u)) /\
      (forall u, In u us -> on_segment (pt h a') (pt h b') (pt h u) -> ~ near (dist h a' u) 0 -> ~ near (dist h a' u) (dist h a' b') -> In u out) /\
      (out <> [] -> forall q, on_segment (pt h a') (pt h b') q <-> exists k ends, In (k, ends) es /\ on_edge h ends q).
  Proof.
    intros L He Fu Ra Rb Ray. destruct (embed_lemma h vs e shift a b us a' b' L He Fu Ra Rb) as (es & out & E & Mem & _ & _ & J). exists es, out. split; [exact E|].
    assert (On : forall u, In u out -> on_segment (pt h a') (pt h b') (pt h u)).
    { intros u H. apply Mem in H as (H & _ & _ & W1 & W2 & _). destruct (Ray u H) as (t & T & P). exists t. split; auto. split; auto. rewrite (ray_dist h a' b' u t T P) in W1, W2.
      apply Rnot_lt_le. intros C. assert (0 < dist h a' b')%R by (apply Rle_lt_trans with (t * dist h a' b')%R; lra). assert (1 * dist h a' b' < t * dist h a' b')%R by (apply Rmult_lt_compat_r; auto). lra. }
    split; [exact On|]. split.
    - intros u H (t & T & P) N1 N2. apply Mem. assert (D := ray_dist h a' b' u t (proj1 T) P).
      assert (Dp : (0 <= dist h a' b')%R) by apply norm_nonneg. assert (Du : (0 <= dist h a' u)%R) by apply norm_nonneg.
      assert (NZ : near 0 0). { unfold near. rewrite Rminus_diag_eq, Rabs_R0 by auto. lra. }
      assert (NL : near (dist h a' b') (dist h a' b')). { unfold near. rewrite Rminus_diag_eq, Rabs_R0 by auto. pose proof (Rabs_pos (dist h a' b')). lra. }
      repeat split; auto.
      + intros ->. apply N1. unfold dist. rewrite vsub_self, norm_vzero. auto.
      + intros ->. auto.
      + destruct Du as [|Du]; auto. exfalso. apply N1. rewrite <- Du. auto.
      + assert (dist h a' u <= dist h a' b')%R as [|C]; auto; [|exfalso; apply N2; rewrite C; auto]. rewrite D. rewrite <- (Rmult_1_l (dist h a' b')) at 2. apply Rmult_le_compat_r; lra.
    - intros N. destruct (J N) as (mid & Pm & Sm & Hl & Jn). intros q.
      assert (HD : (0 < dist h a' b')%R). { destruct out as [|u o]; [congruence|]. destruct (proj1 (Mem u)) as (_ & _ & _ & W1 & W2 & _); [left; auto|]. lra. }
      assert (Ends : forall u, In u (a' :: mid ++ [b']) -> on_segment (pt h a') (pt h b') (pt h u)).
      { intros u [<-|H]; [exists 0%R; split; [lra|]; apply vec_ext; unfold between, vadd, vsub, vscale; cbn [vx vy vz]; ring|]. apply in_app_or in H as [H|[<-|[]]]; [apply On; apply (Permutation_in _ Pm); auto|].
        exists 1%R. split; [lra|]. apply vec_ext; unfold between, vadd, vsub, vscale; cbn [vx vy vz]; ring. }
      assert (Sym : forall p r x, on_segment p r x -> on_segment r p x).
      { intros p r x (s & Hs & ->). exists (1 - s)%R. split; [lra|]. apply vec_ext; unfold between, vadd, vsub, vscale; cbn [vx vy vz]; ring. }
      split.
      + intros (s & Hs & ->).
        set (t := fun u => (dist h a' u / dist h a' b')%R).
        assert (Ht : forall u, In u (a' :: mid ++ [b']) -> pt h u = vadd (pt h a') (vscale (t u) (vsub (pt h b') (pt h a')))).
        { intros u H. destruct (Ends u H) as (r & Hr & P). unfold t. rewrite (ray_dist h a' b' u r (proj1 Hr) P). unfold Rdiv. rewrite Rmult_assoc, Rinv_r, Rmult_1_r by lra. exact P. }
        assert (Da : dist h a' a' = 0%R) by (unfold dist; rewrite vsub_self, norm_vzero; auto).
        assert (St : StronglySorted (fun u w => (t u <= t w)%R) (a' :: mid ++ [b'])).
        { assert (Mono : forall u w, (dist h a' u <= dist h a' w)%R -> (t u <= t w)%R) by (intros; unfold t; apply Rmult_le_compat_r; [left; apply Rinv_0_lt_compat; auto|auto]).
          constructor.
          - assert (Bd : forall u, In u mid -> (dist h a' u <= dist h a' b')%R). { intros u H. apply (Permutation_in _ Pm) in H. apply Mem in H as (_ & _ & _ & _ & W2 & _). lra. }
            clear - Sm Bd Mono. induction mid as [|x m IH]; simpl; [repeat constructor|]. inversion Sm as [|? ? S' F]; subst. rewrite Forall_forall in F. constructor; [apply IH; auto; intros; apply Bd; right; auto|].
            apply Forall_forall. intros y Hy. apply Mono. apply in_app_or in Hy as [Hy|[<-|[]]]; [auto|]. apply Bd. left. auto.
          - apply Forall_forall. intros y _. apply Mono. rewrite Da. apply norm_nonneg. }
        destruct (covers h (mid ++ [b']) a' (vsub (pt h b') (pt h a')) t (pt h a') Ht St s) as (k & u & w & H1 & H2 & H3).
        * rewrite last_last. unfold t. rewrite Da. unfold Rdiv. rewrite Rmult_0_l, Rinv_r by lra. lra.
        * destruct mid; discriminate.
        * destruct (Jn k u w H1 H2) as (ends & X1 & X2 & _). exists (Z.of_nat k + shift)%Z, ends. split; [eapply nth_error_In; eauto|].
          apply Permutation_sym, Permutation_length_2_inv in X2 as [-> | ->]; [exists u, w|exists w, u]; split; auto.
      + intros (k & ends & Hin & x & y & -> & Hq). apply In_nth_error in Hin as (i & Hi).
        assert (i < length es) by (apply nth_error_Some; congruence).
        destruct (nth_error (a' :: mid ++ [b']) i) as [u|] eqn:Eu; [|apply nth_error_None in Eu; lia].
        destruct (nth_error (a' :: mid ++ [b']) (S i)) as [w|] eqn:Ew; [|apply nth_error_None in Ew; lia].
        destruct (Jn i u w Eu Ew) as (en & X1 & X2 & _). rewrite Hi in X1. injection X1 as _ <-.
        assert (Hx : In x (a' :: mid ++ [b']) /\ In y (a' :: mid ++ [b'])).
        { apply nth_error_In in Eu. apply nth_error_In in Ew. split; [assert (K : In x [u; w]) by (apply (Permutation_in _ X2); left; auto)|assert (K : In y [u; w]) by (apply (Permutation_in _ X2); right; left; auto)];
          destruct K as [<-|[<-|[]]]; auto. }
        destruct Hx as (Hx & Hy). destruct (Ends x Hx) as (s1 & B1 & P1). destruct (Ends y Hy) as (s2 & B2 & P2). destruct Hq as (r & Br & ->).
        exists (s1 + r * (s2 - s1))%R. split.
        * split; nra.
        * rewrite P1, P2. apply vec_ext; unfold between, vadd, vsub, vscale; cbn [vx vy vz]; ring.
  Qed.
End Main.
