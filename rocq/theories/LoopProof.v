(** * Two fixed-point-free involutions on a finite set: the walk along them is a loop *)
From Coq Require Import List Arith Bool Lia Wf_nat.
Import ListNotations.

Section Loop.
  Variables D E V : Type.
  Variable D_dec : forall x y : D, {x = y} + {x <> y}.
  Variable V_dec : forall x y : V, {x = y} + {x <> y}.
  Variable ok : D -> Prop.
  Variable all : list D.
  Hypothesis Hall : forall d, ok d -> In d all.
  Variables alpha tau : D -> D.
  Variable edge : D -> E.
  Variable vert : D -> V.
  Hypothesis Ha : forall d, ok d -> ok (alpha d) /\ alpha (alpha d) = d /\ alpha d <> d /\ vert (alpha d) = vert d.
  Hypothesis Ht : forall d, ok d -> ok (tau d) /\ tau (tau d) = d /\ tau d <> d /\ edge (tau d) = edge d.
  Hypothesis Hv : forall d d', ok d -> ok d' -> vert d = vert d' -> d' = d \/ d' = alpha d.
  Hypothesis He : forall d d', ok d -> ok d' -> edge d = edge d' -> d' = d \/ d' = tau d.

  Definition sigma (d : D) : D := tau (alpha d).
  Fixpoint after (n : nat) (d : D) : D := match n with 0 => d | S k => sigma (after k d) end.
  Lemma ok_sigma d : ok d -> ok (sigma d).
  Proof. intros H. apply Ht. apply Ha. auto. Qed.
  Lemma ok_after n d : ok d -> ok (after n d).
  Proof. intros H. induction n; simpl; auto. apply ok_sigma. auto. Qed.
  Lemma sigma_inj d d' : ok d -> ok d' -> sigma d = sigma d' -> d = d'.
  Proof.
    intros H H' Q. unfold sigma in Q. destruct (Ha d H) as (A1 & A2 & _). destruct (Ha d' H') as (B1 & B2 & _).
    assert (R : alpha d = alpha d'). { rewrite <- (proj1 (proj2 (Ht _ A1))), <- (proj1 (proj2 (Ht _ B1))). congruence. }
    rewrite <- A2, <- B2. congruence.
  Qed.
  Lemma after_cancel d : ok d -> forall i k, after i d = after (i + k) d -> d = after k d.
  Proof.
    intros H. induction i as [|i IH]; intros k Q; [exact Q|]. apply IH. simpl in Q. apply sigma_inj in Q; auto using ok_after.
  Qed.
  Lemma shift n : forall d, after (S n) d = after n (sigma d).
  Proof. induction n as [|n IH]; intros d; auto. change (after (S (S n)) d) with (sigma (after (S n) d)). rewrite IH. reflexivity. Qed.

  Lemma pigeon d : ok d -> exists n, 0 < n <= length all /\ after n d = d.
  Proof.
    intros H. destruct (Nat.eq_dec 0 0) as [_|C]; [|congruence].
    assert (P : exists i j, i < j <= length all /\ after i d = after j d).
    { assert (N : ~ NoDup (map (fun i => after i d) (seq 0 (S (length all))))).
      { intros N. apply (NoDup_incl_length (l' := all)) in N; [rewrite map_length, seq_length in N; lia|]. intros x Hx. apply in_map_iff in Hx as (i & <- & _). apply Hall, ok_after. auto. }
      assert (G : forall f m, (forall i j, i < j < m -> f i <> f j :> D) -> NoDup (map f (seq 0 m))).
      { clear. intros f m Q. assert (G : forall k s, s + k <= m -> NoDup (map f (seq s k))).
        { induction k as [|k IH]; intros s L; [constructor|]. cbn [seq map]. constructor; [|apply IH; lia]. intros I. apply in_map_iff in I as (j & E0 & I). apply in_seq in I. apply (Q s j); [lia|auto]. }
        apply G. lia. }
      destruct (existsb (fun i => existsb (fun j => (i <? j) && if D_dec (after i d) (after j d) then true else false) (seq 0 (S (length all)))) (seq 0 (S (length all)))) eqn:Ex.
      - apply existsb_exists in Ex as (i & _ & Ex). apply existsb_exists in Ex as (j & Ij & Ex). apply andb_true_iff in Ex as [L Ex]. apply Nat.ltb_lt in L. apply in_seq in Ij.
        exists i, j. split; [lia|]. destruct (D_dec _ _); [auto|discriminate].
      - exfalso. apply N. apply G. intros i j L Q. assert (T : existsb (fun i => existsb (fun j => (i <? j) && if D_dec (after i d) (after j d) then true else false) (seq 0 (S (length all)))) (seq 0 (S (length all))) = true); [|congruence].
        apply existsb_exists. exists i. split; [apply in_seq; lia|]. apply existsb_exists. exists j. split; [apply in_seq; lia|]. apply andb_true_iff. split; [apply Nat.ltb_lt; lia|]. destruct (D_dec _ _); auto. }
    destruct P as (i & j & L & Q). exists (j - i). split; [lia|]. symmetry. apply (after_cancel d H i). replace (i + (j - i)) with j by lia. exact Q.
  Qed.

  (** the first return to the vertex of [d] *)
  Definition returns (d : D) (n : nat) : Prop := 0 < n /\ vert (after n d) = vert d /\ forall k, 0 < k < n -> vert (after k d) <> vert d.
  Lemma first_return d : ok d -> exists n, returns d n /\ n <= length all.
  Proof.
    intros H. destruct (pigeon d H) as (m & Lm & Em).
    assert (G : forall m, 0 < m -> vert (after m d) = vert d -> exists n, n <= m /\ returns d n).
    { intros m0. induction m0 as [m0 IH] using lt_wf_ind. intros P Q.
      destruct (existsb (fun k => (0 <? k) && if V_dec (vert (after k d)) (vert d) then true else false) (seq 0 m0)) eqn:Ex.
      - apply existsb_exists in Ex as (k & Ik & Ex). apply andb_true_iff in Ex as [L Ex]. apply Nat.ltb_lt in L. apply in_seq in Ik. destruct (V_dec _ _) as [Q'|]; [|discriminate].
        destruct (IH k) as (n & Ln & R); auto; [lia|]. exists n. split; [lia|auto].
      - exists m0. split; auto. split; auto. split; auto. intros k Lk Q'.
        assert (T : existsb (fun k => (0 <? k) && if V_dec (vert (after k d)) (vert d) then true else false) (seq 0 m0) = true); [|congruence].
        apply existsb_exists. exists k. split; [apply in_seq; lia|]. apply andb_true_iff. split; [apply Nat.ltb_lt; lia|]. destruct (V_dec _ _); auto. }
    destruct (G m) as (n & Ln & R); [lia|rewrite Em; auto|]. exists n. split; auto. lia.
  Qed.

  Lemma no_reverse d : ok d -> forall m i, after (i + m) d <> tau (after i d).
  Proof.
    intros H m. induction m as [m IH] using lt_wf_ind. intros i Q. assert (Oi := ok_after i d H).
    destruct m as [|m].
    - rewrite Nat.add_0_r in Q. destruct (Ht _ Oi) as (_ & _ & N & _). congruence.
    - rewrite Nat.add_succ_r in Q. cbn [after] in Q. unfold sigma in Q.
      assert (O1 := ok_after (i + m) d H). destruct (Ha _ O1) as (A1 & A2 & A3 & _).
      assert (R : alpha (after (i + m) d) = after i d). { rewrite <- (proj1 (proj2 (Ht _ A1))), <- (proj1 (proj2 (Ht _ Oi))). congruence. }
      assert (R2 : after (i + m) d = alpha (after i d)) by (rewrite <- R; auto).
      destruct m as [|m].
      + rewrite Nat.add_0_r in R. rewrite Nat.add_0_r in A3. congruence.
      + apply (IH m ltac:(lia) (S i)). replace (S i + m) with (i + S m) by lia. rewrite R2. cbn [after]. unfold sigma.
        destruct (Ha _ Oi) as (B1 & _). symmetry. apply (Ht _ B1).
  Qed.

  Lemma edges_differ d n i j : ok d -> returns d n -> 0 < i < j -> j <= n -> edge (after i d) <> edge (after j d).
  Proof.
    intros H (_ & _ & F) L Ln Q. destruct (He _ _ (ok_after i d H) (ok_after j d H) Q) as [E1|E1].
    - apply (F (j - i)); [lia|]. f_equal. symmetry. apply (after_cancel d H i). replace (i + (j - i)) with j by lia. auto.
    - apply (no_reverse d H (j - i) i). replace (i + (j - i)) with j by lia. exact E1.
  Qed.
  Lemma verts_differ d n i j : ok d -> returns d n -> 0 < i < j -> j <= n -> vert (after i d) <> vert (after j d).
  Proof.
    intros H R L Ln Q. destruct (Hv _ _ (ok_after i d H) (ok_after j d H) Q) as [E1|E1].
    - apply (edges_differ d n i j H R L Ln). congruence.
    - assert (Oi := ok_after i d H). destruct (Ha _ Oi) as (A1 & _). assert (T : edge (after (S i) d) = edge (after j d)).
      { rewrite E1. cbn [after]. unfold sigma. apply (Ht _ A1). }
      destruct (Nat.eq_dec (S i) j) as [<-|N].
      + apply (proj1 (proj2 (proj2 (Ht _ A1)))). exact E1.
      + apply (edges_differ d n (S i) j H R); [lia|auto|auto].
  Qed.
  Lemma full_loop d n : ok d -> returns d n -> after n d = d.
  Proof.
    intros H R. destruct R as (P & Q & F). destruct (Hv _ _ H (ok_after n d H) (eq_sym Q)) as [E1|E1]; auto. exfalso.
    destruct (Ha _ H) as (A1 & _). destruct n as [|n]; [lia|]. destruct n as [|n].
    - cbn [after] in E1. unfold sigma in E1. apply (proj1 (proj2 (proj2 (Ht _ A1)))). exact E1.
    - assert (T : edge (after 1 d) = edge (after (S (S n)) d)). { rewrite E1. cbn [after]. unfold sigma. apply (Ht _ A1). }
      apply (edges_differ d (S (S n)) 1 (S (S n)) H); [split; auto|lia|lia|exact T].
  Qed.
End Loop.
