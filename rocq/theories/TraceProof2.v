(** * Lemmas: the functions of a cell on its facets *)
From Coq Require Import List Arith ZArith Bool Reals Lra Lia Permutation.
From Verif Require Import Base BaseProof MeshModel MeshSpec GraphModel OrientModel OrientSpec OrientProof VecBase VecProof MapModel MapSpec MapProof JacProof SpaceModel ShapeModel ElementModel ElementSpec ElementProof ElementProof2 ElementProof3 ElementProof7 TraceModel TraceSpec TraceProof.
Import ListNotations.
Local Open Scope R_scope.

(** A weight by node: that of the facet on its nodes, 0 elsewhere *)
Fixpoint weight_of (nodes : list nat) (w : list R) (x : nat) : R :=
  match nodes, w with
  | y :: nodes', a :: w' => if (y =? x)%nat then a else weight_of nodes' w' x
  | _, _ => 0
  end.
Lemma weight_in nodes : forall w k x, NoDup nodes -> (length nodes <= length w)%nat -> nth_error nodes k = Some x -> weight_of nodes w x = nth k w 0.
Proof.
  induction nodes as [|y nodes IH]; intros [|a w] k x N L Hk; try (destruct k; discriminate); [simpl in L; lia|].
  apply NoDup_cons_iff in N as [N1 N2]. simpl. destruct k as [|k]; simpl in Hk.
  - inversion Hk; subst. rewrite Nat.eqb_refl. reflexivity.
  - destruct (Nat.eqb_spec y x); [subst; exfalso; apply N1; eapply nth_error_In; eauto|]. apply IH; auto. simpl in L; lia.
Qed.
Lemma weight_out nodes : forall w x, ~ In x nodes -> weight_of nodes w x = 0.
Proof.
  induction nodes as [|y nodes IH]; intros [|a w] x H; simpl; auto. destruct (Nat.eqb_spec y x); [exfalso; apply H; left; auto|].
  apply IH. intros Q. apply H. right. auto.
Qed.
Lemma weight_barycentric nodes0 q d nodes1 p : NoDup nodes1 -> (length nodes1 <= length (weights d p))%nat -> same_point nodes0 q d nodes1 p ->
  barycentric nodes0 q (weight_of nodes1 (weights d p)).
Proof.
  intros N L H j Hj. destruct (H j Hj) as [H1 H2]. destruct (in_dec Nat.eq_dec (nth j nodes0 0%nat) nodes1) as [Q|Q].
  - apply In_nth_error in Q as (k & Hk). rewrite (weight_in _ _ k) by auto. symmetry. auto.
  - rewrite weight_out by auto. symmetry. auto.
Qed.
Lemma weights_map nodes : forall w, NoDup nodes -> length nodes = length w -> map (weight_of nodes w) nodes = w.
Proof.
  induction nodes as [|y nodes IH]; intros [|a w] N L; try discriminate; auto. apply NoDup_cons_iff in N as [N1 N2].
  cbn [map weight_of]. rewrite Nat.eqb_refl. f_equal. transitivity (map (weight_of nodes w) nodes); [|apply IH; auto]. apply map_ext_in. intros x Hx.
  destruct (Nat.eqb_spec y x); [subst; tauto|auto].
Qed.

Section Trace.
  Variable qr : nat -> matrix -> matrix * matrix.
  Variable inv : nat -> matrix -> matrix.
  Variable X : list vec.
  Variable cs : cells.

  Definition picked (t : table) (l : list nat) : table :=
    mk_table (tb_der t) (tb_pts t) (length l) (tb_vs t) (fun k i a c => tb_val t k i (nth a l 0%nat) c).
  Lemma trace_eq points c1 el i mapped t : facet_of c1 el i -> transform_lower_to_higher points c1 (el_cell el) = Ok (Some mapped) ->
    evaluated qr inv X cs el mapped t ->
    trace qr inv X cs points c1 el true = Ok t /\
    forall l, nth_error (gen_entity_dofs (el_generator el)) (c_dim c1) = Some l -> (i < length l)%nat ->
      (forall a, In a (dofs (el_generator el) (c_dim c1) i) -> (a < tb_dof t)%nat) ->
      trace qr inv X cs points c1 el false = Ok (picked t (dofs (el_generator el) (c_dim c1) i)).
  Proof.
    intros [F _] E (mp & E1 & E2). unfold trace. rewrite E. cbn [bind]. rewrite E1. cbn [bind]. rewrite E2. cbn [bind]. split; auto.
    intros l Hl Hi Hd. destruct F as (_ & _ & _ & _ & _ & subs & S1 & S2 & S3).
    unfold get_at at 1. rewrite S1. cbn [bind]. rewrite (index_of_first _ _ _ S2 S3). cbn [bind].
    unfold entity_dofs, get_at. rewrite Hl. cbn [bind]. rewrite (nth_error_nth' l [] Hi). cbn [bind].
    assert (Q : nth i l [] = dofs (el_generator el) (c_dim c1) i) by (unfold dofs; rewrite (nth_of_error _ _ _ _ Hl); reflexivity).
    rewrite Q. unfold take_functions.
    assert (B : forallb (fun a => a <? tb_dof t)%nat (dofs (el_generator el) (c_dim c1) i) = true)
      by (apply forallb_forall; intros a Ha; apply Nat.ltb_lt; auto).
    rewrite B. reflexivity.
  Qed.
  Lemma forall2_at {A B} (R0 : A -> B -> Prop) l l' : Forall2 R0 l l' -> forall k x, nth_error l k = Some x -> exists y, nth_error l' k = Some y /\ R0 x y.
  Proof. induction 1; intros [|k] z Hz; simpl in *; try discriminate; [inversion Hz; subst; eauto|eauto]. Qed.
  Lemma facet_weights c1 el i p : facet_of c1 el i -> reference_point (c_dim c1) p -> NoDup (c_nodes c1) /\ length (c_nodes c1) = length (weights (c_dim c1) p).
  Proof.
    intros [(D0 & D1 & L0 & N0 & Hi & _) P] Hp.
    destruct (facet_nodup (c_dim (el_cell el)) (c_nodes (el_cell el)) i) as [N1 L1]; auto; [lia|]. split.
    - eapply Permutation_NoDup; [apply Permutation_sym; eauto|auto].
    - apply Permutation_length in P. rewrite P, L1, D0. destruct (c_dim c1); cbn [weights length Nat.add]; auto. simpl in *. lia.
  Qed.
  (** The mapped points: of the cell, on the facet, with the weights of the facet *)
  Lemma mapped_points points c1 el i : facet_of c1 el i -> facet_points c1 points ->
    exists mapped, transform_lower_to_higher points c1 (el_cell el) = Ok (Some mapped) /\
      points_of (c_dim (el_cell el)) mapped /\ length mapped = length points /\
      forall k p, nth_error points k = Some p -> exists q, nth_error mapped k = Some q /\
        barycentric (c_nodes (el_cell el)) q (weight_of (c_nodes c1) (weights (c_dim c1) p)) /\
        ((2 <= c_dim (el_cell el))%nat -> nth i (linear_shapes q) 0 = 0).
  Proof.
    intros F [Hne Hp]. destruct (mapped_lemma points c1 el i F Hp) as (mapped & E & H). exists mapped. split; auto. split; [|split].
    - split; [intros ->; inversion H; subst; auto|]. clear - H. induction H; constructor; tauto.
    - clear - H. induction H; simpl; auto.
    - intros k p Hk. destruct (forall2_at _ _ _ H k p Hk) as (q & Hq & Lq & Hs). exists q. split; auto.
      rewrite Forall_forall in Hp. destruct (facet_weights c1 el i p F (Hp p (nth_error_In _ _ Hk))) as [N1 L1]. split.
      + apply weight_barycentric; auto. lia.
      + intros Hd. destruct F as [(D0 & D1 & L0 & N0 & Hi & _) P].
        apply (proj2 (Hs i ltac:(lia))). intros Q. apply (facet_without (c_dim (el_cell el)) (c_nodes (el_cell el)) i); auto; [lia|].
        eapply Permutation_in; eauto.
  Qed.
End Trace.
