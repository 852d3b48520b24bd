(** * Lemmas: traces on facets *)
From Coq Require Import List Arith ZArith Bool Reals Lra Lia Permutation.
From Verif Require Import Base BaseProof MeshModel MeshSpec GraphModel OrientModel OrientSpec OrientProof VecBase VecProof MapModel MapSpec MapProof JacProof SpaceModel ShapeModel ElementModel ElementSpec ElementProof ElementProof7 TraceModel TraceSpec.
Import ListNotations.
Local Open Scope R_scope.

(** ** Weights by node *)
Definition ind (x y : nat) : vec := mk_vec (if (y =? x)%nat then 1 else 0) 0 0.
Lemma lincomb_cons a w x nodes y : vx (lincomb (a :: w) (map (ind x) (y :: nodes))) = a * (if (y =? x)%nat then 1 else 0) + vx (lincomb w (map (ind x) nodes)).
Proof. reflexivity. Qed.
Lemma ind_notin x nodes : forall w, ~ In x nodes -> vx (lincomb w (map (ind x) nodes)) = 0.
Proof.
  induction nodes as [|y nodes IH]; intros [|a w] H; try reflexivity.
  rewrite lincomb_cons, IH by (intros Q; apply H; right; auto).
  destruct (Nat.eqb_spec y x); [exfalso; apply H; left; auto|]. ring.
Qed.
Lemma ind_at x nodes : NoDup nodes -> forall w j, length w = length nodes -> nth_error nodes j = Some x -> vx (lincomb w (map (ind x) nodes)) = nth j w 0.
Proof.
  intros N. induction N as [|y nodes Hy N IH]; intros [|a w] j L Hj; try (destruct j; discriminate).
  rewrite lincomb_cons. destruct j as [|j]; cbn [nth_error nth] in *.
  - inversion Hj; subst y. rewrite ind_notin by auto. rewrite Nat.eqb_refl. ring.
  - rewrite (IH w j) by (simpl in *; auto; lia). destruct (Nat.eqb_spec y x).
    + subst y. exfalso. apply Hy. eapply nth_error_In; eauto.
    + ring.
Qed.
Lemma map_x_lincomb d w p : map_x (S d) w p = lincomb (linear_shapes p) w.
Proof. reflexivity. Qed.
Lemma facet_nodup d nodes i : length nodes = (d + 1)%nat -> (1 <= d <= 3)%nat -> (i <= d)%nat -> NoDup nodes -> NoDup (facet_nodes d nodes i) /\ length (facet_nodes d nodes i) = d.
Proof.
  intros L Hd Hi N.
  assert (C : (d = 1 \/ d = 2 \/ d = 3)%nat) by lia. destruct C as [->|[->| ->]].
  - destruct (list2 _ L) as (a & b & ->). destruct i as [|[|i]]; try lia; simpl; (split; [repeat constructor; auto|auto]).
  - destruct (list3 _ L) as (a & b & c & ->). destruct i as [|[|[|i]]]; try lia; simpl; (split; [|auto]);
      repeat match goal with H : NoDup (_ :: _) |- _ => apply NoDup_cons_iff in H as [? ?] end; simpl in *; repeat constructor; simpl; intuition congruence.
  - destruct (list4 _ L) as (a & b & c & e & ->). destruct i as [|[|[|[|i]]]]; try lia; simpl; (split; [|auto]);
      repeat match goal with H : NoDup (_ :: _) |- _ => apply NoDup_cons_iff in H as [? ?] end; simpl in *; repeat constructor; simpl; intuition congruence.
Qed.
(** the node left out *)
Lemma facet_without d nodes i : length nodes = (d + 1)%nat -> (2 <= d <= 3)%nat -> (i <= d)%nat -> NoDup nodes -> ~ In (nth i nodes 0%nat) (facet_nodes d nodes i).
Proof.
  intros L Hd Hi N.
  assert (C : (d = 2 \/ d = 3)%nat) by lia. destruct C as [->| ->].
  - destruct (list3 _ L) as (a & b & c & ->). destruct i as [|[|[|i]]]; try lia; simpl;
      repeat match goal with H : NoDup (_ :: _) |- _ => apply NoDup_cons_iff in H as [? ?] end; simpl in *; intuition congruence.
  - destruct (list4 _ L) as (a & b & c & e & ->). destruct i as [|[|[|[|i]]]]; try lia; simpl;
      repeat match goal with H : NoDup (_ :: _) |- _ => apply NoDup_cons_iff in H as [? ?] end; simpl in *; intuition congruence.
Qed.

Lemma mapped_lemma points c1 el i : facet_of c1 el i -> Forall (reference_point (c_dim c1)) points ->
  exists mapped, transform_lower_to_higher points c1 (el_cell el) = Ok (Some mapped) /\
    Forall2 (fun p q => length q = c_dim (el_cell el) /\ same_point (c_nodes (el_cell el)) q (c_dim c1) (c_nodes c1) p) points mapped.
Proof.
  intros [F P] Hp. pose proof (fun X => proj1 (trace_lemma points c1 (el_cell el) i X F Hp) P) as T.
  destruct (T (ind 0)) as (mapped & E & _). exists mapped. split; auto.
  assert (T' : forall X, Forall2 (fun p q => length q = c_dim (el_cell el) /\ map_x (c_dim (el_cell el)) (map X (c_nodes (el_cell el))) q = map_x (c_dim c1) (map X (c_nodes c1)) p) points mapped).
  { intros X. destruct (T X) as (m' & E' & H). rewrite E in E'. inversion E'; subst. auto. }
  clear T E. destruct F as (D0 & D1 & L0 & N0 & Hi & _).
  destruct (facet_nodup (c_dim (el_cell el)) (c_nodes (el_cell el)) i) as [N1 L1]; auto; [lia|].
  assert (N1' : NoDup (c_nodes c1)) by (eapply Permutation_NoDup; [apply Permutation_sym; eauto|auto]).
  assert (L1' : length (c_nodes c1) = c_dim (el_cell el)) by (rewrite <- L1; apply Permutation_length; auto).
  clear N1 L1 P. revert mapped T' Hp. induction points as [|p points IH]; intros mapped T' Hp.
  { specialize (T' (ind 0)). inversion T'; subst. constructor. }
  destruct mapped as [|q mapped]; [specialize (T' (ind 0)); inversion T'|]. inversion Hp as [|? ? Hp1 Hp2]; subst. constructor.
  - assert (Q : forall X, length q = c_dim (el_cell el) /\ map_x (c_dim (el_cell el)) (map X (c_nodes (el_cell el))) q = map_x (c_dim c1) (map X (c_nodes c1)) p)
      by (intros X; specialize (T' X); inversion T'; auto).
    split; [apply (Q (ind 0))|]. intros j Hj. set (x := nth j (c_nodes (el_cell el)) 0%nat).
    destruct (Q (ind x)) as [Lq H]. rewrite D0, Nat.add_1_r in H. rewrite map_x_lincomb in H. apply (f_equal vx) in H.
    rewrite (ind_at x _ N0 _ j) in H; [|simpl; lia|unfold x; apply nth_error_nth'; auto].
    rewrite H. split.
    + intros k Ek. destruct (c_dim c1) as [|d] eqn:Ed.
      * destruct (c_nodes c1) as [|y [|]]; simpl in L1'; try lia. destruct k as [|[|k]]; try discriminate. assert (Ex : y = x) by (simpl in Ek; injection Ek; auto). rewrite Ex. cbn [map map_x hd weights nth]. unfold ind. cbn [vx]. rewrite Nat.eqb_refl. reflexivity.
      * rewrite map_x_lincomb. rewrite (ind_at x _ N1' _ k); [reflexivity|simpl in Hp1 |- *; lia|exact Ek].
    + intros Hn. destruct (c_dim c1) as [|d] eqn:Ed.
      * destruct (c_nodes c1) as [|y [|]]; simpl in L1'; try lia. cbn. unfold ind. cbn. destruct (Nat.eqb_spec y x); auto. exfalso. apply Hn. left; auto.
      * rewrite map_x_lincomb. apply ind_notin; auto.
  - apply IH; auto. intros X. specialize (T' X). inversion T'; auto.
Qed.
