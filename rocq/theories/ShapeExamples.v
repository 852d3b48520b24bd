(** * Concrete shapes *)
From Coq Require Import List Arith ZArith Bool Lia Permutation Sorted Reals Lra.
From Verif Require Import Base BaseProof VecBase VecProof GeoModel GeoProof ShapeModel ShapeSpec ShapeProof DomProof.
Import ListNotations.

(** An argsort: insertion of positions by key *)
Fixpoint put_position (l : list Z) (i : nat) (js : list nat) : list nat :=
  match js with
  | [] => [i]
  | j :: r => if (nth i l 0 <=? nth j l 0)%Z then i :: js else j :: put_position l i r
  end.
Definition argsort_example (l : list Z) : list nat := fold_right (put_position l) [] (seq 0 (length l)).

Lemma put_perm l i js : Permutation (put_position l i js) (i :: js).
Proof.
  induction js as [|j js IH]; simpl; auto. destruct (_ <=? _)%Z; auto.
  transitivity (j :: i :: js); [constructor; auto|constructor].
Qed.
Lemma put_sorted l i js : StronglySorted Z.le (map (fun k => nth k l 0%Z) js) -> StronglySorted Z.le (map (fun k => nth k l 0%Z) (put_position l i js)).
Proof.
  induction js as [|j js IH]; intros S; simpl; [repeat constructor|].
  simpl in S. inversion S as [|? ? S' F]; subst. destruct (Z.leb_spec (nth i l 0%Z) (nth j l 0%Z)) as [Hle|Hlt]; simpl.
  - constructor; auto. constructor; auto. rewrite Forall_forall in F |- *. intros x Hx. apply F in Hx. lia.
  - constructor; auto. rewrite Forall_forall in F |- *. intros x Hx. apply in_map_iff in Hx as (k & <- & Hk). apply (Permutation_in _ (put_perm l i js)) in Hk as [<-|Hk]; [lia|].
    apply F. apply in_map_iff. eauto.
Qed.
Lemma argsort_example_ok : is_argsort argsort_example.
Proof.
  intros l. unfold argsort_example. induction (seq 0 (length l)) as [|i js [IH1 IH2]]; simpl; [split; constructor|]. split.
  - etransitivity; [apply put_perm|]. constructor. auto.
  - apply put_sorted. auto.
Qed.

(** Integer points compared exactly *)
Definition at_ (t : Z) (x : Z) : shape Z := new_vertex t x.
Definition edge_ (t : Z) (a b : shape Z) : shape Z := mk_shape Edge t None None [a; b] [].
Definition wire_a : shape Z := mk_shape Wire 9 None None [at_ 0 0] [edge_ 5 (at_ 0 0) (at_ 1 1)].
Definition wire_b : shape Z := mk_shape Wire 9 None None [at_ 1 1] [edge_ 5 (at_ 0 0) (at_ 1 1)].

Lemma wires_refute : shape_eq Z.eqb 10 wire_a wire_b = Ok true /\ ~ same Z.eqb wire_a wire_b.
Proof.
  split; [vm_compute; reflexivity|]. intros H. inversion H as [s t x y D|s t D D' T FB FI]; subst; [discriminate|].
  inversion FB as [|a b l l' Hab]; subst. inversion Hab; subst; discriminate.
Qed.

(** Points compared with the default tolerances *)
Local Open Scope R_scope.
Lemma Rleb_true x y : x <= y -> Rleb x y = true.
Proof. intros H. unfold Rleb. destruct (Rle_dec x y); auto; contradiction. Qed.
Lemma Rleb_false x y : y < x -> Rleb x y = false.
Proof. intros H. unfold Rleb. destruct (Rle_dec x y); auto; lra. Qed.
Definition eps_point : R := 100001 / 10000000000000.
Lemma not_symmetric : let a := new_vertex 0%Z vzero in let b := new_vertex 0%Z (mk_vec eps_point 0 0) in
  shape_eq allclose_default 1 a b = Ok true /\ shape_eq allclose_default 1 b a = Ok false.
Proof.
  assert (E0 : isclose_default 0 0 = true) by (apply Rleb_true; rewrite Rminus_0_r, Rabs_R0; lra).
  assert (E1 : isclose_default 0 eps_point = true).
  { apply Rleb_true. unfold eps_point. rewrite Rabs_left by lra. rewrite Rabs_right by lra. lra. }
  assert (E2 : isclose_default eps_point 0 = false).
  { apply Rleb_false. unfold eps_point. rewrite Rabs_R0, Rabs_right by lra. lra. }
  simpl. unfold allclose_default. simpl. rewrite E0, E1, E2. split; reflexivity.
Qed.
Local Close Scope R_scope.

(** A path of three edges, the second stored backwards *)
Definition va := at_ 0 0. Definition vb := at_ 5 1. Definition vc := at_ 3 2. Definition vd := at_ 7 3.
Definition path_example : list (shape Z * shape Z) := [(edge_ 10 va vb, vb); (edge_ 11 vc vb, vc); (edge_ 12 vc vd, vd)].
Definition path_wire : shape Z := mk_shape Wire 20 None None [] (map fst path_example).
Lemma path_walk : walk va path_example.
Proof. simpl. repeat split; try discriminate; auto. Qed.

Definition shapes_example : list (shape Z) := [at_ 0 0; at_ 1 1; edge_ 0 (at_ 0 0) (at_ 1 1); at_ 0 7].

(** ** Membership *)
Local Close Scope R_scope.
Lemma member_example : let s := mk_shape Wire 9 None None [at_ 0 0; at_ 2 2] [edge_ 5 (at_ 0 0) (at_ 1 1); edge_ 6 (at_ 1 1) (at_ 2 2)] in
  let other := edge_ 6 (at_ 1 1) (at_ 2 2) in
  ((forall c, child s c -> depth c <= 2 /\ plain c /\ graded c) /\ plain other /\ graded other /\ uniform (s_boundary s) other /\ uniform (immersed s) other /\
   NoDup (map s_tag (s_boundary s)) /\ NoDup (map s_tag (immersed s))) /\
  contains Z.eqb 2 s other = Ok true /\ contains Z.eqb 2 s (edge_ 6 (at_ 1 1) (at_ 2 3)) = Ok false /\ contains Z.eqb 2 s (at_ 1 1) = Ok false.
Proof.
  assert (V : forall t x, depth (at_ t x) <= 2 /\ plain (at_ t x) /\ graded (at_ t x)).
  { intros t x. split; [simpl; lia|]. split; [simpl; auto|]. simpl. split; [discriminate|exact I]. }
  assert (E : forall t t1 x1 t2 x2, depth (edge_ t (at_ t1 x1) (at_ t2 x2)) <= 2 /\ plain (edge_ t (at_ t1 x1) (at_ t2 x2)) /\ graded (edge_ t (at_ t1 x1) (at_ t2 x2))).
  { intros. split; [simpl; lia|]. split; [simpl; auto 10|]. simpl. repeat split; discriminate. }
  intros s other. split; [|repeat split; vm_compute; reflexivity].
  split; [intros c [[<-|[<-|[]]]|[<-|[<-|[]]]]; auto|]. split; [apply E|]. split; [apply E|].
  split; [right; intros c [<-|[<-|[]]]; discriminate|]. split; [left; intros c [<-|[<-|[]]]; reflexivity|].
  split; repeat constructor; simpl; intuition discriminate.
Qed.
Lemma closed_wire_refutes : exists s other : shape Z, In other (s_boundary s) /\ contains Z.eqb 10 s other = Ok false.
Proof. exists (mk_shape Wire 9 None None [at_ 0 0; at_ 0 0] [edge_ 5 (at_ 0 0) (at_ 1 1); edge_ 6 (at_ 0 0) (at_ 1 1)]), (at_ 0 0). split; [left; reflexivity|vm_compute; reflexivity]. Qed.
Lemma mixed_face_refutes : exists s other : shape Z, In other (immersed s) /\ contains Z.eqb 10 s other = Err AttributeError.
Proof. exists (mk_shape Face 9 None None [] [at_ 0 0; edge_ 5 (at_ 1 1) (at_ 2 2)]), (edge_ 5 (at_ 1 1) (at_ 2 2)). split; [right; left; reflexivity|vm_compute; reflexivity]. Qed.
