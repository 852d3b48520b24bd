(** * Property theorems C40, C44: numbering of shapes *)
From Coq Require Import List Arith ZArith Bool Lia.
From Verif Require Import Base TagModel TagSpec TagProof TagExamples.
Import ListNotations.

(** ** C40 *)
(** When immersed shapes have the dimension of the shape they are immersed in, the shapes of
    one dimension (immersed ones included) get pairwise different tags. *)
Theorem C40_retag_partial : forall dim_of immersed_of dimension D h, uniform_dims dim_of immersed_of D ->
  let h' := retag_shapes dim_of immersed_of dimension D h in
  forall d, d <= dimension ->
    (forall x, In x (touched immersed_of (nth d D [])) -> 0 <= h' x < Z.of_nat (length (touched immersed_of (nth d D []))))%Z /\
    (forall x y, In x (touched immersed_of (nth d D [])) -> In y (touched immersed_of (nth d D [])) -> x <> y -> h' x <> h' y).
Proof. exact retag_lemma. Qed.
Print Assumptions C40_retag_partial.
(** A lower-dimensional immersed shape is renumbered by the counter of its host. *)
Theorem C40_refuted : exists dim_of immersed_of D x y,
  (forall d s, In s (nth d D []) -> dim_of s = d) /\ In x (nth 1 D []) /\ In y (nth 1 D []) /\ x <> y /\
  forall h, retag_shapes dim_of immersed_of 2 D h x = retag_shapes dim_of immersed_of 2 D h y.
Proof. exact (ex_intro _ face_dim (ex_intro _ face_immersed (ex_intro _ face_domain (ex_intro _ 1 (ex_intro _ 2 face_collision))))). Qed.
Print Assumptions C40_refuted.
Example C40_example : uniform_dims (fun _ => 1) wire_immersed wire_domain /\
  map (retag_shapes (fun _ => 1) wire_immersed 1 wire_domain (fun _ => 0%Z)) [0; 1; 2; 3; 4] = [5; 6; 7; 8; 4]%Z.
Proof. split; [exact wire_uniform|reflexivity]. Qed.

(** ** C44 *)
(** Numbers of one dimension differ; those of a dimension are below those of a higher one if
    the tag is smaller than the number of shapes of the dimensions between (the higher
    included). *)
Theorem C44_stride_partial : forall counts, length counts <= 4 -> exists s, compute_strides counts = Ok s /\
  forall d d' t t', (forall k, k <= d -> nth k counts 0 <> 0) -> (forall k, k <= d' -> nth k counts 0 <> 0) ->
    (0 <= t)%Z -> (0 <= t')%Z ->
    exists x y, stride_tag s d t = Ok x /\ stride_tag s d' t' = Ok y /\ (0 < x)%Z /\
      (d = d' -> x = y -> t = t') /\
      (d < d' -> (t < Z.of_nat (total counts d' - total counts d))%Z -> (x < y)%Z).
Proof. exact stride_lemma. Qed.
Print Assumptions C44_stride_partial.
(** Three vertices and one edge: vertex 1 and edge 0 get the same number. *)
Theorem C44_stride_refuted : exists counts s t t', compute_strides counts = Ok s /\
  (0 <= t < Z.of_nat (nth 0 counts 0%nat))%Z /\ (0 <= t' < Z.of_nat (nth 1 counts 0%nat))%Z /\ stride_tag s 0 t = stride_tag s 1 t'.
Proof. exact (ex_intro _ [3; 1] (ex_intro _ [3; 4; 4; 4] (ex_intro _ 1%Z (ex_intro _ 0%Z (conj eq_refl (conj (conj (Zle_bool_imp_le 0 1 eq_refl) eq_refl) (conj (conj (Z.le_refl 0) eq_refl) eq_refl))))))). Qed.
Print Assumptions C44_stride_refuted.
Theorem C44_conformal : forall counts d d' t t' x y, (0 <= t < Z.of_nat (nth d counts 0%nat))%Z -> (0 <= t' < Z.of_nat (nth d' counts 0%nat))%Z ->
  conformal_tag counts d t = Some x -> conformal_tag counts d' t' = Some y -> x = y -> d = d' /\ t = t'.
Proof. exact conformal_lemma. Qed.
Print Assumptions C44_conformal.
Theorem C44_conformal_total : forall counts d t, length counts <= 4 -> Forall (fun n => n <> 0) counts -> d < length counts -> 2 <= length counts ->
  exists x, conformal_tag counts d t = Some x.
Proof. exact conformal_total. Qed.
Print Assumptions C44_conformal_total.
Example C44_example : compute_strides [4; 5; 1] = Ok [4; 9; 10; 10] /\ stride_tag [4; 9; 10; 10] 1 2 = Ok 12%Z /\
  conformal_tag [4; 5; 1] 2 0 = Some 10%Z /\ conformal_tag [4; 5; 1] 1 4 = Some 9%Z.
Proof. repeat split. Qed.
