(** * Specification vocabulary for planes *)
From Coq Require Import List Arith ZArith.
From Verif Require Import Base ShapeModel ShapeSpec.
Import ListNotations.

Section PlanesSpec.
  Context {P : Type}.
  Definition corners (q : P * P * P * P) : list P := let '(a, b, c, d) := q in [a; b; c; d].
  (** The wire [w] with the signs [o] leads round along the edges at positions [5 k], ...,
      [5 k + 3] of [E] and the vertices at positions [4 k], ..., [4 k + 3] of [V], from the
      first of them. *)
  Definition frame (V E : list (shape P)) (k : nat) (w : shape P) (o : list Z) : Prop :=
    s_kind w = Wire /\ length (immersed w) = 4 /\ length o = 4 /\
    (exists v, nth_error V (4 * k) = Some v /\ s_boundary w = [v] /\ wire_ends w o = Ok (v, v)) /\
    forall i, i < 4 -> exists s e a b, nth_error o i = Some s /\ nth_error (immersed w) i = Some e /\ nth_error E (5 * k + i) = Some e /\
      s_kind e = Edge /\ immersed e = [] /\ nth_error V (4 * k + i) = Some a /\ nth_error V (4 * k + S i mod 4) = Some b /\ leads s e a b.
End PlanesSpec.
