(** * Vocabulary for errors and norms over the real numbers *)
From Coq Require Import String List Arith Reals.
From Verif Require Import Base FormModel FormSpec PostModel PostSpec.
Import ListNotations.
Open Scope list_scope.

(** The real numbers with their operations *)
Definition Rs : scalar := mk_scalar R R0 R1 Rplus Rmult Rminus Ropp Rinv.

(** The quadrature of dimension [dim] is positive on the cells of that dimension *)
Definition positive (dim : nat) (w : list Rs) (fld : post_field Rs) : Prop :=
  (forall x, In x w -> (0 < (x : R))%R) /\
  forall pe i, In pe (on_dim dim fld) -> i < length w -> (0 < (e_det (pe_el pe) i : R))%R.
(** Two functions agree at all points of all cells *)
Definition agree (dim : nat) (w : list Rs) (fld : post_field Rs) (m dirs : nat) (u v : post_element Rs -> nat -> nat -> nat -> Rs) : Prop :=
  forall pe i c d, In pe (on_dim dim fld) -> i < length w -> c < m -> d < dirs -> u pe i c d = v pe i c d.

