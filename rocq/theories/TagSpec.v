(** * Specification vocabulary for the numbering of shapes *)
From Coq Require Import List Arith.
Import ListNotations.

(** A list of objects together with what is immersed in them *)
Definition touched (immersed_of : nat -> list nat) (l : list nat) : list nat := flat_map (fun s => s :: immersed_of s) l.
(** Every shape stored under dimension d, and everything immersed in it, has dimension d. *)
Definition uniform_dims (dim_of : nat -> nat) (immersed_of : nat -> list nat) (D : list (list nat)) : Prop :=
  forall d s, In s (nth d D []) -> dim_of s = d /\ forall i, In i (immersed_of s) -> dim_of i = d.
(** Number of shapes of dimension at most d *)
Definition total (counts : list nat) (d : nat) : nat := list_sum (firstn (S d) counts).
