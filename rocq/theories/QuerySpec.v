(** * Specification vocabulary for queries of a domain *)
From Coq Require Import List Arith ZArith.
From Verif Require Import Base ShapeModel ShapeSpec.
Import ListNotations.

(** [s] is one of the shapes of the domain. *)
Definition in_domain {P} (D : domain P) (s : shape P) : Prop := exists d shapes, nth_error D d = Some shapes /\ In s shapes.
(** [l'] has the elements of [l] with the property [Q], in the same order. *)
Inductive selected {A} (Q : A -> Prop) : list A -> list A -> Prop :=
| selected_nil : selected Q [] []
| selected_keep x l l' : Q x -> selected Q l l' -> selected Q (x :: l) (x :: l')
| selected_skip x l l' : ~ Q x -> selected Q l l' -> selected Q (x :: l) l'.
(** The largest element of a set of integers. *)
Definition largest (Q : Z -> Prop) (m : Z) : Prop := Q m /\ forall x, Q x -> (x <= m)%Z.
(** [v] is at the point. *)
Definition is_at {P} (pclose : P -> P -> bool) (p : P) (v : shape P) : Prop := exists q, s_point v = Some q /\ pclose q p = true.
(** A vertex with the tag of [v] belongs to one of the shapes. *)
Definition used {P} (shapes : list (shape P)) (v : shape P) : Prop :=
  exists s t c, In s shapes /\ reach s t /\ child t c /\ s_dim c = 0 /\ s_tag c = s_tag v.
(** The immersed edges of the wire form a path from [a], stored at first in the direction of
    increasing tags. *)
Definition path_of {P} (w a : shape P) (l : list (shape P * shape P)) : Prop :=
  immersed w = map fst l /\ walk a l /\ exists e v l', l = (e, v) :: l' /\ (s_tag a < s_tag v)%Z.
(** The signs [o] direct the edges of the path along the path. *)
Definition follows {P} (a : shape P) (l : list (shape P * shape P)) (o : list Z) : Prop :=
  length o = length l /\
  forall i e x y, nth_error l i = Some (e, y) -> nth_error (starts a l) i = Some x -> exists s, nth_error o i = Some s /\ leads s e x y.
