(** * Specification vocabulary for the description of DiscreteDomain *)
From Coq Require Import List Arith ZArith Bool.
From Verif Require Import Base ShapeModel ShapeSpec MesherModel MesherSpec.
Import ListNotations.

Section Discrete.
  Context {P : Type}.
  (** The number of a shape: after all shapes of its own and of lower dimensions, from one *)
  Definition place (D : domain P) (d : nat) (s : shape P) : Z := (Z.of_nat (length (concat (firstn (S d) D))) + s_tag s + 1)%Z.
  (** The shapes which become entities: vertices without immersed shapes, edges without immersed
      edges, and faces *)
  Definition drawn (D : domain P) (d : nat) (s : shape P) : Prop :=
    In s (nth d D []) /\
    match d with
    | 0 => immersed s = []
    | 1 => s_composite s = false /\ forall i, In i (immersed s) -> s_dim i <> 1
    | _ => s_composite s = false
    end.
  (** Everything the shapes refer to is drawn. *)
  Definition proper_vertex (v : shape P) : Prop := s_point v <> None /\ (s_phys v <> None -> immersed v = []).
  Definition proper_curve (D : domain P) (c : shape P) : Prop :=
    drawn D 1 c -> 2 <= length (s_boundary c) /\ (forall v, In v (s_boundary c) -> drawn D 0 v) /\ (forall i, In i (immersed c) -> drawn D 0 i).
  Definition proper_surface (D : domain P) (f : shape P) : Prop :=
    if s_composite f then s_phys f = None
    else (exists w r, s_boundary f = w :: r /\ closed_wire w /\ forall e, In e (immersed w) -> drawn D 1 e) /\
         forall c, In c (immersed f) -> (forall i, stands_for c i -> drawn D 1 i) /\ forall v, In v (s_boundary c) -> drawn D 0 v.
  (** A domain of dimension two at most; above an empty level there are no shapes. *)
  Definition proper (D : domain P) : Prop :=
    1 <= length D <= 4 /\ (length D = 4 -> nth 2 D [] = []) /\ (forall d, nth d D [] = [] -> nth (S d) D [] = []) /\
    (forall d s, In s (nth d D []) -> s_dim s = d /\ (0 <= s_tag s)%Z) /\ (forall d, NoDup (map s_tag (nth d D []))) /\
    Forall proper_vertex (nth 0 D []) /\ Forall (proper_curve D) (nth 1 D []) /\ Forall (proper_surface D) (nth 2 D []).
  (** [tags] are the places of the shapes satisfying [Q]. *)
  Definition places (D : domain P) (d : nat) (Q : shape P -> Prop) (tags : list Z) : Prop :=
    forall t, In t tags <-> exists i, Q i /\ t = place D d i.
  Definition tagged (D : domain P) (d : nat) (p : Z) (s : shape P) : Prop := drawn D d s /\ s_phys s = Some p.
End Discrete.
