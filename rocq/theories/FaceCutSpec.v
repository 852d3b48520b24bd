(** * Specification vocabulary for intersected faces *)
From Coq Require Import List Arith Reals.
From Verif Require Import Base VecBase GeoSpec VertexModel EmbedSpec FaceCutModel.
Import ListNotations.

(** Both points of [s] nearly those of [t], in this order *)
Definition near_pair (s t : segment) : Prop := near_point (fst s) (fst t) /\ near_point (snd s) (snd t).
(** The segment [s] nearly joins the points of [t], in one of the two directions *)
Definition joins (s t : segment) : Prop := near_pair s t \/ near_pair (snd s, fst s) t.

Section Faces.
  Context {E : Type}.
  Variable polygon_test : list vec -> list vec -> res (option segment).
  Variable edge_eq : E -> E -> res bool.
  (** Entry [i] is a face, not a shell *)
  Definition face_at (faces : list (face E)) (i : nat) (f : face E) : Prop := nth_error faces i = Some f /\ f_shell f = false.
  (** [e] is the first edge of the face between the points of [s] *)
  Definition side_at (f : face E) (s : segment) (e : E) : Prop :=
    exists before t after, f_edges f = before ++ (e, t) :: after /\ joins t s /\ forall e' t', In (e', t') before -> ~ joins t' s.
  (** Object [i] and tool [j] meet in the segment [s], which is not an edge of both. *)
  Definition face_cut (objects tools : list (face E)) (ij : nat * nat) (s : segment) : Prop :=
    fst ij < snd ij /\ exists f g, face_at objects (fst ij) f /\ face_at tools (snd ij) g /\ polygon_test (f_outline f) (f_outline g) = Ok (Some s) /\
      forall e e', side_at f s e -> side_at g s e' -> edge_eq e e' = Ok false.
  (** The tests of all pairs of faces with the tool at the higher position return. *)
  Definition tests_return (objects tools : list (face E)) : Prop :=
    forall i j f g, i < j -> face_at objects i f -> face_at tools j g ->
      exists r, polygon_test (f_outline f) (f_outline g) = Ok r /\
        forall s e e', r = Some s -> side_at f s e -> side_at g s e' -> exists b, edge_eq e e' = Ok b.
End Faces.
(** Lexicographic order of pairs *)
Definition earlier (a b : nat * nat) : Prop := fst a < fst b \/ fst a = fst b /\ snd a < snd b.
(** Lexicographic order of the coordinates of both points *)
Definition seg_lex (s t : segment) : Prop := lex (fst s) (fst t) \/ fst s = fst t /\ lex (snd s) (snd t).
