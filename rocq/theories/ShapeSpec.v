(** * Specification vocabulary for shapes and domains *)
From Coq Require Import List Arith ZArith Bool Permutation Sorted.
From Verif Require Import Base ShapeModel.
Import ListNotations.

(** [argsort l] lists the positions of [l] in an order that sorts [l]. *)
Definition is_argsort (argsort : list Z -> list nat) : Prop := forall l,
  Permutation (argsort l) (seq 0 (length l)) /\ StronglySorted Z.le (map (fun i => nth i l 0%Z) (argsort l)).

Section ShapeSpec.
  Context {P : Type}.
  Variable pclose : P -> P -> bool.

  (** Dimensions which a shape may have in its boundary: at most its own. *)
  Definition admissible (s : shape P) (c : shape P) : Prop := s_dim c <= s_dim s.

  (** Same dimension, tag, boundary and immersed shapes, recursively; vertices have close
      points. *)
  Inductive same : shape P -> shape P -> Prop :=
  | same_vertex s t x y : s_dim s = 0 -> s_dim t = 0 -> s_tag s = s_tag t ->
      s_point s = Some x -> s_point t = Some y -> pclose x y = true -> same s t
  | same_other s t : s_dim s <> 0 -> s_dim t = s_dim s -> s_tag s = s_tag t ->
      Forall2 same (s_boundary s) (s_boundary t) -> Forall2 same (immersed s) (immersed t) -> same s t.

  (** Nesting depth of a shape *)
  Fixpoint depth (s : shape P) : nat :=
    let '(mk_shape _ _ _ _ b i) := s in S (list_max (map depth b ++ map depth i)).
  (** No shape other than a vertex has immersed shapes. *)
  Fixpoint plain (s : shape P) : Prop :=
    let '(mk_shape k _ _ _ b i) := s in k = Vertex \/ (i = [] /\ fold_right and True (map plain b)).
  (** Every vertex has a point. *)
  Fixpoint pointed (s : shape P) : Prop :=
    let '(mk_shape k _ _ p b i) := s in
    (k = Vertex -> p <> None) /\ fold_right and True (map pointed b) /\ fold_right and True (map pointed i).

  (** A path: [l] lists the edges in order, each with the vertex it leads to, from [w]. *)
  Definition is_vertex (v : shape P) : Prop := s_kind v = Vertex /\ s_point v <> None.
  Fixpoint walk (w : shape P) (l : list (shape P * shape P)) : Prop :=
    match l with
    | [] => True
    | (e, v) :: l' =>
        is_vertex w /\ is_vertex v /\ s_tag w <> s_tag v /\ (s_boundary e = [w; v] \/ s_boundary e = [v; w]) /\ walk v l'
    end.
  (** Starts of the edges of a path. *)
  Fixpoint starts (w : shape P) (l : list (shape P * shape P)) : list (shape P) :=
    match l with [] => [] | (_, v) :: l' => w :: starts v l' end.
  (** The edge [e], read in the direction given by the sign [o], goes from [a] to [b]. *)
  Definition leads (o : Z) (e a b : shape P) : Prop :=
    (o = 1%Z /\ s_boundary e = [a; b]) \/ (o = (-1)%Z /\ s_boundary e = [b; a]).

  (** The last shape of the list having its dimension and tag. *)
  Definition last_of (shapes : list (shape P)) (s : shape P) : Prop :=
    exists l1 l2, shapes = l1 ++ s :: l2 /\ forall t, In t l2 -> ~ (s_dim t = s_dim s /\ s_tag t = s_tag s).
End ShapeSpec.

Section Reach.
  Context {P : Type}.
  (** A shape of the boundary, or an immersed one *)
  Definition child (s c : shape P) : Prop := In c (s_boundary s) \/ In c (immersed s).
  (** Reached from [s] without passing below a vertex *)
  Inductive reach (s : shape P) : shape P -> Prop :=
  | reach_self : reach s s
  | reach_step t c : reach s t -> child t c -> s_dim c <> 0 -> reach s c.
End Reach.

Section Settled.
  Context {P : Type}.
  (** A shape as the setters leave it: admissible dimensions, the boundary sorted by tag with
      different shapes under different tags, and a wire made of edges with nothing immersed. *)
  Definition settled (s : shape P) : Prop :=
    Forall (admissible s) (s_boundary s) /\ Forall (admissible s) (immersed s) /\
    StronglySorted Z.le (map s_tag (s_boundary s)) /\
    (forall x y, In x (s_boundary s) -> In y (s_boundary s) -> s_tag x = s_tag y -> x = y) /\
    (s_kind s = Wire -> Forall (fun c => immersed c = []) (immersed s)).
End Settled.

Section Member.
  Context {P : Type}.
  Variable pclose : P -> P -> bool.
  (** Vertices have points, and the boundary of a shape has one dimension less. *)
  Fixpoint graded (s : shape P) : Prop :=
    let '(mk_shape k _ _ p b _) := s in
    (k = Vertex -> p <> None) /\ fold_right and True (map (fun c => S (s_dim c) = kind_dim k /\ graded c) b).
  (** All shapes of the list can be compared with [other]: they have its dimension, or none
      has. *)
  Definition uniform (l : list (shape P)) (other : shape P) : Prop :=
    (forall c, In c l -> s_dim c = s_dim other) \/ (forall c, In c l -> s_dim c <> s_dim other).
  (** One position of the list, and no other, has a shape which is the same as [other]. *)
  Definition exactly_one (l : list (shape P)) (other : shape P) : Prop :=
    exists l1 c l2, l = l1 ++ c :: l2 /\ same pclose c other /\ forall d, In d (l1 ++ l2) -> ~ same pclose d other.
End Member.
