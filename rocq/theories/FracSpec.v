(** * Specification vocabulary for fracture networks *)
From Coq Require Import List Arith ZArith Bool.
From Verif Require Import Base FracModel.
Import ListNotations.

Section Spec.
  Variable P : Type.
  Variable isect : P -> P -> P -> P -> option P.
  Variable near : P -> P -> bool.

  (** Cell [v] is the vertex at the first point of the network that is near [x]. *)
  Definition represents (n : network P) (v : nat) (x : P) : Prop :=
    exists t p c, nth_error (n_points P n) t = Some p /\ near p x = true /\
      (forall t' p', t' < t -> nth_error (n_points P n) t' = Some p' -> near p' x = false) /\
      nth_error (n_cells P n) v = Some c /\ gc_dim c = 0 /\ gc_pid c = Some t.
  (** [x] is the point computed for the fractures [k] and [l] (the one with the smaller
      number comes first in the call). *)
  Definition meets (segs : list (P * P)) (k l : nat) (x : P) : Prop :=
    exists a b p q, nth_error segs (Nat.min k l) = Some (a, b) /\ nth_error segs (Nat.max k l) = Some (p, q) /\
      k <> l /\ isect a b p q = Some x.
  (** The vertices that the intersections put on fracture [k]. *)
  Definition on_fracture (segs : list (P * P)) (n : network P) (k v : nat) : Prop :=
    exists l x, meets segs k l x /\ represents n v x.

  (** [x] comes before [y] in a list *)
  Definition before (l : list nat) (x y : nat) : Prop := exists i j, i < j /\ nth_error l i = Some x /\ nth_error l j = Some y.
  (** point of a vertex *)
  Definition located (n : network P) (v : nat) (x : P) : Prop :=
    exists c t, nth_error (n_cells P n) v = Some c /\ gc_pid c = Some t /\ nth_error (n_points P n) t = Some x.

  (** The pieces of fracture [k] form the chain [chain]: edges with consecutive ids [s],
      [s+1], ... equal to their positions, each joining two consecutive entries. *)
  Definition pieces_chain (n : network P) (tag : Z) (imm chain : list nat) : Prop :=
    exists s, imm = seq s (length chain - 1) /\
      forall t u v, nth_error chain t = Some u -> nth_error chain (t + 1) = Some v ->
        nth_error (n_cells P n) (s + t) = Some (mk_gcell 1 (s + t) tag None [u; v] []).

  (** What intersect_1D_fractures does to fracture [k]. *)
  Record fracture_split (segs : list (P * P)) (shift : Z) (n : network P) (k : nat) (imm chain : list nat) : Prop := {
    fs_line : nth_error (n_cells P n) (3 * k + 2) =
      Some (mk_gcell 1 (3 * k + 2) (Z.of_nat k + shift) None [3 * k; 3 * k + 1] imm);
    fs_first : forall a b, nth_error segs k = Some (a, b) -> located n (3 * k) a /\ located n (3 * k + 1) b;
    fs_ends : In (3 * k) chain /\ In (3 * k + 1) chain;
    fs_members : forall v, In v chain <-> v = 3 * k \/ v = 3 * k + 1 \/ on_fracture segs n k v;
    fs_nodup : NoDup chain;
    fs_none : (forall v, ~ on_fracture segs n k v) -> imm = [];
    fs_pieces : (exists v, on_fracture segs n k v) -> pieces_chain n (Z.of_nat k + shift) imm chain }.

  Definition is_vertex (cs : list gcell) (v : nat) : Prop := exists c, nth_error cs v = Some c /\ gc_dim c = 0.
  (** Every cell is
      - a vertex: the one of point [t], end number [t mod 2] of fracture [t / 2], or else the intersection
        of two fractures with the number of their pair of tags as tag, no earlier point being
        near it;
      - or a fracture, whose immersed cells are pieces without immersed cells;
      - or a piece of a fracture, one of the immersed cells of that fracture. *)
  Definition network_cells (segs : list (P * P)) (shift : Z) (n : network P) : Prop :=
    forall i c, nth_error (n_cells P n) i = Some c ->
    (exists t tag, c = mk_gcell 0 i tag (Some t) [] [] /\
       (t < 2 * length segs -> i = 3 * (t / 2) + t mod 2 /\ tag = (Z.of_nat (t / 2) + shift)%Z) /\
       (2 * length segs <= t -> i = length segs + t /\ exists k l a b p q x, k < l /\ nth_error segs k = Some (a, b) /\ nth_error segs l = Some (p, q) /\
          isect a b p q = Some x /\ nth_error (n_points P n) t = Some x /\ tag = pair_integers (Z.of_nat k + shift) (Z.of_nat l + shift) /\
          forall t' p', t' < t -> nth_error (n_points P n) t' = Some p' -> near p' x = false)) \/
    (exists k imm, k < length segs /\ c = mk_gcell 1 (3 * k + 2) (Z.of_nat k + shift) None [3 * k; 3 * k + 1] imm /\
       is_vertex (n_cells P n) (3 * k) /\ is_vertex (n_cells P n) (3 * k + 1) /\
       forall m, In m imm -> exists u v, nth_error (n_cells P n) m = Some (mk_gcell 1 m (Z.of_nat k + shift) None [u; v] [])) \/
    (exists k u v, k < length segs /\ is_vertex (n_cells P n) u /\ is_vertex (n_cells P n) v /\
       c = mk_gcell 1 i (Z.of_nat k + shift) None [u; v] [] /\
       exists imm, nth_error (n_cells P n) (3 * k + 2) = Some (mk_gcell 1 (3 * k + 2) (Z.of_nat k + shift) None [3 * k; 3 * k + 1] imm) /\ In i imm).
End Spec.
(** The graph of a network: [u -> v] when [v] bounds the line [u] or is immersed in it; only
    lines without immersed cells count unless [all_q]. *)
Definition network_arrow (cs : list gcell) (all_q : bool) (u v : nat) : Prop :=
  exists c, nth_error cs u = Some c /\ gc_dim c = 1 /\ (all_q = true \/ gc_imm c = []) /\ In v (gc_bc c ++ gc_imm c).
