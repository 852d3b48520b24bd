(** * Specification vocabulary for intersected edges *)
From Coq Require Import List Arith ZArith Reals Permutation Sorted.
From Verif Require Import Base VecBase GeoSpec VertexModel EmbedModel EmbedSpec.
Import ListNotations.
Local Open Scope R_scope.

(** Coordinate [axis] of a point (0: x, 1: y, otherwise: z). *)
Definition coord (axis : nat) (p : vec) : R := match axis with 0%nat => vx p | 1%nat => vy p | _ => vz p end.
(** Twice the signed area of the triangle with sides [u], [v], seen along [axis]. *)
Definition area2 (axis : nat) (u v : vec) : R := coord axis (cross u v).

Section Network.
  Variable h : heap.
  Variable edges : list (option host).
  (** Entry [i] is an edge from [a] to [b] with nothing immersed; a wire is [None]. *)
  Definition edge_at (i a b : nat) : Prop := nth_error edges i = Some (Some (mk_host [a; b] [])).
  (** [x] is on the edges [i] and [j] *)
  Definition meet (i j : nat) (x : vec) : Prop := i <> j /\ exists a b p q, edge_at i a b /\ edge_at j p q /\
    on_segment (pt h a) (pt h b) x /\ on_segment (pt h p) (pt h q) x.
  (** and is not the point of an end of both. *)
  Definition crossing (i j : nat) (x : vec) : Prop := meet i j x /\
    forall v a b p q, edge_at i a b -> edge_at j p q -> In v [a; b] -> In v [p; q] -> pt h v <> x.
  (** A point of edge [i] where it crosses another. *)
  Definition cut_point (i : nat) (x : vec) : Prop := exists j, crossing i j x.

  (** Edges and wires in a plane across [axis], tags distinct, no two points so close that the
      tolerances matter. *)
  Record clear_network (eps : R) (axis : nat) : Prop := {
    net_eps : 0 < eps;
    net_edges : forall e, In (Some e) edges -> exists a b, e = mk_host [a; b] [] /\ live h [a; b];
    net_tags : NoDup (map fst h);
    net_plane : forall i a b j p q x y, edge_at i a b -> edge_at j p q -> In x [a; b] -> In y [p; q] -> coord axis (pt h x) = coord axis (pt h y);
    (** two edges are definitely not parallel, or parallel and not collinear *)
    net_definite : forall i j a b p q, (i < j)%nat -> edge_at i a b -> edge_at j p q ->
      let u := vsub (pt h b) (pt h a) in
      eps <= Rabs (area2 axis u (vsub (pt h q) (pt h p))) \/
      (area2 axis u (vsub (pt h q) (pt h p)) = 0 /\ 2 * eps <= Rabs (area2 axis u (vsub (pt h p) (pt h a))));
    (** a point where edges meet is an end or far from it *)
    net_ends : forall i j x a b v, meet i j x -> edge_at i a b -> In v [a; b] -> near_point x (pt h v) -> x = pt h v;
    net_inside : forall i j x a b v, meet i j x -> edge_at i a b -> (forall w, In w [a; b] -> x <> pt h w) ->
      In v [a; b] -> ~ near (norm (vsub x (pt h a))) (norm (vsub (pt h v) (pt h a)));
    (** and so are two such points *)
    net_points : forall i j x k l y, meet i j x -> meet k l y -> near_point x y -> x = y }.
End Network.

(** The end [v] of an edge is taken by a new vertex, of position at least [n], at its point, if
    the point is one of [C], and stays otherwise. *)
Definition end_taken (h : heap) (n : nat) (C : vec -> Prop) (v v' : nat) : Prop :=
  pt h v' = pt h v /\ ((C (pt h v) /\ (n <= v' < length h)%nat) \/ (~ C (pt h v) /\ v' = v)).
(** The edges [es] cut the edge from [a] to [b], whose ends have become [a'] and [b'], at those of the points [C] which are
    not ends: they join the ends through the new vertices at these points, in order, and
    together are the edge.  Without such points there are none. *)
Definition cut (h : heap) (n : nat) (C : vec -> Prop) (a b a' b' : nat) (es : list (Z * list nat)) : Prop :=
  end_taken h n C a a' /\ end_taken h n C b b' /\
  ((es = [] /\ forall x, C x -> x = pt h a \/ x = pt h b) \/
   exists mid shift, mid <> [] /\ (forall x, In x (map (pt h) mid) <-> C x /\ x <> pt h a /\ x <> pt h b) /\
     (forall v, In v mid -> (n <= v < length h)%nat) /\
     StronglySorted (fun v w => dist h a' v < dist h a' w) mid /\
     joined h shift (a' :: mid ++ [b']) es /\
     forall q, on_segment (pt h a) (pt h b) q <-> exists k ends, In (k, ends) es /\ on_edge h ends q).

(** The immersed edges of an entry. *)
Definition immersed_in (e : option host) : list (Z * list nat) := match e with Some e => h_immersed e | None => [] end.
(** [shift], [shift + 1], ... ([n] numbers) *)
Definition consecutive (shift : Z) (n : nat) : list Z := map (fun k => (shift + Z.of_nat k)%Z) (seq 0 n).
