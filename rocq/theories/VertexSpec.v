(** * Specification vocabulary for operations with vertices and edges *)
From Coq Require Import List Arith ZArith Reals Permutation Sorted.
From Verif Require Import Base VecBase GeoModel GeoSpec VertexModel.
Import ListNotations.

(** The vertex [v] has another tag than both ends of the edge [e]. *)
Definition apart (h : heap) (v : nat) (e : nat * nat) : Prop := vtag h v <> vtag h (fst e) /\ vtag h v <> vtag h (snd e).

(** What [np.argsort] of floats returns. *)
Definition is_argsort_R (argsort : list R -> list nat) : Prop := forall l,
  Permutation (argsort l) (seq 0 (length l)) /\ StronglySorted Rle (map (fun i => nth i l 0%R) (argsort l)).

(** The first [n] integers from [t] on. *)
Definition tags_from (t : Z) (n : nat) : list Z := map (fun i => (t + Z.of_nat i)%Z) (seq 0 n).

(** Edges [es] and the vertices [vs] at their two ends form a chain which starts at the
    vertex [start], goes through the points [pts] in order, and ends at the vertex [finish].
    New objects have the physical tag [phys] and together the tags [tag], [tag + 1], ... *)
Record chain (phys : option Z) (tag : Z) (start finish : vertex) (pts : list vec) (es : list edge) (vs : list vertex) : Prop := {
  ch_edges : length es = S (length pts);
  ch_vertices : length vs = 2 * length es;
  ch_link : forall k e, nth_error es k = Some e -> exists v0 v1,
      nth_error vs (2 * k) = Some v0 /\ nth_error vs (2 * k + 1) = Some v1 /\
      Permutation (e_ends e) [v0; v1] /\ StronglySorted Z.le (map v_tag (e_ends e)) /\ e_phys e = phys /\
      match k with 0 => v0 = start | S j => nth_error pts j = Some (v_point v0) /\ v_phys v0 = phys end /\
      match nth_error pts k with None => v1 = finish | Some q => v_point v1 = q /\ v_phys v1 = phys end;
  ch_tags : Permutation (map e_tag es ++ map v_tag (removelast (tl vs))) (tags_from tag (3 * length pts + 1))
}.

(** The tools which touch the segment from [a] to [b], each with the point where it does. *)
Definition touching (ctol eps : R) (a b : vec) (tools : list vertex) : list (vec * vertex) :=
  flat_map (fun v => match point_line_intersection ctol (v_point v) a b eps with Some q => [(q, v)] | None => [] end) tools.
(** Points sorted by their distance to [a]. *)
Definition by_distance (a : vec) (l : list vec) : Prop := StronglySorted (fun p q => (norm (vsub p a) <= norm (vsub q a))%R) l.
(** The touching tools [l], in order, are those at the end [va], the inner ones at [pts] and
    those at the end [vb]; [start] and [finish] are the vertices at the two ends. *)
Definition splits (va vb : vertex) (l : list (vec * vertex)) (start finish : vertex) (pts : list vec) : Prop :=
  exists pre mid post, l = pre ++ mid ++ post /\ pts = map fst mid /\
    match pre with
    | [] => start = va /\ forall p v r, l = (p, v) :: r -> allclose_default p (v_point va) = false
    | [(p, v)] => start = v /\ allclose_default p (v_point va) = true
    | _ => False
    end /\
    match post with
    | [] => finish = vb /\ forall p v r, l = r ++ [(p, v)] -> allclose_default p (v_point vb) = false
    | [(p, v)] => finish = v /\ allclose_default p (v_point vb) = true
    | _ => False
    end.
(** No inner point is at one of the ends up to the tolerance. *)
Definition clear (ptol : R) (va vb : vertex) (pts : list vec) : Prop :=
  forall q, In q pts -> allclose ptol q (v_point va) = false /\ allclose ptol q (v_point vb) = false.

(** ** Where an edge is touched: [v] is a vertex of the heap, [e] the pair of ends of an edge *)
(** The point [q] of the edge from [a] to [b] which the point [p] touches: an end, or a point
    near the segment. *)
Definition touches_at (ctol ltol eps : R) (p a b q : vec) : Prop :=
  (q = a /\ close eps p a) \/ (q = b /\ close eps p b) \/ near_segment ctol ltol p a b q.
(** [p] is not near an end and not on the segment. *)
Definition misses (eps : R) (p a b : vec) : Prop := ~ close eps p a /\ ~ close eps p b /\ ~ on_segment a b p.
(** [v] counts as the end [x]: same tag, and close for both tolerances. *)
Definition is_end (ptol : R) (h : heap) (v x : nat) : Prop :=
  vtag h v = vtag h x /\ exists p q, vpoint h v = Ok p /\ vpoint h x = Ok q /\ close ptol p q /\ allclose_default p q = true.
