(** * Specification: collapsing and intersecting edges, C98, C99 *)
From Coq Require Import List Arith ZArith Reals.
From Verif Require Import Base VecBase GeoModel GeoSpec ShapeModel ShapeSpec VertexModel VertexSpec LineSpec EdgeOpsModel.
Import ListNotations.

(** ** C98 *)
(** [v] is a vertex at [p]. *)
Definition vertex_at (v : shape vec) (p : vec) : Prop := s_kind v = Vertex /\ s_point v = Some p.
(** [e] is an edge from [p] to [q], in the order of the tags of its ends. *)
Definition edge_at (e : shape vec) (p q : vec) : Prop :=
  s_kind e = Edge /\ exists v w, s_boundary e = [v; w] /\ vertex_at v p /\ vertex_at w q.
(** [s] has all the attributes of [t]. *)
Definition copies (t s : shape vec) : Prop :=
  s_kind s = s_kind t /\ s_tag s = s_tag t /\ s_phys s = s_phys t /\ s_boundary s = s_boundary t /\ immersed s = immersed t.

(** ** C99: [h] is the heap, edges are pairs of its positions *)
Definition placed (h : heap) (e : nat * nat) (a b : vec) : Prop := vpoint h (fst e) = Ok a /\ vpoint h (snd e) = Ok b.
(** The vertex [v] at [p] gives [r] at an end of the edge [e] from [a] to [b]: the end itself
    if it is the same vertex, or a new vertex there. *)
Definition at_end (ptol eps : R) (h : heap) (tag : label) (v : nat) (p : vec) (e : nat * nat) (a b : vec) (r : met) : Prop :=
  (is_end ptol h v (fst e) /\ r = Old (fst e)) \/
  (~ is_end ptol h v (fst e) /\ is_end ptol h v (snd e) /\ r = Old (snd e)) \/
  (~ is_end ptol h v (fst e) /\ ~ is_end ptol h v (snd e) /\
   ((close eps p a /\ r = Fresh tag (Flat a)) \/ (~ close eps p a /\ close eps p b /\ r = Fresh tag (Flat b)))).
(** It is at no end. *)
Definition off_ends (ptol eps : R) (h : heap) (v : nat) (p : vec) (e : nat * nat) (a b : vec) : Prop :=
  ~ is_end ptol h v (fst e) /\ ~ is_end ptol h v (snd e) /\ ~ close eps p a /\ ~ close eps p b.
(** What the two ends of the tool give: ends of the object before inner points of it, the
    first end of the tool before the second. *)
Definition first_touch (ctol ptol eps : R) (h : heap) (tag : label) (tool : nat * nat) (p q : vec) (e : nat * nat) (a b : vec) (r : met) : Prop :=
  at_end ptol eps h tag (fst tool) p e a b r \/
  (off_ends ptol eps h (fst tool) p e a b /\ at_end ptol eps h tag (snd tool) q e a b r) \/
  (off_ends ptol eps h (fst tool) p e a b /\ off_ends ptol eps h (snd tool) q e a b /\
   ((exists x, near_segment ctol ptol p a b x /\ r = Fresh tag (Flat x)) \/
    (~ on_segment a b p /\ exists x, near_segment ctol ptol q a b x /\ r = Fresh tag (Flat x)))).
(** Neither end of the tool touches the object. *)
Definition no_touch (ptol eps : R) (h : heap) (tool : nat * nat) (p q : vec) (e : nat * nat) (a b : vec) : Prop :=
  (off_ends ptol eps h (fst tool) p e a b /\ ~ on_segment a b p) /\ (off_ends ptol eps h (snd tool) q e a b /\ ~ on_segment a b q).
(** Both ends of the tool are clear of the object. *)
Definition clear_of (ctol ptol : R) (h : heap) (tool : nat * nat) (p q : vec) (e : nat * nat) (a b : vec) : Prop :=
  off_ends ptol ptol h (fst tool) p e a b /\ off_ends ptol ptol h (snd tool) q e a b /\
  (forall x, ~ near_segment ctol ptol p a b x) /\ (forall x, ~ near_segment ctol ptol q a b x).
(** A label replaced *)
Definition retag (t : label) (r : option met) : option met := match r with Some (Fresh (Float _) p) => Some (Fresh t p) | _ => r end.
