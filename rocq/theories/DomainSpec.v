(** * Specification vocabulary for operations with domains *)
From Coq Require Import List Arith ZArith Bool Reals Permutation Sorted.
From Verif Require Import Base VecBase GeoModel VertexModel VertexSpec DomainModel.
Import ListNotations.

(** The vertex [v] is where the tool [t] is. *)
Definition at_tool (tol : R) (v t : vertex) : Prop := allclose tol (v_point v) (v_point t) = true.
(** The vertices of a list are told apart by their tags. *)
Definition by_tag (l : list vertex) : Prop := forall x y, In x l -> In y l -> v_tag x = v_tag y -> x = y.
(** Different tags have different hashes. *)
Definition no_collision (hash : nat -> Z -> Z) (d : nat) (tags : list Z) : Prop :=
  forall s t, In s tags -> In t tags -> hash d s = hash d t -> s = t.

(** ** Union *)
(** [v], a vertex of the first domain, gives way to the tool [t]. *)
Definition gives_way (tol : R) (c0 c1 : domain1) (v t : vertex) : Prop :=
  In v (d_vertices c0) /\ In t (d_vertices c1) /\ at_tool tol v t /\ v_tag v <> v_tag t.
(** What stands in the union for the vertex [v] *)
Definition stands_for (tol : R) (c0 c1 : domain1) (v w : vertex) : Prop :=
  gives_way tol c0 c1 v w \/ (w = v /\ forall t, ~ gives_way tol c0 c1 v t).
Record joinable (tol : R) (c0 c1 : domain1) : Prop := {
  j_edges : NoDup (map e_tag (d_edges c0));
  j_foreign : forall e e', In e (d_edges c0) -> In e' (d_edges c1) -> e_tag e' <> e_tag e;
  j_first : NoDup (map v_tag (d_vertices c0));
  j_second : NoDup (map v_tag (d_vertices c1));
  j_same : by_tag (d_vertices c0 ++ d_vertices c1);
  j_ends : forall e, In e (d_edges c0) -> exists a b, e_ends e = [a; b] /\ In a (d_vertices c0) /\ In b (d_vertices c0);
  j_once : forall v t t', gives_way tol c0 c1 v t -> gives_way tol c0 c1 v t' -> t = t';
  j_old : forall v t t', gives_way tol c0 c1 v t -> In t' (d_vertices c1) -> v_tag t' <> v_tag v;
  j_used : forall v t, gives_way tol c0 c1 v t -> exists e, In e (d_edges c0) /\ In v (e_ends e) }.
(** A vertex that gives way belongs to one edge only. *)
Definition one_edge (tol : R) (c0 c1 : domain1) : Prop := forall v t e e', gives_way tol c0 c1 v t ->
  In e (d_edges c0) -> In e' (d_edges c0) -> In v (e_ends e) -> In v (e_ends e') -> e = e'.
(** No edge collapses: different vertices stand for its ends. *)
Definition no_collapse (tol : R) (c0 c1 : domain1) : Prop := forall e a b a' b', In e (d_edges c0) -> e_ends e = [a; b] ->
  stands_for tol c0 c1 a a' -> stands_for tol c0 c1 b b' -> v_tag a' <> v_tag b'.
(** The edge [e'] has tag and physical tag of [e]; its ends, sorted by tag, are [a] and [b]. *)
Definition joins (e' e : edge) (a b : vertex) : Prop :=
  e_tag e' = e_tag e /\ e_phys e' = e_phys e /\ Permutation (e_ends e') [a; b] /\ StronglySorted Z.le (map v_tag (e_ends e')).
(** The vertices of a domain are the ends of its edges, each once. *)
Definition spanned (D : domain1) : Prop :=
  NoDup (map v_tag (d_vertices D)) /\ forall v, In v (d_vertices D) <-> exists e, In e (d_edges D) /\ In v (e_ends e).

(** ** Difference followed by union *)
Section Cut.
  Variables tol eps : R.
  (** The tool [t] touches the edge from [a] to [b]. *)
  Definition touches (a b t : vertex) : Prop := exists q, point_line_intersection tol (v_point t) (v_point a) (v_point b) eps = Some q.
  (** Edges [E] with two ends which the tools [T] cut cleanly; new tags start from [tag]. *)
  Record clean_cut (E : list edge) (T : list vertex) (tag : Z) : Prop := {
    cc_ends : forall e, In e E -> exists a b, e_ends e = [a; b] /\ v_tag a <> v_tag b /\ (v_tag a < tag)%Z /\ (v_tag b < tag)%Z;
    cc_edges : NoDup (map e_tag E) /\ forall e, In e E -> (e_tag e < tag)%Z;
    cc_tools : NoDup (map v_tag T) /\ forall t, In t T -> (v_tag t < tag)%Z;
    cc_same : by_tag (flat_map e_ends E ++ T);
    (** two tools are never at the same place, nor at the same end; being close is symmetric *)
    cc_apart : forall t t', In t T -> In t' T -> at_tool tol t t' -> t = t';
    cc_one : forall e v t t', In e E -> In v (e_ends e) -> In t T -> In t' T -> at_tool tol v t -> at_tool tol v t' -> t = t';
    cc_sym : forall e v t, In e E -> In v (e_ends e) -> In t T -> at_tool tol t v -> at_tool tol v t;
    (** a tool is not at both ends; one that touches the edge is at an end or away from it, and before the second *)
    cc_both : forall e a b t, In e E -> e_ends e = [a; b] -> In t T -> ~ (at_tool tol a t /\ at_tool tol b t);
    cc_gap : forall e a b t q, In e E -> e_ends e = [a; b] -> In t T -> point_line_intersection tol (v_point t) (v_point a) (v_point b) eps = Some q ->
      (allclose_default q (v_point a) = true -> at_tool tol a t) /\ (allclose_default q (v_point b) = true -> at_tool tol b t);
    cc_before : forall e a b t, In e E -> e_ends e = [a; b] -> In t T -> touches a b t -> ~ at_tool tol a t -> ~ at_tool tol b t ->
      (norm (vsub (v_point t) (v_point a)) < norm (vsub (v_point b) (v_point a)))%R }.
  (** What stands for the end [v] of an edge: the tool that is there, if any *)
  Definition end_of (T : list vertex) (v w : vertex) : Prop :=
    (In w T /\ at_tool tol v w) \/ (w = v /\ forall t, In t T -> ~ at_tool tol v t).
  (** [start], the tools [mid] in the order of their distance, [finish]: the way along the edge from [a] to [b] *)
  Definition way_along (T : list vertex) (a b start : vertex) (mid : list vertex) (finish : vertex) : Prop :=
    end_of T a start /\ end_of T b finish /\ NoDup mid /\
    (forall t, In t mid <-> In t T /\ touches a b t /\ ~ at_tool tol a t /\ ~ at_tool tol b t) /\ by_distance (v_point a) (map v_point mid).
  Definition steps (path : list vertex) : list (vertex * vertex) := combine path (tl path).
  (** The edges [es] replace [e]: [e] itself if no tool touches it, otherwise one edge for each step. *)
  Definition refines (T : list vertex) (e : edge) (es : list edge) : Prop :=
    forall a b, e_ends e = [a; b] ->
      ((forall t, In t T -> ~ touches a b t) -> exists e', es = [e'] /\ joins e' e a b) /\
      ((exists t, In t T /\ touches a b t) -> exists start mid finish, way_along T a b start mid finish /\
         Forall2 (fun e' s => e_phys e' = e_phys e /\ Permutation (e_ends e') [fst s; snd s] /\ StronglySorted Z.le (map v_tag (e_ends e')))
           es (steps (start :: mid ++ [finish]))).
End Cut.
