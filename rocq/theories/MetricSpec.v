(** * Vocabulary for statements about sizes of cells and meshes *)
From Coq Require Import List Arith Bool ZArith Reals.
From Verif Require Import Base MeshModel VecBase CutModel.
Import ListNotations.
Local Open Scope R_scope.

Definition sum_of (l : list R) : R := fold_right Rplus 0 l.
(** The combination of points with given weights, and the convex hull of points *)
Definition combination (ws : list R) (l : list vec) : vec :=
  vsum (map (fun wp => vscale (fst wp) (snd wp)) (combine ws l)).
Definition in_hull (l : list vec) (x : vec) : Prop :=
  exists ws, length ws = length l /\ (forall w, In w ws -> 0 <= w) /\ sum_of ws = 1 /\ x = combination ws l.
Definition distance (x y : vec) : R := norm (vsub x y).
(** [d] is the diameter of the convex hull: no two points of it are further apart, and two are *)
Definition is_diameter (l : list vec) (d : R) : Prop :=
  (exists x y, in_hull l x /\ in_hull l y /\ distance x y = d) /\
  forall x y, in_hull l x -> in_hull l y -> distance x y <= d.

(** The vertices of a cell exist *)
Definition has_points (m : mesh vec) (c : cell) (l : list vec) : Prop :=
  Forall2 (fun tag p => nth_error (m_points vec m) tag = Some p) (c_nodes c) l.

(** The cells of dimension [d] and with physical tag [tag] if one is given *)
Inductive listed (d : nat) (tag : option Z) : cells -> list cell -> Prop :=
| listed_nil : listed d tag [] []
| listed_yes : forall c cs l, c_dim c = d -> (forall t, tag = Some t -> c_mat c = Some t) -> listed d tag cs l -> listed d tag (Some c :: cs) (c :: l)
| listed_no : forall c cs l, c_dim c <> d \/ (exists t, tag = Some t /\ c_mat c <> Some t) -> listed d tag cs l -> listed d tag (Some c :: cs) l.

(** The points moved by [t] after stretching by [k] *)
Definition stretched (k : R) (t : vec) (m : mesh vec) : mesh vec :=
  mk_mesh _ (m_cells vec m) (map (fun p => vadd t (vscale k p)) (m_points vec m)).
