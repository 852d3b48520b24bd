(** * Points of R^3 (numpy arrays of three floats, exact arithmetic)

    Definitions only. *)
From Coq Require Import List Reals.
Import ListNotations.
Local Open Scope R_scope.

Record vec : Type := mk_vec { vx : R; vy : R; vz : R }.
Definition vzero : vec := mk_vec 0 0 0.
Definition vadd (u v : vec) : vec := mk_vec (vx u + vx v) (vy u + vy v) (vz u + vz v).
Definition vsub (u v : vec) : vec := mk_vec (vx u - vx v) (vy u - vy v) (vz u - vz v).
(** [k * v] *)
Definition vscale (k : R) (v : vec) : vec := mk_vec (k * vx v) (k * vy v) (k * vz v).
(** [v / k] *)
Definition vdiv (v : vec) (k : R) : vec := mk_vec (vx v / k) (vy v / k) (vz v / k).
(** [np.dot(u, v)] / [u @ v] *)
Definition dot (u v : vec) : R := vx u * vx v + vy u * vy v + vz u * vz v.
(** [np.cross(u, v)] *)
Definition cross (u v : vec) : vec :=
  mk_vec (vy u * vz v - vz u * vy v) (vz u * vx v - vx u * vz v) (vx u * vy v - vy u * vx v).
(** [np.linalg.norm(v)] *)
Definition norm (v : vec) : R := sqrt (dot v v).
(** sum over the rows and [np.mean(points, axis=0)] (of a non-empty array) *)
Definition vsum (l : list vec) : vec := fold_right vadd vzero l.
Definition vmean (l : list vec) : vec := vdiv (vsum l) (INR (length l)).
