(** * What it means to circulate an internal boundary *)
From Coq Require Import List Arith ZArith.
From Verif Require Import MeshModel MeshSpec.
Import ListNotations.

(** A tagged edge which is not on a fracture. *)
Definition skin_edge (cs : cells) (tags : list Z) (e : nat) : Prop :=
  exists c t, cell_at cs e c /\ c_dim c = 1 /\ c_mat c = Some t /\ ~ In t tags.
Definition touches (cs : cells) (e v : nat) : Prop := exists c, cell_at cs e c /\ In v (nth 0 (c_sub c) []).
(** Exactly two objects satisfy [Q]: [x] and another one. *)
Definition two (Q : nat -> Prop) (x : nat) : Prop := exists y, y <> x /\ forall z, Q z <-> z = x \/ z = y.
(** Each skin edge has two vertices, each vertex of a skin edge has two skin edges. *)
Definition closed_skin (cs : cells) (tags : list Z) : Prop := forall e v, skin_edge cs tags e -> touches cs e v ->
  two (touches cs e) v /\ two (fun x => skin_edge cs tags x /\ touches cs x v) e.
(** A vertex with the tag of the first fracture which lies on it. *)
Definition fracture_end (cs : cells) (t0 : Z) (v : nat) : Prop :=
  (exists c, cell_at cs v c /\ c_mat c = Some t0) /\
  exists e c, cell_at cs e c /\ c_dim c = 1 /\ c_mat c = Some t0 /\ touches cs e v.
(** A path of skin edges from the vertex [v], given by its edges and the vertices reached. *)
Fixpoint path (cs : cells) (tags : list Z) (v : nat) (p : list (nat * nat)) : Prop :=
  match p with
  | [] => True
  | (e, w) :: r => skin_edge cs tags e /\ touches cs e v /\ touches cs e w /\ w <> v /\ path cs tags w r
  end.
(** A loop through [seed]: ends where it starts, and passes every edge and vertex once. *)
Definition loop (cs : cells) (tags : list Z) (seed : nat) (p : list (nat * nat)) : Prop :=
  path cs tags seed p /\ (exists e r, p = r ++ [(e, seed)]) /\ NoDup (map fst p) /\ NoDup (map snd p).
