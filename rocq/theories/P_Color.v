(** * C58: colouring of a mesh *)
From Coq Require Import List Arith ZArith Bool Lia.
From Verif Require Import Base MeshModel MeshSpec GraphModel ColorModel ColorProof MeshExamples.
Import ListNotations.

(** The two maps made from a colouring whose keys are ids: exactly the entities of [c0] are
    coloured, colours are renumbered in order without gaps, and the maps are inverse to each
    other.  Missing from the claim: the routine never gets that far, see below. *)
Theorem C58_maps_partial : forall c0 (col : list (nat * nat)), NoDup (map fst col) -> (exists k x, kept c0 col k x) ->
  exists e2c c2e, color_maps c0 (map (fun it => (Int (fst it), snd it)) col) = Ok (e2c, c2e) /\
    (forall k, (exists c, dget e2c k = Some c) <-> exists x, kept c0 col k x) /\
    (forall k x c k' x' c', kept c0 col k x -> dget e2c k = Some c -> kept c0 col k' x' -> dget e2c k' = Some c' -> (x < x' <-> c < c')) /\
    (forall c, dget c2e c = None <-> ~ exists k, dget e2c k = Some c) /\
    (forall c l, dget c2e c = Some l -> NoDup l /\ forall k, In k l <-> dget e2c k = Some c) /\
    (exists m, forall c, (exists k, dget e2c k = Some c) <-> c < m).
Proof. exact maps_lemma. Qed.
Print Assumptions C58_maps_partial.

Example C58_maps : color_maps [4; 5; 6] (map (fun it => (Int (fst it), snd it)) [(6, 9); (0, 1); (4, 3); (5, 9)]) =
  Ok ([(6, 1); (4, 0); (5, 1)], [(1, [6; 5]); (0, [4])]).
Proof. reflexivity. Qed.

(** The nodes of the coloured graph are pairs, which are compared with integer ids: on every
    closed mesh, whatever the colouring, the routine raises ValueError. *)
Theorem C58_returns_refuted : forall equitable_color fuel n cs mesh_dim dim co,
  closed_mesh cs -> dim <= mesh_dim -> co <= dim -> (forall g, exists r, equitable_color g n = Ok r) ->
  coloring_mesh equitable_color (S fuel) n cs mesh_dim dim co = Err ValueError.
Proof. exact closed_raises. Qed.
Print Assumptions C58_returns_refuted.

Example C58_raises : closed_mesh ex2 /\ exists t, build_data 1 ex2 2 2 = Ok t /\
  coloring_mesh (fun g _ => Ok (map (fun v => (v, fst v)) (g_nodes g))) 1 8 ex2 2 2 1 = Err ValueError.
Proof. split; [exact (proj1 ex2_good)|]. eexists. split; vm_compute; reflexivity. Qed.

Theorem C58_never_returns : forall equitable_color fuel n cs mesh_dim dim co r,
  coloring_mesh equitable_color fuel n cs mesh_dim dim co <> Ok r.
Proof. exact never_returns. Qed.
Print Assumptions C58_never_returns.
