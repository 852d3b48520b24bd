(** * C57: circulation of an internal boundary *)
From Coq Require Import List Arith ZArith Bool.
From Verif Require Import Base MeshModel MeshSpec GraphModel LoopModel LoopSpec CircProof CircEnds LoopExamples.
Import ListNotations.

(** On a closed skin the walk from the first end [v] of the fracture is a loop through [v]
    which passes every edge and every vertex once; it succeeds when the recursion limit is
    at least its length, and otherwise raises RecursionError. *)
Theorem C57_circulates : forall gfuel cs t0 rest v, let tags := t0 :: rest in
  closed_mesh cs -> closed_skin cs tags -> fracture_end cs t0 v -> (forall w, fracture_end cs t0 w -> v <= w) ->
  (exists e, skin_edge cs tags e /\ touches cs e v) ->
  exists p, loop cs tags v p /\
    forall fuel, circulate_internal_bc (S gfuel) fuel cs tags = if length p <=? fuel then Ok true else Err RecursionError.
Proof. exact circulate_lemma. Qed.
Print Assumptions C57_circulates.

Example C57_ring : closed_mesh ring /\ closed_skin ring [7%Z] /\
  (fracture_end ring 7 0 /\ (forall w, fracture_end ring 7 w -> 0 <= w) /\ exists e, skin_edge ring [7%Z] e /\ touches ring e 0) /\
  circulate_internal_bc 1 3 ring [7%Z] = Ok true /\ circulate_internal_bc 1 2 ring [7%Z] = Err RecursionError.
Proof. repeat (split; [exact ring_closed || exact ring_closed_skin || exact ring_end || (vm_compute; reflexivity)|]). vm_compute. reflexivity. Qed.

(** On any mesh the routine returns true or raises an exception. *)
Theorem C57_true_or_error : forall gfuel fuel cs tags b, circulate_internal_bc gfuel fuel cs tags = Ok b -> b = true.
Proof. exact circulate_true. Qed.
Print Assumptions C57_true_or_error.

(** On any mesh, closed skin or not, the recursion ends: with a recursion limit above the
    number of arrows of the graph the result is not RecursionError and does not depend on
    the limit. *)
Theorem C57_ends : forall gfuel cs tags g, build_graph_on_materials gfuel cs 1 1 = Ok g ->
  let N := S (length (g_edges g)) in
  circulate_internal_bc gfuel N cs tags <> Err RecursionError /\
  forall k, circulate_internal_bc gfuel (N + k) cs tags = circulate_internal_bc gfuel N cs tags.
Proof. exact ends_lemma. Qed.
Print Assumptions C57_ends.

(** An open skin: the second edge is untagged. *)
Example C57_open : exists g, build_graph_on_materials 1 ring_open 1 1 = Ok g /\ length (g_edges g) = 6 /\
  circulate_internal_bc 1 7 ring_open [7%Z] = Err AssertionError.
Proof. eexists. split; [vm_compute; reflexivity|]. split; vm_compute; reflexivity. Qed.

(** The variant for domains: it returns true only, for a two-dimensional domain of one
    shape, when that shape has no immersed shape or the skin is closed. *)
Theorem C57_from_domain : forall gfuel fuel dim immersed cs b, circulate_internal_bc_from_domain gfuel fuel dim immersed cs = Ok b ->
  b = true /\ dim = 2 /\ exists tags, immersed = [tags] /\ (tags = [] \/ circulate_internal_bc gfuel fuel cs tags = Ok true).
Proof. exact from_domain_lemma. Qed.
Print Assumptions C57_from_domain.

Example C57_domain : circulate_internal_bc_from_domain 1 3 2 [[7%Z]] ring = Ok true /\
  circulate_internal_bc_from_domain 1 3 2 [[]] ring = Ok true /\
  circulate_internal_bc_from_domain 1 3 3 [[7%Z]] ring = Err AssertionError.
Proof. repeat split; vm_compute; reflexivity. Qed.
