(** * Concrete fracture networks *)
From Coq Require Import List Arith ZArith Bool QArith Permutation Lia.
From Verif Require Import Base FracModel FracSpec SegModel SegProof FracProof2.
Import ListNotations.
Local Open Scope Q_scope.

(** Three fractures: the first is met by the second at (3, 0) and by the third at (1, 0). *)
Definition three_fractures : list (point * point) :=
  [ (mk_point 0 0 0, mk_point 4 0 0); (mk_point 3 (-1) 0, mk_point 3 1 0); (mk_point 1 (-1) 0, mk_point 1 1 0) ].
Definition as_fractures (segs : list (point * point)) : list (list point) := map (fun s => [fst s; snd s]) segs.
(** ids and end vertices of the edges *)
Definition edges_of (n : network point) : list (nat * list nat * list nat) :=
  map (fun c => (gc_id c, gc_bc c, gc_imm c)) (filter (fun c => gc_dim c =? 1)%nat (n_cells point n)).

(** Two disjoint fractures on the same line. *)
Definition aligned_fractures : list (point * point) :=
  [ (mk_point 0 0 0, mk_point 1 0 0); (mk_point 2 0 0, mk_point 3 0 0) ].
Lemma aligned_refuted_lemma : exists n, intersect_fractures_q (as_fractures aligned_fractures) 0 = Ok n /\
  exists c d e, nth_error (n_cells point n) 2 = Some c /\ gc_imm c = [6; 7]%nat /\
    nth_error (n_cells point n) 6 = Some d /\ gc_bc d = [0; 3]%nat /\
    nth_error (n_cells point n) 7 = Some e /\ gc_bc e = [3; 1]%nat /\
    located point n 0 (mk_point 0 0 0) /\ located point n 3 (mk_point 2 0 0) /\ located point n 1 (mk_point 1 0 0).
Proof.
  eexists. split; [vm_compute; reflexivity|]. do 3 eexists. repeat (split; [vm_compute; reflexivity|]).
  split; [|split]; do 2 eexists; split; try (vm_compute; reflexivity); split; vm_compute; reflexivity.
Qed.
