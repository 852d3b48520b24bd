(** * Property: planes in a box (src/topology/domain_market.py, build_disjoint_planes and
      build_box_3D_with_planes) *)
From Coq Require Import List Arith ZArith Bool Lia.
From Verif Require Import Base ShapeModel ShapeSpec ShapeExamples IntersectSpec PlanesModel PlanesSpec PlanesProof.
Import ListNotations.

(** ** C105 *)
Theorem C105_planes : forall (P : Type) (pclose : P -> P -> bool) (argsort : list Z -> list nat), is_argsort argsort -> (forall x, pclose x x = true) ->
  forall fuel qs f e v p, 1 <= fuel -> let m := length qs in
  exists V E F ws, build_disjoint_planes pclose argsort fuel qs f e v p = Ok ([V; E; F; []], ws) /\
    (Forall is_vertex V /\ map s_tag V = consecutive v (4 * m) /\ map s_point V = map Some (flat_map corners qs) /\ Forall (fun x => s_phys x = None) V) /\
    (map s_tag E = consecutive e (5 * m) /\ Forall (fun x => s_phys x = None) E) /\
    (map s_tag F = consecutive f m /\ map s_phys F = map Some (consecutive p m)) /\
    length ws = m /\
    forall k, k < m -> exists w o face, nth_error ws k = Some (w, o) /\ nth_error E (5 * k + 4) = Some w /\ frame V E k w o /\
      nth_error F k = Some face /\ s_kind face = Face /\ s_boundary face = [w] /\ immersed face = [].
Proof. exact (fun P => @planes_theorem P). Qed.
Print Assumptions C105_planes.
Example C105_planes_example : exists D ws, build_disjoint_planes Z.eqb argsort_example 1 [(1, 2, 3, 4); (5, 5, 6, 7)]%Z 7 18 8 20 = Ok (D, ws) /\
  map (map s_tag) D = [[8; 9; 10; 11; 12; 13; 14; 15]; [18; 19; 20; 21; 22; 23; 24; 25; 26; 27]; [7; 8]; []]%Z /\ map snd ws = [[1; 1; 1; -1]; [1; 1; 1; -1]]%Z.
Proof. eexists. eexists. split; [reflexivity|]. split; reflexivity. Qed.

(** The name intersect_faces is not imported, so that no box with planes can be built. *)
Theorem C105_box_refuted : forall (P : Type) (pclose : P -> P -> bool) (argsort : list Z -> list nat), is_argsort argsort -> (forall x, pclose x x = true) ->
  forall intersect_faces fuel points qs solid bc, 8 <= length points -> 6 <= fuel -> solid <> None \/ (exists i, i < 6 /\ bc i <> None) ->
  build_box_3D_with_planes pclose argsort intersect_faces fuel points qs solid bc = Err NameError.
Proof. exact (fun P => @planes_name P). Qed.
Print Assumptions C105_box_refuted.
Theorem C105_box_fails : forall (P : Type) (pclose : P -> P -> bool) (argsort : list Z -> list nat) intersect_faces fuel points qs solid bc,
  exists e, build_box_3D_with_planes pclose argsort intersect_faces fuel points qs solid bc = Err e.
Proof. exact (fun P => @planes_never P). Qed.
Print Assumptions C105_box_fails.
Example C105_box_example : build_box_3D_with_planes Z.eqb argsort_example (fun _ _ _ _ _ => Ok ([], [])) 6 [0; 1; 2; 3; 4; 5; 6; 7]%Z [] (Some 1%Z) (fun i => Some (Z.of_nat i)) = Err NameError.
Proof. reflexivity. Qed.
Theorem C105_untagged : forall (P : Type) (pclose : P -> P -> bool) (argsort : list Z -> list nat), is_argsort argsort -> (forall x, pclose x x = true) ->
  forall intersect_faces fuel points qs, 8 <= length points -> 6 <= fuel ->
  build_box_3D_with_planes pclose argsort intersect_faces fuel points qs None (fun _ => None) = Err ValueError.
Proof. exact (fun P => @planes_untagged P). Qed.
Print Assumptions C105_untagged.
Example C105_untagged_example : build_box_3D_with_planes Z.eqb argsort_example (fun _ _ _ _ _ => Ok ([], [])) 6 [0; 1; 2; 3; 4; 5; 6; 7]%Z [(1, 2, 3, 4)]%Z None (fun _ => None) = Err ValueError.
Proof. reflexivity. Qed.
