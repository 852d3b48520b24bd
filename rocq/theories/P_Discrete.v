(** * C86: the description DiscreteDomain hands to gmsh *)
From Coq Require Import List Arith ZArith Bool.
From Verif Require Import Base ShapeModel ShapeSpec BoxProof MesherModel MesherSpec MesherExamples DiscreteSpec DiscreteProof2 DiscreteExamples.
Import ListNotations.

(** A domain of dimension two at most in which everything is drawn can be handed over, and gmsh
    is only given entities it knows. *)
Theorem C86_accepted : forall P (pclose : P -> P -> bool) fuel D refinement, (forall x, pclose x x = true) -> 1 <= fuel -> proper D ->
  exists r, convert_occ pclose fuel refinement D = Ok r /\ accepted nothing r.
Proof. exact @convert_lemma. Qed.
Print Assumptions C86_accepted.
Example C86_fractured : proper fractured /\ convert_occ Nat.eqb 4 ([11; 50]%Z, Some 5%Z) fractured = Ok fractured_discrete /\ accepted nothing fractured_discrete.
Proof. exact fractured_converted. Qed.
Example C86_pinned : proper pinned /\ convert_occ Nat.eqb 4 ([9]%Z, Some 11%Z) pinned = Ok pinned_calls /\ accepted nothing pinned_calls.
Proof. exact pinned_converted. Qed.
(** Domains which ConformalMesher can hand over are among them, when vertices standing for others
    have no physical tag. *)
Theorem C86_complete : forall P (D : domain P) dimension, complete dimension D -> dimension <= 2 ->
  (forall v, In v (nth 0 D []) -> s_phys v <> None -> immersed v = []) -> proper D.
Proof. exact @complete_proper. Qed.
Print Assumptions C86_complete.
Theorem C86_vertices_refuted : exists (D : domain nat) r, Forall (fun v => s_kind v = Vertex /\ s_point v <> None) (nth 0 D []) /\ length D = 1 /\
  convert_occ Nat.eqb 4 ([], None) D = Ok r /\ ~ accepted nothing r.
Proof. exact stand_in_refuted. Qed.
Print Assumptions C86_vertices_refuted.

(** The points, lines, loops and surfaces are those of the shapes drawn, under their numbers. *)
Theorem C86_points_lines : forall P (pclose : P -> P -> bool) fuel D refinement, (forall x, pclose x x = true) -> 1 <= fuel -> proper D ->
  forall r, convert_occ pclose fuel refinement D = Ok r ->
  (forall p t, In (AddPoint p t) r <-> exists v, drawn D 0 v /\ s_point v = Some p /\ t = place D 0 v) /\
  (forall b e t, In (AddLine b e t) r <-> exists c x y rest, drawn D 1 c /\ s_boundary c = x :: y :: rest /\
    t = place D 1 c /\ b = place D 0 x /\ e = place D 0 y).
Proof. exact @converted_points_lines. Qed.
Print Assumptions C86_points_lines.
Theorem C86_faces : forall P (pclose : P -> P -> bool) fuel D refinement, (forall x, pclose x x = true) -> 1 <= fuel -> proper D ->
  forall r, convert_occ pclose fuel refinement D = Ok r ->
  (forall f, drawn D 2 f -> exists w rest l, s_boundary f = w :: rest /\ map Z.abs l = map (place D 1) (immersed w) /\
    In (AddCurveLoop l (place D 2 f)) r /\ In (AddPlaneSurface [place D 2 f] (place D 2 f)) r) /\
  (forall l t, In (AddCurveLoop l t) r \/ In (AddPlaneSurface l t) r -> exists f, drawn D 2 f /\ t = place D 2 f) /\
  (forall l t, ~ In (AddSurfaceLoop l t) r /\ ~ In (AddVolume l t) r).
Proof. exact @converted_faces. Qed.
Print Assumptions C86_faces.

(** For each dimension there is one group for each physical tag, with exactly the drawn shapes
    having the tag. *)
Theorem C86_groups : forall P (pclose : P -> P -> bool) fuel D refinement, (forall x, pclose x x = true) -> 1 <= fuel -> proper D ->
  forall r, convert_occ pclose fuel refinement D = Ok r ->
  (forall d s p, In s (nth d D []) -> s_phys s = Some p -> exists tags, In (AddPhysicalGroup d tags p) r) /\
  (forall d tags p, In (AddPhysicalGroup d tags p) r -> (exists s, In s (nth d D []) /\ s_phys s = Some p) /\ places D d (tagged D d p) tags).
Proof. exact @converted_groups. Qed.
Print Assumptions C86_groups.
Theorem C86_groups_once : forall P (pclose : P -> P -> bool) fuel refinement D r, convert_occ pclose fuel refinement D = Ok r -> NoDup (group_keys r).
Proof. exact @converted_once. Qed.
Print Assumptions C86_groups_once.
Example C86_shared : group_keys pinned_calls = [(0, 5%Z); (1, 9%Z)] /\ tagged pinned 0 5 (pin 0 (Some 5%Z)) /\ tagged pinned 0 5 (pin 2 (Some 5%Z)).
Proof. exact pinned_keys. Qed.
(** The tag of a divided curve is not passed on to its parts. *)
Example C86_empty_group : In fracture (nth 1 fractured []) /\ s_phys fracture = Some 50%Z /\ ~ drawn fractured 1 fracture /\ In (AddPhysicalGroup 1 [] 50%Z) fractured_discrete.
Proof. exact fractured_empty. Qed.

(** Every drawn curve gets the vertices immersed in it, every face the curves standing for those
    immersed in it and their ends. *)
Theorem C86_embedded : forall P (pclose : P -> P -> bool) fuel D refinement, (forall x, pclose x x = true) -> 1 <= fuel -> proper D ->
  forall r, convert_occ pclose fuel refinement D = Ok r ->
  (forall c, drawn D 1 c -> exists t0, In (Embed 0 t0 1 (place D 1 c)) r) /\
  (forall f, drawn D 2 f -> exists t0 t1, In (Embed 0 t0 2 (place D 2 f)) r /\ In (Embed 1 t1 2 (place D 2 f)) r) /\
  (forall d tags d' t, In (Embed d tags d' t) r -> exists s, drawn D d' s /\ t = place D d' s /\
    ((d = 0 /\ d' = 1 /\ places D 0 (fun i => In i (immersed s)) tags) \/
     (d = 0 /\ d' = 2 /\ places D 0 (in_surface_0 s) tags) \/ (d = 1 /\ d' = 2 /\ places D 1 (in_surface_1 s) tags))).
Proof. exact @converted_embedded. Qed.
Print Assumptions C86_embedded.
(** An edge immersed in a face in which a vertex is immersed: the tag of the vertex is taken for
    that of a curve, which does not exist or is another one. *)
Theorem C86_crossed_refuted : exists (D : domain nat) f c v r, In f (nth 2 D []) /\ In c (immersed f) /\ drawn D 1 c /\ In v (immersed c) /\ drawn D 0 v /\
  convert_occ Nat.eqb 4 ([], None) D = Ok r /\ ~ accepted nothing r.
Proof. exact crossed_refuted. Qed.
Print Assumptions C86_crossed_refuted.
Theorem C86_embedded_refuted : exists (D : domain nat) f c e r, In f (nth 2 D []) /\ immersed f = [c] /\ drawn D 1 c /\ drawn D 1 e /\ ~ In e (immersed f) /\
  convert_occ Nat.eqb 4 ([], None) D = Ok r /\ In (Embed 1 [place D 1 e] 2 (place D 2 f)) r.
Proof. exact crossed_wrong. Qed.
Print Assumptions C86_embedded_refuted.

(** Exactly the drawn curves with one of the physical tags asked for get the number of nodes. *)
Theorem C86_refinement : forall P (pclose : P -> P -> bool) fuel D refinement, (forall x, pclose x x = true) -> 1 <= fuel -> proper D ->
  forall r, convert_occ pclose fuel refinement D = Ok r ->
  forall t n, In (SetTransfiniteCurve t n) r <->
    exists c p, drawn D 1 c /\ s_phys c = Some p /\ In p (fst refinement) /\ snd refinement = Some n /\ t = place D 1 c.
Proof. exact @converted_refinement. Qed.
Print Assumptions C86_refinement.

(** No domain with vertices, curves, faces and a level for solids can be handed over, even when
    that level is empty: line 248 uses a name which is not defined. *)
Theorem C86_solids_never : forall P (pclose : P -> P -> bool) fuel refinement (a b c d : list (shape P)) r, a <> [] -> b <> [] -> c <> [] ->
  convert_occ pclose fuel refinement [a; b; c; d] <> Ok r.
Proof. exact @solids_never. Qed.
Print Assumptions C86_solids_never.
Theorem C86_solids_name : forall P (pclose : P -> P -> bool) fuel refinement (a b c d : list (shape P)), (forall x, pclose x x = true) -> 1 <= fuel -> proper [a; b; c] -> a <> [] -> b <> [] -> c <> [] ->
  convert_occ pclose fuel refinement [a; b; c; d] = Err NameError.
Proof. exact @solids_name. Qed.
Print Assumptions C86_solids_name.
Example C86_unfinished : exists a b c, a <> [] /\ b <> [] /\ c <> [] /\ proper [a; b; c] /\ convert_occ Nat.eqb 4 ([], None) [a; b; c; []] = Err NameError.
Proof. exact unfinished_case. Qed.

(** Boxes of dimension one and two can be handed over, boxes of dimension three cannot. *)
Theorem C86_boxes : forall P (pclose : P -> P -> bool) argsort refinement, is_argsort argsort -> (forall x, pclose x x = true) ->
  (forall fuel (points : list P) line bc_0 bc_1, 2 <= length points -> 2 <= fuel -> exists D g r, build_box_1D argsort fuel points line bc_0 bc_1 = Ok (D, g) /\
    proper D /\ convert_occ pclose fuel refinement D = Ok r /\ accepted nothing r) /\
  (forall fuel (points : list P) area bc, 2 <= length points -> 4 <= fuel -> exists D w g r, build_box_2D pclose argsort fuel points area bc = Ok (D, w, g) /\
    proper D /\ convert_occ pclose fuel refinement D = Ok r /\ accepted nothing r) /\
  (forall fuel (points : list P) solid bc, 8 <= length points -> 6 <= fuel -> exists D ws g, build_box_3D pclose argsort fuel points solid bc = Ok (D, ws, g) /\
    convert_occ pclose fuel refinement D = Err NameError).
Proof. exact @discrete_boxes. Qed.
Print Assumptions C86_boxes.
