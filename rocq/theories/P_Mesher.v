(** * Property theorems C85: the description of a domain handed to gmsh *)
From Coq Require Import List Arith ZArith Bool Lia.
From Verif Require Import Base ShapeModel ShapeSpec MesherModel MesherSpec MesherProof2 MesherProof4 MesherProof5 MesherExamples.
Import ListNotations.

(** The description of a complete domain can be given to gmsh call by call: numbers are new,
    what a call refers to exists, and curve loops are closed. *)
Theorem C85_accepted : forall P (pclose : P -> P -> bool) fuel D dimension graph, (forall x, pclose x x = true) -> 1 <= fuel ->
  complete dimension D -> graph_ready dimension graph D ->
  exists r, transfer_occ pclose fuel dimension graph D = Ok r /\ accepted nothing r.
Proof. intros P. exact transfer_lemma. Qed.
Print Assumptions C85_accepted.
Example C85_fractured : complete 2 fractured /\ graph_ready 2 None fractured /\ transfer_occ Nat.eqb 4 2 None fractured = Ok fractured_calls /\ accepted nothing fractured_calls.
Proof. exact fractured_case. Qed.
Example C85_cracked : complete 3 (cracked [] None None) /\ exists r, transfer_occ Nat.eqb 4 3 None (cracked [] None None) = Ok r /\ accepted nothing r /\
  In (AddSurfaceLoop [55; 56; 57; 58; 59; 60]%Z 45) r /\ In (Embed 1 [32; 33; 34]%Z 3 45) r /\ In (Embed 2 [62%Z] 3 45) r /\
  In (SetTransfiniteCurve 33 2) r /\ In (AddPhysicalGroup 2 [62%Z] 30) r /\ In (AddPhysicalGroup 3 [45%Z] 1) r.
Proof. exact cracked_case. Qed.

(** The points and lines are those of the undivided vertices and edges, under their numbers. *)
Theorem C85_points_lines : forall P (pclose : P -> P -> bool) fuel D dimension graph, (forall x, pclose x x = true) -> 1 <= fuel ->
  complete dimension D -> graph_ready dimension graph D -> forall r, transfer_occ pclose fuel dimension graph D = Ok r ->
  (forall p t, In (AddPoint p t) r <-> exists v, elementary D 0 v /\ s_point v = Some p /\ t = number D 0 v) /\
  (forall b e t, In (AddLine b e t) r <-> exists c x y rest, elementary D 1 c /\ s_boundary c = x :: y :: rest /\
    t = number D 1 c /\ b = number D 0 x /\ e = number D 0 y).
Proof. exact @points_lines. Qed.
Print Assumptions C85_points_lines.

(** Every face has its loop of signed curves and its plane surface, every solid its surface loop
    and its volume, and there are no others. *)
Theorem C85_cells : forall P (pclose : P -> P -> bool) fuel D dimension graph, (forall x, pclose x x = true) -> 1 <= fuel ->
  complete dimension D -> graph_ready dimension graph D -> forall r, transfer_occ pclose fuel dimension graph D = Ok r ->
  (forall f, elementary D 2 f -> exists w rest l, s_boundary f = w :: rest /\ map Z.abs l = map (number D 1) (immersed w) /\
    In (AddCurveLoop l (number D 2 f)) r /\ In (AddPlaneSurface [number D 2 f] (number D 2 f)) r) /\
  (forall l t, In (AddCurveLoop l t) r \/ In (AddPlaneSurface l t) r -> exists f, elementary D 2 f /\ t = number D 2 f) /\
  (forall b, elementary D 3 b -> exists shell rest, s_boundary b = shell :: rest /\
    In (AddSurfaceLoop (map (number D 2) (immersed shell)) (number D 3 b)) r /\ In (AddVolume [number D 3 b] (number D 3 b)) r) /\
  (forall l t, In (AddSurfaceLoop l t) r \/ In (AddVolume l t) r -> exists b, elementary D 3 b /\ t = number D 3 b).
Proof. exact @cells. Qed.
Print Assumptions C85_cells.

(** The groups carry the physical tags: a shape with a tag has the group of the entities
    standing for it (a curve that is not divided only in two dimensions, and in one if no wire
    contains it), and every group is one of these or lists the untagged ends of a tagged curve. *)
Theorem C85_groups : forall P (pclose : P -> P -> bool) fuel D dimension graph, (forall x, pclose x x = true) -> 1 <= fuel ->
  complete dimension D -> graph_ready dimension graph D -> forall r, transfer_occ pclose fuel dimension graph D = Ok r ->
  (forall d s p, In s (nth d D []) -> s_phys s = Some p -> counted dimension graph d s ->
    exists tags, In (AddPhysicalGroup d tags p) r /\ numbers D d (represents d s) tags) /\
  (forall d tags p, In (AddPhysicalGroup d tags p) r ->
    (exists s, In s (nth d D []) /\ s_phys s = Some p /\ counted dimension graph d s /\ numbers D d (represents d s) tags) \/
    (d = 0 /\ 2 <= dimension /\ exists c, In c (nth 1 D []) /\ s_phys c = Some p /\ counted dimension graph 1 c /\ numbers D 0 (loose_ends c) tags)).
Proof. exact @groups. Qed.
Print Assumptions C85_groups.
Example C85_groups_fractured : In fracture (nth 1 fractured []) /\ s_phys fracture = Some 50%Z /\ counted 2 None 1 fracture /\
  In (AddPhysicalGroup 1 [14; 15]%Z 50) fractured_calls /\ In (AddPhysicalGroup 0 [5; 7]%Z 50) fractured_calls.
Proof. exact fractured_groups. Qed.
(** When no two vertices or curves share a tag, nor two faces, nor two solids, no group is asked
    for twice. *)
Theorem C85_groups_once : forall P (D : domain P) dimension graph pclose fuel r, (forall x, pclose x x = true) -> 1 <= fuel ->
  complete dimension D -> graph_ready dimension graph D -> transfer_occ pclose fuel dimension graph D = Ok r ->
  NoDup (phys_list (nth 0 D [] ++ nth 1 D [])) -> NoDup (phys_list (nth 2 D [])) -> NoDup (phys_list (nth 3 D [])) -> NoDup (group_keys r).
Proof. exact @groups_once. Qed.
Print Assumptions C85_groups_once.
Example C85_once_fractured : NoDup (phys_list (nth 0 fractured [] ++ nth 1 fractured [])) /\ NoDup (phys_list (nth 2 fractured [])) /\ NoDup (phys_list (nth 3 fractured [])) /\
  group_keys fractured_calls = [(0, 10%Z); (1, 10%Z); (0, 11%Z); (1, 11%Z); (0, 12%Z); (1, 12%Z); (0, 13%Z); (1, 13%Z); (1, 50%Z); (0, 50%Z); (2, 1%Z)].
Proof. exact fractured_tags. Qed.
(** Two sides of a square with the same physical tag: two groups of the same dimension and tag *)
Theorem C85_groups_once_refuted : exists (D : domain nat) r l m, complete 2 D /\ transfer_occ Nat.eqb 4 2 None D = Ok r /\
  In (AddPhysicalGroup 1 l 10%Z) r /\ In (AddPhysicalGroup 1 m 10%Z) r /\ l <> m /\ ~ NoDup (group_keys r).
Proof. exact twice_refuted. Qed.
Print Assumptions C85_groups_once_refuted.
(** In three dimensions the physical tags of curves which are not divided are dropped. *)
Theorem C85_curves_lost : forall P (pclose : P -> P -> bool) fuel D graph, (forall x, pclose x x = true) -> 1 <= fuel ->
  complete 3 D -> forall r, transfer_occ pclose fuel 3 graph D = Ok r ->
  forall tags p, In (AddPhysicalGroup 1 tags p) r -> exists c, In c (nth 1 D []) /\ s_phys c = Some p /\ immersed c <> [].
Proof. exact @curves_lost. Qed.
Print Assumptions C85_curves_lost.
Theorem C85_curves_refuted : exists (D : domain nat) c p r, complete 3 D /\ elementary D 1 c /\ s_phys c = Some p /\ transfer_occ Nat.eqb 4 3 None D = Ok r /\
  forall d tags, ~ In (AddPhysicalGroup d tags p) r.
Proof. exact lost_refuted. Qed.
Print Assumptions C85_curves_refuted.

(** Every face gets the curves standing for those immersed in it, and their ends; every solid the
    immersed faces and the curves of these; the embedded curves get their number of nodes. *)
Theorem C85_embedded : forall P (pclose : P -> P -> bool) fuel D dimension graph, (forall x, pclose x x = true) -> 1 <= fuel ->
  complete dimension D -> graph_ready dimension graph D -> forall r, transfer_occ pclose fuel dimension graph D = Ok r ->
  (forall f, elementary D 2 f -> exists t0 t1, In (Embed 0 t0 2 (number D 2 f)) r /\ numbers D 0 (in_surface_0 f) t0 /\
    In (Embed 1 t1 2 (number D 2 f)) r /\ numbers D 1 (in_surface_1 f) t1 /\ forall i, in_surface_1 f i -> In (SetTransfiniteCurve (number D 1 i) 10) r) /\
  (forall b, elementary D 3 b -> exists t1 t2, In (Embed 1 t1 3 (number D 3 b)) r /\ numbers D 1 (in_volume_1 b) t1 /\
    In (Embed 2 t2 3 (number D 3 b)) r /\ numbers D 2 (in_volume_2 b) t2 /\ forall i, in_volume_1 b i -> In (SetTransfiniteCurve (number D 1 i) 2) r) /\
  (forall d tags d' t, In (Embed d tags d' t) r -> exists s, elementary D d' s /\ t = number D d' s /\
    ((d = 0 /\ d' = 2 /\ numbers D 0 (in_surface_0 s) tags) \/ (d = 1 /\ d' = 2 /\ numbers D 1 (in_surface_1 s) tags) \/
     (d = 1 /\ d' = 3 /\ numbers D 1 (in_volume_1 s) tags) \/ (d = 2 /\ d' = 3 /\ numbers D 2 (in_volume_2 s) tags))).
Proof. exact @embedded. Qed.
Print Assumptions C85_embedded.
(** A face immersed in a solid which has curves immersed in it is not embedded. *)
Theorem C85_embedded_refuted : exists (D : domain nat) b c r, complete 3 D /\ elementary D 3 b /\ In c (immersed b) /\ elementary D 2 c /\ transfer_occ Nat.eqb 4 3 None D = Ok r /\
  accepted nothing r /\ forall tags d t, In (Embed 2 tags d t) r -> ~ In (number D 2 c) tags.
Proof. exact hidden_refuted. Qed.
Print Assumptions C85_embedded_refuted.

(** The boxes of domain_market can be handed over. *)
Theorem C85_boxes : forall P (pclose : P -> P -> bool) argsort, is_argsort argsort -> (forall x, pclose x x = true) ->
  (forall fuel (points : list P) line bc_0 bc_1, 2 <= length points -> 2 <= fuel -> exists D g r, build_box_1D argsort fuel points line bc_0 bc_1 = Ok (D, g) /\
    complete 1 D /\ graph_ready 1 (Some g) D /\ (forall c, In c (nth 1 D []) -> ~ has_parent (Some g) c) /\ transfer_occ pclose fuel 1 (Some g) D = Ok r /\ accepted nothing r) /\
  (forall fuel (points : list P) area bc, 2 <= length points -> 4 <= fuel -> exists D w g r, build_box_2D pclose argsort fuel points area bc = Ok (D, w, g) /\
    complete 2 D /\ transfer_occ pclose fuel 2 (Some g) D = Ok r /\ accepted nothing r) /\
  (forall fuel (points : list P) solid bc, 8 <= length points -> 6 <= fuel -> exists D ws g r, build_box_3D pclose argsort fuel points solid bc = Ok (D, ws, g) /\
    complete 3 D /\ transfer_occ pclose fuel 3 (Some g) D = Ok r /\ accepted nothing r).
Proof. exact @boxes. Qed.
Print Assumptions C85_boxes.

(** Completeness is needed: a closed wire whose first edge runs towards the smaller tag gives a
    curve loop whose signed curves do not follow each other, a physical tag on a shell a group of
    a surface that does not exist, and a domain of dimension one whose graph was not built fails. *)
Theorem C85_loop_refuted : exists (D : domain nat) w f r l t, In f (nth 2 D []) /\ s_boundary f = [w] /\ In w (nth 1 D []) /\ s_kind w = Wire /\
  (exists a p, immersed w = map fst p /\ walk a p /\ last (map snd p) a = a) /\
  transfer_occ Nat.eqb 4 2 None D = Ok r /\ In (AddCurveLoop l t) r /\ ~ accepted nothing r.
Proof. exact down_refuted. Qed.
Print Assumptions C85_loop_refuted.
Theorem C85_shell_refuted : exists (D : domain nat) r, complete 3 (map (map untagged) D) /\ transfer_occ Nat.eqb 4 3 None D = Ok r /\ ~ accepted nothing r.
Proof. exact shell_refuted. Qed.
Print Assumptions C85_shell_refuted.
Theorem C85_no_graph : forall P (pclose : P -> P -> bool) fuel D c, (forall x, pclose x x = true) -> 1 <= fuel -> complete 1 D -> In c (nth 1 D []) -> immersed c = [] -> s_phys c <> None ->
  transfer_occ pclose fuel 1 None D = Err AttributeError.
Proof. exact @no_graph. Qed.
Print Assumptions C85_no_graph.
Example C85_no_graph_case : exists D c, complete 1 D /\ In c (nth 1 D []) /\ immersed c = [] /\ s_phys c <> None /\ transfer_occ Nat.eqb 4 1 None D = Err AttributeError.
Proof. exact no_graph_case. Qed.
