(** * Properties C96, C97: boxes, with a network of fractures or alone, handed to gmsh *)
From Coq Require Import List Arith ZArith Bool QArith Permutation Lia.
From Verif Require Import Base FracModel FracSpec SegModel SegProof FracExamples MesherModel MesherSpec BuilderModel BuilderSpec BuilderProof5 BuilderProof6 BuilderProof7 BuilderExamples.
Import ListNotations.
Local Open Scope nat_scope.

(** ** C96 *)
(** A polygon with a network of fractures: the calls to gmsh are in order and are those of
    [fractured_polygon].  With a shift which is not negative, no two groups have the same
    dimension and tag iff the tags of the sides differ from each other and from those of the
    fractures.  With at most [(shift + 1)^2] fractures the group of points of a fracture holds
    exactly its ends. *)
Theorem C96_fractured_polygon : forall (P : Type) (isect : P -> P -> P -> P -> option P) (near : P -> P -> bool)
  (argsort : list P -> P -> list nat) (fuel : nat) (tags : dict key Z) (pts : list P) (segs : list (P * P)) (shift : Z),
  (forall x, near x x = true) -> (forall xs o, Permutation (argsort xs o) (seq 0 (length xs))) -> pts <> [] -> segs <> [] -> 2 <= fuel ->
  all_tagged (in_effect tags default_2D) (length pts) ->
  exists net r, mesh_fractured P isect near argsort fuel tags pts (map (fun s => [fst s; snd s]) segs) shift true = Ok (net, r) /\
    intersect_1D_fractures P isect near argsort (map (fun s => [fst s; snd s]) segs) shift = Ok net /\
    accepted nothing r /\ fractured_polygon P (in_effect tags default_2D) pts (length segs) shift net r /\
    ((0 <= shift)%Z -> NoDup (group_keys r) <-> tags_apart (in_effect tags default_2D) (length pts) (length segs) shift) /\
    ((0 <= shift)%Z -> (Z.of_nat (length segs) <= (shift + 1) * (shift + 1))%Z -> forall k, k < length segs ->
       forall z, tagged P (length pts) net (Z.of_nat k + shift) z <-> z = Z.of_nat (length pts + 2 * k + 1) \/ z = Z.of_nat (length pts + 2 * k + 2)).
Proof. exact fractured_lemma. Qed.
Print Assumptions C96_fractured_polygon.
Example C96_example : (forall x, near_q eps_12 x x = true) /\ (forall xs o, Permutation (argsort_q xs o) (seq 0 (length xs))) /\
  all_tagged (in_effect rectangle_tags default_2D) (length rectangle) /\
  no_points (mesh_q rectangle_tags rectangle (firstn 2 three_fractures) 10 true) =
    [AddLine 1 2 4; AddLine 2 3 5; AddLine 3 4 6; AddLine 4 1 7; AddCurveLoop [4; 5; 6; 7] 8; AddPlaneSurface [8] 8; Synchronize;
     AddPhysicalGroup 1 [4] 102; AddPhysicalGroup 1 [5] 103; AddPhysicalGroup 1 [6] 104; AddPhysicalGroup 1 [7] 105; AddPhysicalGroup 2 [8] 1; Synchronize;
     AddLine 5 9 16; AddLine 9 6 17; AddLine 7 9 18; AddLine 9 8 19; Synchronize;
     AddPhysicalGroup 0 [5; 6] 10; AddPhysicalGroup 0 [7; 8] 11; AddPhysicalGroup 0 [9] 131;
     AddPhysicalGroup 1 [16; 17] 10; AddPhysicalGroup 1 [18; 19] 11; Synchronize;
     Embed 0 [5; 9; 9; 6; 7; 9; 9; 8] 2 8; Embed 1 [16; 17; 18; 19] 2 8;
     SetTransfiniteCurve 16 10; SetTransfiniteCurve 17 10; SetTransfiniteCurve 18 10; SetTransfiniteCurve 19 10; Synchronize]%Z.
Proof.
  split; [intros; apply near_q_refl; reflexivity|]. split; [exact argsort_q_perm|]. split; [|vm_compute; reflexivity].
  split; [discriminate|]. intros i I. do 4 (destruct i as [|i]; [discriminate|]). cbn in I. lia.
Qed.

(** A side or the area without a tag: an error *)
Theorem C96_untagged : forall (P : Type) (isect : P -> P -> P -> P -> option P) (near : P -> P -> bool)
  (argsort : list P -> P -> list nat) (fuel : nat) (tags : dict key Z) (pts : list P) (segs : list (P * P)) (shift : Z) (all_q : bool),
  (forall x, near x x = true) -> (forall xs o, Permutation (argsort xs o) (seq 0 (length xs))) -> pts <> [] -> segs <> [] -> 2 <= fuel ->
  ~ all_tagged (in_effect tags default_2D) (length pts) ->
  mesh_fractured P isect near argsort fuel tags pts (map (fun s => [fst s; snd s]) segs) shift all_q = Err TypeError.
Proof. exact untagged_lemma. Qed.
Print Assumptions C96_untagged.
(** A pentagon with the default tags *)
Example C96_untagged_example : ~ all_tagged (in_effect [] default_2D) 5 /\
  mesh_q [] (rectangle ++ [mk_point (-3) 0 0]) three_fractures 10 true = Err TypeError.
Proof. split; [intros [_ H]; apply (H 4); [lia|reflexivity]|vm_compute; reflexivity]. Qed.

(** Groups are not always distinct: the default tags with shift 1 and two fractures *)
Theorem C96_default_tags_refuted : exists net r, mesh_q [] rectangle (firstn 2 three_fractures) 1 true = Ok (net, r) /\ ~ NoDup (group_keys r) /\
  In (AddPhysicalGroup 1 [4%Z] 2%Z) r /\ In (AddPhysicalGroup 1 [18%Z; 19%Z] 2%Z) r.
Proof. exact default_groups_lemma. Qed.
Print Assumptions C96_default_tags_refuted.
(** The group of a fracture does not always hold its ends only: the intersection of the first
    two of five fractures is only in the group of the last one. *)
Theorem C96_crossing_group_refuted : exists net r, mesh_q rectangle_tags rectangle five_fractures 1 true = Ok (net, r) /\
  In (AddPhysicalGroup 0 [15%Z; 13%Z; 14%Z] 5%Z) r /\ (forall l p, In (AddPhysicalGroup 0 l p) r -> In 15%Z l -> p = 5%Z) /\
  vertex_number point 4 net 15 15 /\ located point net 15 (mk_point (24#8) (0#8) (0#8)).
Proof. exact crossing_group_lemma. Qed.
Print Assumptions C96_crossing_group_refuted.
(** With the default graph of the network the pieces of a fracture are in separate groups with
    the same dimension and tag. *)
Theorem C96_default_graph_refuted : exists net r, mesh_q rectangle_tags rectangle (firstn 2 three_fractures) 10 false = Ok (net, r) /\
  tags_apart rectangle_tags 4 2 10 /\ ~ NoDup (group_keys r) /\ In (AddPhysicalGroup 1 [16%Z] 10%Z) r /\ In (AddPhysicalGroup 1 [17%Z] 10%Z) r.
Proof. exact shallow_graph_lemma. Qed.
Print Assumptions C96_default_graph_refuted.
(** set_points twice: gmsh is given a line to a point which does not exist. *)
Theorem C96_set_points_twice_refuted : exists r, mesh_twice rectangle_tags rectangle (firstn 2 three_fractures) 10 = Ok r /\ ~ accepted nothing r /\
  (exists b t, In (AddLine b 13%Z t) r) /\ (forall p, ~ In (AddPoint p 13%Z) r).
Proof. exact set_points_twice_lemma. Qed.
Print Assumptions C96_set_points_twice_refuted.
(** write_mesh after set_points: the point ids are restored, the ids of the cells are not. *)
Theorem C96_written : forall (P : Type) (b : builder P) (net : network P),
  exists net', set_points P b (Some net) = (bu_points P b ++ n_points P net, Some net') /\
  n_points P (unset_points P b net') = n_points P net /\
  n_cells P (unset_points P b net') = map (fun c => mk_gcell (gc_dim c) (gc_id c + length (bu_cells P b)) (gc_tag c) (gc_pid c) (gc_bc c) (gc_imm c)) (n_cells P net).
Proof. exact written_lemma. Qed.
Print Assumptions C96_written.

(** ** C97 *)
(** A polygon alone *)
Theorem C97_polygon : forall (P : Type) (fuel : nat) (tags : dict key Z) (pts : list P), pts <> [] -> 2 <= fuel -> let T := in_effect tags default_2D in
  (all_tagged T (length pts) -> exists r, mesh_box P fuel 2 tags pts = Ok r /\ accepted nothing r /\ plain_polygon P T pts r) /\
  (~ all_tagged T (length pts) -> mesh_box P fuel 2 tags pts = Err TypeError).
Proof. exact polygon_lemma. Qed.
Print Assumptions C97_polygon.
Example C97_polygon_example : mesh_box Z 2 2 [(KArea, 9%Z); (KBc 0, 1%Z); (KBc 1, 2%Z); (KBc 2, 2%Z)] [10; 20; 30]%Z =
  Ok [AddPoint 10 1; AddPoint 20 2; AddPoint 30 3; AddLine 1 2 3; AddLine 2 3 4; AddLine 3 1 5; AddCurveLoop [3; 4; 5] 6; AddPlaneSurface [6] 6; Synchronize;
      AddPhysicalGroup 1 [3] 1; AddPhysicalGroup 1 [4] 2; AddPhysicalGroup 1 [5] 2; AddPhysicalGroup 2 [6] 9; Synchronize]%Z.
Proof. vm_compute. reflexivity. Qed.
(** A segment *)
Theorem C97_segment : forall (P : Type) (fuel : nat) (tags : dict key Z) (pts : list P), 2 <= length pts -> 1 <= fuel -> let T := in_effect tags default_1D in
  (segment_tagged T -> exists r, mesh_box P fuel 1 tags pts = Ok r /\ accepted nothing r /\ plain_segment P T pts r) /\
  (~ segment_tagged T -> mesh_box P fuel 1 tags pts = Err TypeError).
Proof. exact segment_lemma. Qed.
Print Assumptions C97_segment.
Example C97_segment_example : mesh_box Z 1 1 [] [10; 20; 30]%Z =
    Ok [AddPoint 10 1; AddPoint 20 2; AddPoint 30 3; AddLine 1 2 3; Synchronize; AddPhysicalGroup 0 [1] 2; AddPhysicalGroup 0 [2] 3; AddPhysicalGroup 1 [3] 1; Synchronize]%Z /\
  mesh_box Z 1 1 [(KLine, 7%Z); (KBc 0, 8%Z)] [10; 20]%Z = Err TypeError.
Proof. split; vm_compute; reflexivity. Qed.
(** A hexahedron *)
Theorem C97_hexahedron : forall (P : Type) (fuel : nat) (tags : dict key Z) (pts : list P), length pts = 8 -> 3 <= fuel -> let T := in_effect tags default_3D in
  (hexa_tagged T -> exists r, mesh_box P fuel 3 tags pts = Ok r /\ accepted nothing r /\ plain_hexahedron P T pts r) /\
  (~ hexa_tagged T -> mesh_box P fuel 3 tags pts = Err TypeError).
Proof. exact hexa_lemma. Qed.
Print Assumptions C97_hexahedron.
Example C97_hexahedron_example : hexa_tagged (in_effect [] default_3D) /\
  exists r, mesh_box Z 3 3 [] [0; 1; 2; 3; 4; 5; 6; 7]%Z = Ok r /\ map snd (group_keys r) = [2; 3; 4; 5; 6; 7; 1]%Z.
Proof.
  split; [split; [discriminate|intros i I; do 6 (destruct i as [|i]; [discriminate|]); lia]|]. eexists. split; vm_compute; reflexivity.
Qed.
