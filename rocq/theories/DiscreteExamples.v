(** * Concrete domains for the description of DiscreteDomain

    Points are natural numbers, compared for equality. *)
From Coq Require Import List Arith ZArith Bool Lia.
From Verif Require Import Base BaseProof ShapeModel ShapeSpec ShapeProof MesherModel MesherSpec MesherProof MesherExamples DiscreteSpec DiscreteProof DiscreteProof2.
Import ListNotations.

(** ** The square with a divided fracture of MesherExamples *)
Lemma fractured_proper : proper fractured.
Proof.
  apply (complete_proper fractured 2 fractured_complete); [lia|]. intros v I N. cbn [nth fractured map seq] in I.
  repeat (destruct I as [<-|I]; [destruct (N eq_refl)|]). destruct I.
Qed.
Definition fractured_discrete : list (call nat) :=
  [AddPoint 0%nat 8; AddPoint 10%nat 9; AddPoint 20%nat 10; AddPoint 30%nat 11; AddPoint 40%nat 12; AddPoint 50%nat 13; AddPoint 60%nat 14; Synchronize;
   AddLine 8 9 16; AddLine 9 10 17; AddLine 10 11 18; AddLine 8 11 19; AddLine 12 13 22; AddLine 13 14 23; Synchronize;
   AddCurveLoop [16; 17; 18; -19] 17; AddPlaneSurface [17] 17; Synchronize; Synchronize; Synchronize;
   AddPhysicalGroup 1 [16] 10; AddPhysicalGroup 1 [17] 11; SetTransfiniteCurve 17 5; AddPhysicalGroup 1 [18] 12; AddPhysicalGroup 1 [19] 13; AddPhysicalGroup 1 [] 50; Synchronize;
   AddPhysicalGroup 2 [17] 1; Synchronize; Synchronize;
   Embed 0 [] 1 16; Embed 0 [] 1 17; Embed 0 [] 1 18; Embed 0 [] 1 19; Embed 0 [] 1 22; Embed 0 [] 1 23;
   Embed 0 [12; 14] 2 17; Embed 1 [22; 23] 2 17]%Z.
Lemma fractured_converted : proper fractured /\ convert_occ Nat.eqb 4 ([11; 50]%Z, Some 5%Z) fractured = Ok fractured_discrete /\ accepted nothing fractured_discrete.
Proof.
  assert (E : convert_occ Nat.eqb 4 ([11; 50]%Z, Some 5%Z) fractured = Ok fractured_discrete) by (vm_compute; reflexivity).
  split; [exact fractured_proper|]. split; [exact E|].
  destruct (convert_lemma Nat.eqb 4 fractured ([11; 50]%Z, Some 5%Z) nat_refl ltac:(lia) fractured_proper) as (r & Er & A).
  rewrite E in Er. injection Er as <-. exact A.
Qed.

(** ** An interval with a point inside; two points share a physical tag *)
Definition pin (i : nat) (p : option Z) : shape nat := mk_shape Vertex (Z.of_nat i) p (Some (10 * i)%nat) [] [].
Definition pinned_edge : shape nat := mk_shape Edge 0 (Some 9%Z) None [pin 0 (Some 5%Z); pin 1 None] [pin 2 (Some 5%Z)].
Definition pinned : domain nat := [[pin 0 (Some 5%Z); pin 1 None; pin 2 (Some 5%Z)]; [pinned_edge]].
Lemma pinned_proper : proper pinned.
Proof.
  split; [simpl; lia|]. split; [intros Q; discriminate Q|]. split.
  { intros d H. do 2 (destruct d as [|d]; [try discriminate H; try reflexivity|]). destruct d; reflexivity. }
  split; [levels_tac|]. split; [intros d; do 2 (destruct d as [|d]; [vm_compute; nodup_tac|]); destruct d; constructor|].
  assert (V : forall v, In v (nth 0 pinned []) -> drawn pinned 0 v) by (intros v I; split; auto; simpl in I; repeat (destruct I as [<-|I]; [reflexivity|]); destruct I).
  split; [|split; [|constructor]].
  - repeat (constructor; [split; [discriminate|reflexivity]|]). constructor.
  - constructor; [|constructor]. intros _. split; [simpl; lia|]. split; intros v I; apply V; simpl in *; tauto.
Qed.
Definition pinned_calls : list (call nat) :=
  [AddPoint 0%nat 4; AddPoint 10%nat 5; AddPoint 20%nat 6; Synchronize; AddLine 4 5 5; Synchronize; Synchronize;
   AddPhysicalGroup 0 [4; 6] 5; Synchronize; AddPhysicalGroup 1 [5] 9; SetTransfiniteCurve 5 11; Synchronize; Synchronize; Embed 0 [6] 1 5]%Z.
Lemma pinned_converted : proper pinned /\ convert_occ Nat.eqb 4 ([9]%Z, Some 11%Z) pinned = Ok pinned_calls /\ accepted nothing pinned_calls.
Proof.
  assert (E : convert_occ Nat.eqb 4 ([9]%Z, Some 11%Z) pinned = Ok pinned_calls) by (vm_compute; reflexivity).
  split; [exact pinned_proper|]. split; [exact E|].
  destruct (convert_lemma Nat.eqb 4 pinned ([9]%Z, Some 11%Z) nat_refl ltac:(lia) pinned_proper) as (r & Er & A).
  rewrite E in Er. injection Er as <-. exact A.
Qed.
Lemma pinned_keys : group_keys pinned_calls = [(0, 5%Z); (1, 9%Z)] /\ tagged pinned 0 5 (pin 0 (Some 5%Z)) /\ tagged pinned 0 5 (pin 2 (Some 5%Z)).
Proof. split; [reflexivity|]. split; (split; [split; [simpl; tauto|reflexivity]|reflexivity]). Qed.
Lemma fractured_empty : In fracture (nth 1 fractured []) /\ s_phys fracture = Some 50%Z /\ ~ drawn fractured 1 fracture /\ In (AddPhysicalGroup 1 [] 50%Z) fractured_discrete.
Proof.
  split; [simpl; tauto|]. split; [reflexivity|]. split; [|at_place 25]. intros (_ & _ & H). apply (H (ed 6 None 4 5)); [left; reflexivity|reflexivity].
Qed.

(** ** A square with an immersed edge in which a vertex is immersed *)
Definition crossed : shape nat := mk_shape Edge 5 None None [vx 4; vx 5] [vx 0].
Definition crossed' : shape nat := mk_shape Edge 5 None None [vx 4; vx 5] [vx 6].
Definition with_edge (c : shape nat) : domain nat := [map vx (seq 0 7); sides ++ [around_square; c]; [mk_shape Face 0 (Some 1%Z) None [around_square] [c]]].
Lemma crossed_refuted : exists (D : domain nat) f c v r, In f (nth 2 D []) /\ In c (immersed f) /\ drawn D 1 c /\ In v (immersed c) /\ drawn D 0 v /\
  convert_occ Nat.eqb 4 ([], None) D = Ok r /\ ~ accepted nothing r.
Proof.
  exists (with_edge crossed'). eexists. exists crossed', (vx 6). eexists. split; [left; reflexivity|]. split; [left; reflexivity|]. split.
  { split; [simpl; tauto|]. split; [reflexivity|]. intros i [<-|[]]. discriminate. }
  split; [left; reflexivity|]. split; [split; [simpl; tauto|reflexivity]|]. split; [vm_compute; reflexivity|].
  intros A. cbn [accepted] in A. do 33 (destruct A as [_ A]). destruct A as [[A _] _]. specialize (A 20%Z (or_introl eq_refl)).
  vm_compute in A. repeat (destruct A as [A|A]; [discriminate A|]). exact A.
Qed.
Lemma crossed_wrong : exists (D : domain nat) f c e r, In f (nth 2 D []) /\ immersed f = [c] /\ drawn D 1 c /\ drawn D 1 e /\ ~ In e (immersed f) /\
  convert_occ Nat.eqb 4 ([], None) D = Ok r /\ In (Embed 1 [place D 1 e] 2 (place D 2 f)) r.
Proof.
  exists (with_edge crossed). eexists. exists crossed, (ed 0 (Some 10%Z) 0 1). eexists. split; [left; reflexivity|]. split; [reflexivity|]. split.
  { split; [simpl; tauto|]. split; [reflexivity|]. intros i [<-|[]]. discriminate. }
  split; [split; [simpl; tauto|split; [reflexivity|intros i []]]|]. split; [intros [Q|[]]; discriminate Q|]. split; [vm_compute; reflexivity|].
  at_place 33.
Qed.

(** ** A vertex standing for another one, with a physical tag *)
Definition stand_in : domain nat := [[vx 0; mk_shape Vertex 1 (Some 7%Z) (Some 0%nat) [] [vx 0]]].
Lemma stand_in_refuted : exists (D : domain nat) r, Forall (fun v => s_kind v = Vertex /\ s_point v <> None) (nth 0 D []) /\ length D = 1 /\
  convert_occ Nat.eqb 4 ([], None) D = Ok r /\ ~ accepted nothing r.
Proof.
  exists stand_in. eexists. split; [repeat (constructor; [split; [reflexivity|discriminate]|]); constructor|]. split; [reflexivity|]. split; [vm_compute; reflexivity|].
  intros A. cbn [accepted] in A. do 3 (destruct A as [_ A]). destruct A as [A _]. specialize (A 4%Z (or_introl eq_refl)).
  vm_compute in A. repeat (destruct A as [A|A]; [discriminate A|]). exact A.
Qed.
(** ** A domain for solids whose solid has not been added yet *)
Lemma unfinished_case : exists a b c, a <> [] /\ b <> [] /\ c <> [] /\ proper [a; b; c] /\ convert_occ Nat.eqb 4 ([], None) [a; b; c; []] = Err NameError.
Proof.
  do 3 eexists. split; [|split; [|split; [|split; [exact fractured_proper|vm_compute; reflexivity]]]]; discriminate.
Qed.
