(** * Concrete domains for the descriptions handed to gmsh

    Points are natural numbers, compared for equality. *)
From Coq Require Import List Arith ZArith Bool Lia.
From Verif Require Import Base BaseProof ShapeModel ShapeSpec ShapeProof Box3Proof MesherModel MesherSpec MesherProof MesherProof2 MesherProof4 MesherProof5.
Import ListNotations.

Definition vx (i : nat) : shape nat := new_vertex (Z.of_nat i) (10 * i).
Definition ed (t : Z) (p : option Z) (a b : nat) : shape nat := mk_shape Edge t p None [vx a; vx b] [].
Lemma nat_refl : forall x, Nat.eqb x x = true.
Proof. intros x. apply Nat.eqb_refl. Qed.
Lemma vx_vertex i : is_vertex (vx i).
Proof. split; [reflexivity|discriminate]. Qed.
Ltac walk_tac := cbn [walk]; repeat split; try apply vx_vertex; try (intros Q; vm_compute in Q; discriminate Q); try (left; reflexivity); try (right; reflexivity).
Ltac nodup_tac := repeat (constructor; [simpl; intros Q; repeat (destruct Q as [Q|Q]; [discriminate Q|]); exact Q|]); constructor.
Ltac levels_tac := let d := fresh in let s := fresh in let I := fresh in
  intros d s I; do 4 (destruct d as [|d]; [simpl in I; repeat (destruct I as [<-|I]; [split; [reflexivity|simpl; lia]|]); destruct I|]); simpl in I; try (destruct d; destruct I); destruct I.
Lemma levels_ok (D : domain nat) : length D = 4 ->
  forallb (fun d => forallb (fun s => (s_dim s =? d)%nat && (0 <=? s_tag s)%Z) (nth d D [])) (seq 0 4) = true ->
  forall d s, In s (nth d D []) -> s_dim s = d /\ (0 <= s_tag s)%Z.
Proof.
  intros L H d s I. destruct (le_lt_dec 4 d) as [Hd|Hd]; [rewrite nth_overflow in I by lia; destruct I|].
  rewrite forallb_forall in H. specialize (H d ltac:(apply in_seq; lia)). rewrite forallb_forall in H. specialize (H s I). apply andb_true_iff in H as [H1 H2].
  apply Nat.eqb_eq in H1. apply Z.leb_le in H2. auto.
Qed.

(** ** A square with a divided fracture *)
(** The fracture is edge 5 from vertex 4 to vertex 6, divided by vertex 5 into the edges 6 and 7. *)
Definition fracture : shape nat := mk_shape Edge 5 (Some 50%Z) None [vx 4; vx 6] [ed 6 None 4 5; ed 7 None 5 6].
Definition sides : list (shape nat) := [ed 0 (Some 10%Z) 0 1; ed 1 (Some 11%Z) 1 2; ed 2 (Some 12%Z) 2 3; ed 3 (Some 13%Z) 0 3].
Definition around_square : shape nat := mk_shape Wire 4 None None [vx 0; vx 0] sides.
Definition square : shape nat := mk_shape Face 0 (Some 1%Z) None [around_square] [fracture].
Definition fractured : domain nat := [map vx (seq 0 7); sides ++ [around_square; fracture; ed 6 None 4 5; ed 7 None 5 6]; [square]].
Lemma fractured_complete : complete 2 fractured.
Proof.
  assert (V : forall i, i < 7 -> elementary fractured 0 (vx i)).
  { intros i Hi. split; [simpl; do 7 (destruct i as [|i]; [tauto|]); lia|]. split; reflexivity. }
  split; [reflexivity|]. split; [repeat constructor; discriminate|]. split; [lia|]. split; [levels_tac|].
  split; [intros d; do 3 (destruct d as [|d]; [vm_compute; nodup_tac|]); destruct d; constructor|].
  split; [|split; [|split]].
  - cbn [nth fractured map seq]. repeat (constructor; [split; [discriminate|intros j []]|]). constructor.
  - assert (Ec : forall t p a b, a < 7 -> b < 7 -> complete_curve fractured (ed t p a b)).
    { intros t p a b Ha Hb. split; [intros v [<-|[<-|[]]]; apply V; auto|]. split; [intros _; simpl; lia|]. split; [discriminate|intros j []]. }
    cbn [nth fractured app sides]. do 4 (constructor; [apply Ec; lia|]).
    constructor; [|constructor; [|constructor; [apply Ec; lia|constructor; [apply Ec; lia|constructor]]]].
    + split; [intros v [<-|[<-|[]]]; apply V; lia|]. split; [discriminate|]. split; [discriminate|].
      intros i I. simpl in I. repeat (destruct I as [<-|I]; [split; [simpl; tauto|split; reflexivity]|]). destruct I.
    + split; [intros v [<-|[<-|[]]]; apply V; lia|]. split; [intros _; simpl; lia|]. split; [discriminate|].
      intros i I. simpl in I. repeat (destruct I as [<-|I]; [split; [simpl; tauto|split; reflexivity]|]). destruct I.
  - constructor; [|constructor]. split.
    + exists around_square, []. split; [reflexivity|]. split.
      * split; [reflexivity|]. exists (vx 0), (ed 0 (Some 10%Z) 0 1), (vx 1), [(ed 1 (Some 11%Z) 1 2, vx 2); (ed 2 (Some 12%Z) 2 3, vx 3); (ed 3 (Some 13%Z) 0 3, vx 0)].
        split; [reflexivity|]. split; [walk_tac|]. split; [simpl; lia|reflexivity].
      * intros i I. simpl in I. repeat (destruct I as [<-|I]; [split; [simpl; tauto|split; reflexivity]|]). destruct I.
    + intros c [<-|[]]. split; [|intros v [<-|[<-|[]]]; apply V; lia].
      intros i [I|[Q _]]; [|discriminate Q]. simpl in I. repeat (destruct I as [<-|I]; [split; [simpl; tauto|split; reflexivity]|]). destruct I.
  - constructor.
Qed.
Definition fractured_calls : list (call nat) :=
  [AddPoint 0%nat 1; AddPoint 10%nat 2; AddPoint 20%nat 3; AddPoint 30%nat 4; AddPoint 40%nat 5; AddPoint 50%nat 6; AddPoint 60%nat 7; Synchronize;
   AddLine 1 2 8; AddLine 2 3 9; AddLine 3 4 10; AddLine 1 4 11; AddLine 5 6 14; AddLine 6 7 15; Synchronize;
   AddCurveLoop [8; 9; 10; -11] 16; AddPlaneSurface [16] 16; Synchronize; Synchronize;
   AddPhysicalGroup 0 [1; 2] 10; AddPhysicalGroup 1 [8] 10; AddPhysicalGroup 0 [2; 3] 11; AddPhysicalGroup 1 [9] 11;
   AddPhysicalGroup 0 [3; 4] 12; AddPhysicalGroup 1 [10] 12; AddPhysicalGroup 0 [1; 4] 13; AddPhysicalGroup 1 [11] 13;
   AddPhysicalGroup 1 [14; 15] 50; AddPhysicalGroup 0 [5; 7] 50; AddPhysicalGroup 2 [16] 1; Synchronize;
   Embed 0 [5; 7] 2 16; Embed 1 [14; 15] 2 16; SetTransfiniteCurve 14 10; SetTransfiniteCurve 15 10]%Z.
Lemma fractured_transfer : transfer_occ Nat.eqb 4 2 None fractured = Ok fractured_calls.
Proof. vm_compute. reflexivity. Qed.
Lemma fractured_case : complete 2 fractured /\ graph_ready 2 None fractured /\ transfer_occ Nat.eqb 4 2 None fractured = Ok fractured_calls /\ accepted nothing fractured_calls.
Proof.
  assert (G : graph_ready 2 None fractured) by (intros Q; discriminate Q).
  split; [exact fractured_complete|]. split; [exact G|]. split; [exact fractured_transfer|].
  destruct (transfer_lemma Nat.eqb 4 fractured 2 None nat_refl ltac:(lia) fractured_complete G) as (r & Er & A).
  rewrite fractured_transfer in Er. injection Er as <-. exact A.
Qed.
Lemma fractured_tags : NoDup (phys_list (nth 0 fractured [] ++ nth 1 fractured [])) /\ NoDup (phys_list (nth 2 fractured [])) /\ NoDup (phys_list (nth 3 fractured [])) /\
  group_keys fractured_calls = [(0, 10%Z); (1, 10%Z); (0, 11%Z); (1, 11%Z); (0, 12%Z); (1, 12%Z); (0, 13%Z); (1, 13%Z); (1, 50%Z); (0, 50%Z); (2, 1%Z)].
Proof. split; [vm_compute; nodup_tac|]. split; [vm_compute; nodup_tac|]. split; [vm_compute; constructor|reflexivity]. Qed.
(** The same physical tag on two sides: the square of the model, its second side tagged as the first *)
Definition sides' : list (shape nat) := [ed 0 (Some 10%Z) 0 1; ed 1 (Some 10%Z) 1 2; ed 2 (Some 12%Z) 2 3; ed 3 (Some 13%Z) 0 3].
Definition around_square' : shape nat := mk_shape Wire 4 None None [vx 0; vx 0] sides'.
Definition square' : shape nat := mk_shape Face 0 (Some 1%Z) None [around_square'] [].
Definition twice : domain nat := [map vx (seq 0 4); sides' ++ [around_square']; [square']].
Lemma twice_complete : complete 2 twice.
Proof.
  assert (V : forall i, i < 4 -> elementary twice 0 (vx i)).
  { intros i Hi. split; [simpl; do 4 (destruct i as [|i]; [tauto|]); lia|]. split; reflexivity. }
  split; [reflexivity|]. split; [repeat constructor; discriminate|]. split; [lia|]. split; [levels_tac|].
  split; [intros d; do 3 (destruct d as [|d]; [vm_compute; nodup_tac|]); destruct d; constructor|].
  split; [|split; [|split]].
  - cbn [nth twice map seq]. repeat (constructor; [split; [discriminate|intros j []]|]). constructor.
  - assert (Ec : forall t p a b, a < 4 -> b < 4 -> complete_curve twice (ed t p a b)).
    { intros t p a b Ha Hb. split; [intros v [<-|[<-|[]]]; apply V; auto|]. split; [intros _; simpl; lia|]. split; [discriminate|intros j []]. }
    cbn [nth twice app sides']. do 4 (constructor; [apply Ec; lia|]).
    constructor; [|constructor]. split; [intros v [<-|[<-|[]]]; apply V; lia|]. split; [discriminate|]. split; [discriminate|].
    intros i I. simpl in I. repeat (destruct I as [<-|I]; [split; [simpl; tauto|split; reflexivity]|]). destruct I.
  - constructor; [|constructor]. split; [|intros c []].
    exists around_square', []. split; [reflexivity|]. split.
    + split; [reflexivity|]. exists (vx 0), (ed 0 (Some 10%Z) 0 1), (vx 1), [(ed 1 (Some 10%Z) 1 2, vx 2); (ed 2 (Some 12%Z) 2 3, vx 3); (ed 3 (Some 13%Z) 0 3, vx 0)].
      split; [reflexivity|]. split; [walk_tac|]. split; [simpl; lia|reflexivity].
    + intros i I. simpl in I. repeat (destruct I as [<-|I]; [split; [simpl; tauto|split; reflexivity]|]). destruct I.
  - constructor.
Qed.
Lemma twice_refuted : exists (D : domain nat) r l m, complete 2 D /\ transfer_occ Nat.eqb 4 2 None D = Ok r /\
  In (AddPhysicalGroup 1 l 10%Z) r /\ In (AddPhysicalGroup 1 m 10%Z) r /\ l <> m /\ ~ NoDup (group_keys r).
Proof.
  exists twice. eexists. exists [5%Z], [6%Z]. split; [exact twice_complete|]. split; [vm_compute; reflexivity|]. split; [simpl; tauto|]. split; [simpl; tauto|].
  split; [discriminate|]. simpl. intros N. inversion N as [|? ? N0 _]; subst. apply N0. right. left. reflexivity.
Qed.

(** ** A triangle whose wire starts downwards *)
Definition down : shape nat := mk_shape Wire 3 None None [vx 2] [ed 0 None 1 2; ed 1 None 0 1; ed 2 None 0 2].
Definition downwards : domain nat := [[vx 0; vx 1; vx 2]; [ed 0 None 1 2; ed 1 None 0 1; ed 2 None 0 2; down]; [mk_shape Face 0 (Some 1%Z) None [down] []]].
Lemma down_walk : immersed down = map fst [(ed 0 None 1 2, vx 1); (ed 1 None 0 1, vx 0); (ed 2 None 0 2, vx 2)] /\
  walk (vx 2) [(ed 0 None 1 2, vx 1); (ed 1 None 0 1, vx 0); (ed 2 None 0 2, vx 2)].
Proof. split; [reflexivity|walk_tac]. Qed.
Lemma down_refuted : exists (D : domain nat) w f r l t, In f (nth 2 D []) /\ s_boundary f = [w] /\ In w (nth 1 D []) /\ s_kind w = Wire /\
  (exists a p, immersed w = map fst p /\ walk a p /\ last (map snd p) a = a) /\
  transfer_occ Nat.eqb 4 2 None D = Ok r /\ In (AddCurveLoop l t) r /\ ~ accepted nothing r.
Proof.
  exists downwards, down, (mk_shape Face 0 (Some 1%Z) None [down] []). do 3 eexists. split; [simpl; tauto|]. split; [reflexivity|]. split; [simpl; tauto|]. split; [reflexivity|]. split.
  { destruct down_walk as [I W]. exists (vx 2). eexists. split; [exact I|]. split; [exact W|reflexivity]. }
  split; [vm_compute; reflexivity|]. split; [do 8 right; left; reflexivity|].
  intros A. cbn [accepted] in A. do 8 (destruct A as [_ A]). destruct A as [[[_ (a & T)] _] _].
  destruct T as (c & T1 & c' & T2 & _). clear - T1 T2. unfold runs in T1, T2. simpl in T1, T2.
  destruct T1 as [[_ T1]|[T1 _]]; [|lia]. destruct T2 as [[T2 _]|[_ T2]]; [lia|].
  destruct T1 as [T1|[T1|[T1|[]]]]; try discriminate T1. injection T1 as <- <-.
  destruct T2 as [T2|[T2|[T2|[]]]]; try discriminate T2.
Qed.

(** ** A box with a triangle inside *)
(** The triangle 8 9 10 is immersed in the solid; [l] is immersed in the triangle; [tag] is the
    physical tag of the shell in the solid, [listed] that of the shell in the domain.  The first edge of the triangle has a physical tag. *)
Section Cracked.
  Variable l : list (shape nat).
  Variables tag listed : option Z.
  Definition vv : nat -> shape nat := V 0 1 2 3 4 5 6 7.
  Definition ww (i : nat) : shape nat := new_vertex (Z.of_nat i) i.
  Definition ie (t : Z) (p : option Z) (a b : nat) : shape nat := mk_shape Edge t p None [ww a; ww b] [].
  Definition inner_edges : list (shape nat) := [ie 18 (Some 40%Z) 8 9; ie 19 None 9 10; ie 20 None 8 10].
  Definition inner_wire : shape nat := mk_shape Wire 21 None None [ww 8] inner_edges.
  Definition cut : shape nat := ie 22 None 11 12.
  Definition inner : shape nat := mk_shape Face 25 (Some 30%Z) None [inner_wire] l.
  Definition outer_shell (tag : option Z) : shape nat := set_physical (shell 0 1 2 3 4 5 6 7 (fun i => Some (Z.of_nat (60 + i)))) tag.
  Definition stone : shape nat := mk_shape Solid 0 (Some 1%Z) None [outer_shell tag] [inner].
  Definition cracked : domain nat :=
    [vertices 0 1 2 3 4 5 6 7 [8; 9; 10; 11; 12]; edges 0 1 2 3 4 5 6 7 ++ wires 0 1 2 3 4 5 6 7 ++ inner_edges ++ [inner_wire; cut];
     faces 0 1 2 3 4 5 6 7 (fun i => Some (Z.of_nat (60 + i))) ++ [outer_shell listed; inner]; [stone]].
End Cracked.
Lemma ww_vertex i : is_vertex (ww i).
Proof. split; [reflexivity|discriminate]. Qed.
Lemma cracked_complete l tag : (l = [] \/ l = [cut]) -> complete 3 (cracked l tag None).
Proof.
  intros Hl. set (D := cracked l tag None). set (ee := e 0 1 2 3 4 5 6 7).
  assert (V8 : forall i, i < 8 -> elementary D 0 (vv i)).
  { intros i Hi. split; [|split; reflexivity]. simpl. do 8 (destruct i as [|i]; [tauto|]). lia. }
  assert (W8 : forall i, 8 <= i < 13 -> elementary D 0 (ww i)).
  { intros i Hi. split; [|split; reflexivity]. simpl. do 13 (destruct i as [|i]; [try (simpl; tauto); lia|]). lia. }
  assert (E12 : forall i, i < 12 -> elementary D 1 (ee i)).
  { intros i Hi. split; [simpl; do 12 (destruct i as [|i]; [tauto|]); lia|]. do 12 (destruct i as [|i]; [split; reflexivity|]). lia. }
  assert (I3 : forall x, In x inner_edges -> elementary D 1 x).
  { intros x I. split; [cbn [nth D cracked]; rewrite !in_app_iff; tauto|]. simpl in I. repeat (destruct I as [<-|I]; [split; reflexivity|]). destruct I. }
  assert (C22 : elementary D 1 cut).
  { split; [cbn [nth D cracked]; rewrite !in_app_iff; simpl; tauto|split; reflexivity]. }
  split; [reflexivity|]. split; [repeat constructor; discriminate|]. split; [lia|]. split; [|split; [|split; [|split; [|split]]]].
  - apply levels_ok; [reflexivity|]. unfold D. vm_compute. reflexivity.
  - intros d. do 4 (destruct d as [|d]; [vm_compute; nodup_tac|]). destruct d; constructor.
  - cbn [nth D cracked vertices more map seq app combine length]. repeat (constructor; [split; [discriminate|intros j []]|]). constructor.
  - assert (Ec : forall i a b, a < 8 -> b < 8 -> complete_curve D (E 0 1 2 3 4 5 6 7 i a b)).
    { intros i a b Ha Hb. split; [intros v [<-|[<-|[]]]; apply V8; auto|]. split; [intros _; simpl; lia|]. split; [discriminate|intros j []]. }
    assert (Ic : forall t p a b, 8 <= a < 13 -> 8 <= b < 13 -> complete_curve D (ie t p a b)).
    { intros t p a b Ha Hb. split; [intros v [<-|[<-|[]]]; apply W8; auto|]. split; [intros _; simpl; lia|]. split; [discriminate|intros j []]. }
    assert (Wc : forall k es v, v < 8 -> es <> [] -> Forall (fun i => i < 12) es -> immersed (Box3Proof.W 0 1 2 3 4 5 6 7 k es v) = map ee es -> complete_curve D (Box3Proof.W 0 1 2 3 4 5 6 7 k es v)).
    { intros k es v Hv He Fe Im. split; [intros x [<-|[]]; apply V8; auto|]. split; [discriminate|]. rewrite Im. split; [destruct es; [contradiction|discriminate]|].
      intros i I. apply in_map_iff in I as (j & <- & Hj). rewrite Forall_forall in Fe. apply E12, Fe, Hj. }
    cbn [nth D cracked edges wires inner_edges app].
    repeat (constructor; [first [apply Ec; lia|apply Wc; [lia|discriminate|repeat constructor; lia|reflexivity]|apply Ic; lia]|]).
    constructor; [|constructor; [apply Ic; lia|constructor]].
    split; [intros v [<-|[]]; apply W8; lia|]. split; [discriminate|]. split; [discriminate|]. exact I3.
  - pose proof (box_3D_complete 0 1 2 3 4 5 6 7 [8; 9; 10; 11; 12] None (fun i => Some (Z.of_nat (60 + i)))) as B.
    assert (Bs : Forall (complete_surface D) (faces 0 1 2 3 4 5 6 7 (fun i => Some (Z.of_nat (60 + i))))).
    { cbv zeta in B. destruct B as (_ & _ & _ & _ & _ & _ & _ & B & _). cbn [nth] in B. apply Forall_app in B as [B _].
      rewrite Forall_forall in B |- *. intros f If. assert (H := B f If). assert (Q : s_composite f = false /\ immersed f = []) by (apply in_map_iff in If as (i & <- & _); split; reflexivity).
      destruct Q as [Q Im]. unfold complete_surface in *. rewrite Q in *. rewrite Im. destruct H as ((w & r & Hb & Cw & He) & _). split; [|intros c []].
        exists w, r. split; auto. split; auto. intros e I. destruct (He e I) as (I1 & I2 & I3'). split; auto. cbn [nth] in I1 |- *. apply in_app_iff in I1 as [I1|I1]; cbn [D cracked nth]; rewrite !in_app_iff; tauto. }
    cbn [nth D cracked]. apply Forall_app. split; [exact Bs|]. constructor; [reflexivity|]. constructor; [|constructor]. split.
    + exists inner_wire, []. split; [reflexivity|]. split; [|exact I3]. split; [reflexivity|].
      exists (ww 8), (ie 18 (Some 40%Z) 8 9), (ww 9), [(ie 19 None 9 10, ww 10); (ie 20 None 8 10, ww 8)]. split; [reflexivity|]. split; [|split; [simpl; lia|reflexivity]].
      cbn [walk]. repeat split; try apply ww_vertex; try (intros Q; vm_compute in Q; discriminate Q); try (left; reflexivity); try (right; reflexivity).
    + assert (Im : immersed (inner l) = l) by (destruct Hl as [->| ->]; reflexivity). rewrite Im. intros c I.
      destruct Hl as [->| ->]; [destruct I|]. destruct I as [<-|[]]. split; [|intros v [<-|[<-|[]]]; apply W8; lia].
      intros i [[]|[_ ->]]. exact C22.
  - constructor; [|constructor]. split.
    + exists (outer_shell tag), []. split; [reflexivity|]. split; [discriminate|]. intros f I.
      change (In f (faces 0 1 2 3 4 5 6 7 (fun i => Some (Z.of_nat (60 + i))))) in I. split; [cbn [nth D cracked]; apply in_app_iff; auto|].
      apply in_map_iff in I as (i & <- & _). split; [reflexivity|intros Q; lia].
    + assert (Im : immersed (inner l) = l) by (destruct Hl as [->| ->]; reflexivity).
      assert (Is : immersed (stone l tag) = [inner l]) by (destruct Hl as [->| ->]; reflexivity). rewrite Is. intros c [<-|[]]. rewrite Im. split; [|split].
      * intros _. split; [cbn [nth D cracked]; apply in_app_iff; right; right; left; reflexivity|]. split; [reflexivity|intros Q; lia].
      * intros i I. destruct Hl as [->| ->]; [destruct I|]. destruct I as [<-|[]]. exact C22.
      * intros w i [<-|[]] I. apply I3. exact I.
Qed.
Lemma key_In (r : list (call nat)) d tags p : In (AddPhysicalGroup d tags p) r -> In (d, p) (group_keys r).
Proof. intros I. apply in_flat_map. eexists. split; [exact I|]. left. reflexivity. Qed.
Ltac at_place k := apply (nth_error_In _ k); reflexivity.
Lemma cracked_case : complete 3 (cracked [] None None) /\ exists r, transfer_occ Nat.eqb 4 3 None (cracked [] None None) = Ok r /\ accepted nothing r /\
  In (AddSurfaceLoop [55; 56; 57; 58; 59; 60]%Z 45) r /\ In (Embed 1 [32; 33; 34]%Z 3 45) r /\ In (Embed 2 [62%Z] 3 45) r /\
  In (SetTransfiniteCurve 33 2) r /\ In (AddPhysicalGroup 2 [62%Z] 30) r /\ In (AddPhysicalGroup 3 [45%Z] 1) r.
Proof.
  assert (C := cracked_complete [] None (or_introl eq_refl)). split; [exact C|].
  destruct (transfer_lemma Nat.eqb 4 _ 3 None nat_refl ltac:(lia) C ltac:(intros Q; discriminate Q)) as (r & Er & A). exists r. split; [exact Er|]. split; [exact A|].
  clear - Er. vm_compute in Er. injection Er as <-.
  split; [at_place 46|]. split; [at_place 72|]. split; [at_place 73|]. split; [at_place 75|]. split; [at_place 55|at_place 56].
Qed.
(** The edge 18 of the triangle has the physical tag 40, no group has it. *)
Lemma lost_refuted : exists (D : domain nat) c p r, complete 3 D /\ elementary D 1 c /\ s_phys c = Some p /\ transfer_occ Nat.eqb 4 3 None D = Ok r /\
  forall d tags, ~ In (AddPhysicalGroup d tags p) r.
Proof.
  exists (cracked [] None None), (ie 18 (Some 40%Z) 8 9), 40%Z. eexists. split; [exact (cracked_complete [] None (or_introl eq_refl))|]. split.
  { split; [cbn [nth cracked]; rewrite !in_app_iff; right; right; left; left; reflexivity|split; reflexivity]. }
  split; [reflexivity|]. split; [vm_compute; reflexivity|].
  intros d tags I. apply key_In in I. vm_compute in I. repeat (destruct I as [I|I]; [discriminate I|]). exact I.
Qed.
(** With a curve immersed in the triangle, the triangle itself is not embedded. *)
Lemma hidden_refuted : exists (D : domain nat) b c r, complete 3 D /\ elementary D 3 b /\ In c (immersed b) /\ elementary D 2 c /\ transfer_occ Nat.eqb 4 3 None D = Ok r /\
  accepted nothing r /\ forall tags d t, In (Embed 2 tags d t) r -> ~ In (number D 2 c) tags.
Proof.
  assert (C := cracked_complete [cut] None (or_intror eq_refl)).
  destruct (transfer_lemma Nat.eqb 4 _ 3 None nat_refl ltac:(lia) C ltac:(intros Q; discriminate Q)) as (r & Er & A).
  exists (cracked [cut] None None), (stone [cut] None), (inner [cut]), r. split; [exact C|].
  split; [split; [left; reflexivity|split; [reflexivity|intros Q; lia]]|]. split; [left; reflexivity|].
  split; [split; [cbn [nth cracked]; apply in_app_iff; right; right; left; reflexivity|split; [reflexivity|intros Q; lia]]|]. split; [exact Er|]. split; [exact A|].
  intros tags d t I N. destruct (embed_sound Nat.eqb 4 _ 3 None nat_refl ltac:(lia) C ltac:(intros Q; discriminate Q) r Er 2 tags d t I) as (s & El & _ & [(Q & _)|[(Q & _)|[(Q & _)|(_ & Qd & H)]]]); try discriminate Q.
  subst d. destruct (proj1 (H _) N) as (i & [I1 I2] & _). destruct El as [[Es|[]] _]. rewrite <- Es in I1.
  destruct I1 as [I1|[]]. rewrite <- I1 in I2. discriminate I2.
Qed.
(** A physical tag on the shell makes a group of a surface that does not exist. *)
Definition untagged (s : shape nat) : shape nat := if s_composite s then set_physical s None else s.
Lemma shell_refuted : exists (D : domain nat) r, complete 3 (map (map untagged) D) /\ transfer_occ Nat.eqb 4 3 None D = Ok r /\ ~ accepted nothing r.
Proof.
  exists (cracked [] (Some 70%Z) (Some 70%Z)). eexists. split; [exact (cracked_complete [] (Some 70%Z) (or_introl eq_refl))|]. split; [vm_compute; reflexivity|].
  intros A. cbn [accepted] in A. do 55 (destruct A as [_ A]). destruct A as [A _]. specialize (A 61%Z (or_introl eq_refl)).
  vm_compute in A. repeat (destruct A as [A|A]; [discriminate A|]). exact A.
Qed.
Lemma fractured_groups : In fracture (nth 1 fractured []) /\ s_phys fracture = Some 50%Z /\ counted 2 None 1 fracture /\
  In (AddPhysicalGroup 1 [14; 15]%Z 50) fractured_calls /\ In (AddPhysicalGroup 0 [5; 7]%Z 50) fractured_calls.
Proof. split; [simpl; tauto|]. split; [reflexivity|]. split; [intros _ Q; discriminate Q|]. split; [at_place 27|at_place 28]. Qed.

(** ** An interval whose graph was not built *)
Definition interval : domain nat := [[vx 0; vx 1]; [ed 0 (Some 5%Z) 0 1]].
Lemma no_graph_case : exists D c, complete 1 D /\ In c (nth 1 D []) /\ immersed c = [] /\ s_phys c <> None /\ transfer_occ Nat.eqb 4 1 None D = Err AttributeError.
Proof.
  exists interval, (ed 0 (Some 5%Z) 0 1). split; [|split; [left; reflexivity|split; [reflexivity|split; [discriminate|reflexivity]]]].
  split; [reflexivity|]. split; [repeat constructor; discriminate|]. split; [lia|]. split.
  { intros d s I. destruct d as [|[|d]]; simpl in I; [| |destruct d; destruct I]; repeat (destruct I as [<-|I]; [split; [reflexivity|simpl; lia]|]); destruct I. }
  split; [intros d; destruct d as [|[|d]]; [vm_compute; nodup_tac|vm_compute; nodup_tac|destruct d; constructor]|].
  split; [repeat (constructor; [split; [discriminate|intros j []]|]); constructor|]. split; [|split; constructor].
  constructor; [|constructor]. split; [|split; [intros _; simpl; lia|split; [discriminate|intros j []]]].
  intros v [<-|[<-|[]]]; (split; [simpl; tauto|split; reflexivity]).
Qed.
