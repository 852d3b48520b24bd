(** * Proofs about boxes: without a network *)
From Coq Require Import List Arith ZArith Bool Lia Permutation.
From Verif Require Import Base BaseProof FracModel FracSpec FracProof2 NetProof MesherModel MesherSpec MesherProof MesherProof5 BuilderModel BuilderSpec BuilderProof BuilderProof2 BuilderProof5.
Import ListNotations.

Section Plain.
  Variable P : Type.
  Lemma polygon_lemma fuel tags (pts : list P) : pts <> [] -> 2 <= fuel -> let T := in_effect tags default_2D in
    (all_tagged T (length pts) -> exists r, mesh_box P fuel 2 tags pts = Ok r /\ accepted nothing r /\ plain_polygon P T pts r) /\
    (~ all_tagged T (length pts) -> mesh_box P fuel 2 tags pts = Err TypeError).
  Proof.
    intros Hp Hf T. destruct fuel as [|[|f]]; [lia|lia|]. set (n := length pts). assert (Hn : 0 < n) by (unfold n; destruct pts; [congruence|simpl; lia]).
    destruct (box_2D_spec f tags pts Hp) as (g & Eb & Ng & Mg). fold n T in Eb, Mg. unfold mesh_box. rewrite Eb. cbn [bind set_points fst bu_points]. unfold generate. cbn [describe_domain]. split.
    - intros HT. destruct (describe_ok n T g Hn Ng Mg pts HT) as (groups & Pg & Ed). rewrite Ed. cbn [bind]. eexists. split; [reflexivity|].
      change (map (fun tp : nat * P => AddPoint (snd tp) (Z.of_nat (fst tp) + 1)%Z) (combine (seq 0 (length pts)) pts)) with (point_calls pts 0).
      split.
      + rewrite <- app_assoc. rewrite app_assoc. rewrite accepted_app. destruct (polygon_accepted n Hn pts) as [A B]; [reflexivity|]. split; [exact A|]. rewrite B. cbn [app].
        split; [exact I|]. change (after (drawn_scene n (length pts)) Synchronize) with (seen_scene (P:=P) n (length pts)). rewrite accepted_app.
        destruct (groups_accepted n T (length pts) groups Pg) as [_ A2]; [unfold n; lia|]. split; [exact A2|]. split; exact I.
      + assert (HTa : forall p, tag_z (dget T KArea) = p <-> dget T KArea = Some p). { intros p. destruct HT as [H _]. destruct (dget T KArea); [cbn; split; congruence|congruence]. }
        assert (HTb : forall i p, i < n -> tag_z (dget T (KBc i)) = p <-> dget T (KBc i) = Some p). { intros i p I. destruct HT as [_ H]. specialize (H i I). destruct (dget T (KBc i)); [cbn; split; congruence|congruence]. }
        assert (Cs : forall c, In c (point_calls pts 0 ++ (polygon_drawn n ++ [Synchronize] ++ groups ++ [AddPhysicalGroup 2 [face_number n] (tag_z (dget T KArea))]) ++ [Synchronize]) <->
          (exists p t, c = AddPoint p t /\ numbered pts p t) \/ (exists i, i < n /\ c = line_call (side_line n i)) \/
          c = AddCurveLoop (map Z.of_nat (seq n n)) (face_number n) \/ c = AddPlaneSurface [face_number n] (face_number n) \/ c = Synchronize \/
          (exists i, i < n /\ c = side_group n T i) \/ c = AddPhysicalGroup 2 [face_number n] (tag_z (dget T KArea))).
        { intros c. unfold polygon_drawn. rewrite !in_app_iff. cbn [In]. rewrite !map_map, !in_map_iff.
          assert (E1 : In c (point_calls pts 0) <-> exists p t, c = AddPoint p t /\ numbered pts p t).
          { split; [|intros (p & t & -> & H); apply In_point_calls; auto]. intros H. assert (X : exists p t, c = AddPoint p t) by (unfold point_calls in H; apply in_map_iff in H as (x & <- & _); eauto).
            destruct X as (p & t & ->). exists p, t. split; auto. apply In_point_calls. auto. }
          assert (E2 : (exists x, line_call (side_line n x) = c /\ In x (seq 0 n)) <-> exists i, i < n /\ c = line_call (side_line n i)).
          { split; [intros (i & <- & I); apply in_seq in I; exists i; split; [lia|auto]|intros (i & I & ->); exists i; split; auto; apply in_seq; lia]. }
          assert (E3 : In c groups <-> exists i, i < n /\ c = side_group n T i).
          { split; [intros I; apply (Permutation_in _ Pg), in_map_iff in I as (i & <- & I); apply in_seq in I; exists i; split; [lia|auto]|].
            intros (i & I & ->). apply (Permutation_in _ (Permutation_sym Pg)), in_map. apply in_seq. lia. }
          rewrite E1, E2, E3. intuition (subst; auto 20). }
        constructor; intros; try rewrite Cs in *.
        * split; [intros [(? & ? & E & H)|[(i & I & E)|[E|[E|[E|[(i & _ & E)|E]]]]]]; try discriminate E; injection E as -> ->; auto|intros H; left; eauto].
        * split; [intros [(? & ? & E & H)|[(i & I & E)|[E|[E|[E|[(i & _ & E)|E]]]]]]; try discriminate E; unfold line_call, side_line in E; injection E as -> -> ->; exists i; auto|].
          intros (i & I & -> & -> & ->). right. left. exists i. auto.
        * split; [intros [(? & ? & E & H)|[(i & I & E)|[E|[E|[E|[(i & _ & E)|E]]]]]]; try discriminate E; injection E as -> ->; auto|intros [-> ->]; auto 10].
        * split; [intros [(? & ? & E & H)|[(i & I & E)|[E|[E|[E|[(i & _ & E)|E]]]]]]; try discriminate E; injection E as -> ->; auto|intros [-> ->]; auto 10].
        * unfold polygon_group. fold n. split.
          -- intros [(? & ? & E & H)|[(i & I & E)|[E|[E|[E|[(i & I & E)|E]]]]]]; try discriminate E; injection E as -> -> E; [left; exists i; rewrite <- HTb; auto|right; rewrite <- HTa; auto].
          -- intros [(i & I & -> & -> & E)|(-> & -> & E)]; do 5 right; [left; exists i; split; auto; unfold side_group; rewrite E; auto|right; rewrite E; auto].
        * destruct H as [(? & ? & -> & _)|[(i & I & ->)|[->|[->|[->|[(i & I & ->)| ->]]]]]]; exact Logic.I.
    - intros H. rewrite (describe_err n T g Hn Ng Mg pts H). reflexivity.
  Qed.
  Lemma untagged_lemma (isect : P -> P -> P -> P -> option P) (near : P -> P -> bool) (argsort : list P -> P -> list nat) fuel tags (pts : list P) segs shift all_q :
    (forall x, near x x = true) -> (forall xs o, Permutation (argsort xs o) (seq 0 (length xs))) -> pts <> [] -> segs <> [] -> 2 <= fuel ->
    ~ all_tagged (in_effect tags default_2D) (length pts) ->
    mesh_fractured P isect near argsort fuel tags pts (map (fun s => [fst s; snd s]) segs) shift all_q = Err TypeError.
  Proof.
    intros R A Hp Hs Hf H. destruct fuel as [|[|f]]; [lia|lia|]. set (n := length pts) in *. assert (Hn : 0 < n) by (unfold n; destruct pts; [congruence|simpl; lia]).
    destruct (box_2D_spec f tags pts Hp) as (g & Eb & Ng & Mg). fold n in Eb, Mg.
    destruct (C59_lemma P isect near argsort segs shift R A Hs) as (net & En & (Ids & C & _) & _).
    destruct (graph_spec (n_cells P net) (cells_leveled _ _ _ _ _ _ C Ids) f all_q) as (ng & Eg & _ & _).
    unfold mesh_fractured. rewrite Eb. cbn [bind]. rewrite En. cbn [bind]. rewrite Eg. cbn [bind set_points]. unfold generate. cbn [describe_domain]. rewrite (describe_err n _ g Hn Ng Mg pts H). reflexivity.
  Qed.
End Plain.

Section Hexahedron.
  Variable P : Type.
  Lemma tags_in_effect tags d : tags_or tags d = in_effect tags d.
  Proof. unfold tags_or, in_effect. destruct tags; reflexivity. Qed.
  Definition hexa_cells (T : dict key Z) : list bcell :=
    map box_vertex (seq 0 8) ++ map (fun e => mk_bcell 1 (fst e) None None (snd e) []) hexa_edges ++
    map (fun f => let '(id, i, bc, loop) := f in mk_bcell 2 id (dget T (KBc i)) None bc loop) hexa_faces ++
    [mk_bcell 3 26 (dget T KVolume) None [20; 21; 22; 23; 24; 25] []].
  Definition hexa_nodes : list nat :=
    [8; 0; 1; 9; 2; 10; 3; 11; 12; 4; 5; 13; 6; 14; 7; 15; 16; 17; 18; 19; 20; 21; 22; 23; 24; 25; 26].
  Lemma box_3D_spec f tags (p0 p1 p2 p3 p4 p5 p6 p7 : P) : let T := in_effect tags default_3D in let pts := [p0; p1; p2; p3; p4; p5; p6; p7] in
    exists es, box_3D P (S (S (S f))) (new_builder P tags) pts = Ok (mk_builder P (hexa_cells T) pts T, mk_digraph hexa_nodes es).
  Proof.
    cbv zeta. unfold box_3D. rewrite tags_in_effect. fold default_3D. cbn [new_builder bu_tags]. set (T := in_effect tags default_3D). clearbody T.
    eexists. cbv -[dget]. reflexivity.
  Qed.

  Definition hexa_drawn (pts : list P) : list (call P) :=
    point_calls pts 0 ++
    [AddLine 1 2 8; AddLine 2 3 9; AddLine 3 4 10; AddLine 4 1 11; AddLine 5 6 12; AddLine 6 7 13; AddLine 7 8 14; AddLine 8 5 15;
     AddLine 1 5 16; AddLine 2 6 17; AddLine 3 7 18; AddLine 4 8 19; Synchronize;
     AddCurveLoop [8; 17; -12; -16] 20; AddPlaneSurface [20] 20; AddCurveLoop [9; 18; -13; -17] 21; AddPlaneSurface [21] 21;
     AddCurveLoop [10; 19; -14; -18] 22; AddPlaneSurface [22] 22; AddCurveLoop [11; 16; -15; -19] 23; AddPlaneSurface [23] 23;
     AddCurveLoop [8; 9; 10; 11] 24; AddPlaneSurface [24] 24; AddCurveLoop [12; 13; 14; 15] 25; AddPlaneSurface [25] 25;
     AddSurfaceLoop [20; 21; 22; 23; 24; 25] 26; AddVolume [26] 26; Synchronize]%Z.
  Definition hexa_groups (T : dict key Z) : list (call P) :=
    map (fun i => AddPhysicalGroup 2 [Z.of_nat (20 + i)] (tag_z (dget T (KBc i)))) (seq 0 6) ++ [AddPhysicalGroup 3 [26%Z] (tag_z (dget T KVolume)); Synchronize].
  Lemma hexa_mesh f tags p0 p1 p2 p3 p4 p5 p6 p7 : let T := in_effect tags default_3D in let pts := [p0; p1; p2; p3; p4; p5; p6; p7] in
    (hexa_tagged T -> mesh_box P (S (S (S f))) 3 tags pts = Ok (hexa_drawn pts ++ hexa_groups T)) /\
    (~ hexa_tagged T -> mesh_box P (S (S (S f))) 3 tags pts = Err TypeError).
  Proof.
    intros T pts. destruct (box_3D_spec f tags p0 p1 p2 p3 p4 p5 p6 p7) as (es & E). fold T pts in E. unfold mesh_box. rewrite E. cbn [bind fst set_points bu_points]. clear E.
    unfold generate, describe_domain. clearbody T. unfold hexa_tagged. split.
    - intros [HV HB]. assert (H0 := HB 0). assert (H1 := HB 1). assert (H2 := HB 2). assert (H3 := HB 3). assert (H4 := HB 4). assert (H5 := HB 5). clear HB.
      destruct (dget T KVolume) eqn:EV; [|congruence]. destruct (dget T (KBc 0)) eqn:E0; [|exfalso; apply H0; [lia|auto]]. destruct (dget T (KBc 1)) eqn:E1; [|exfalso; apply H1; [lia|auto]].
      destruct (dget T (KBc 2)) eqn:E2; [|exfalso; apply H2; [lia|auto]]. destruct (dget T (KBc 3)) eqn:E3; [|exfalso; apply H3; [lia|auto]].
      destruct (dget T (KBc 4)) eqn:E4; [|exfalso; apply H4; [lia|auto]]. destruct (dget T (KBc 5)) eqn:E5; [|exfalso; apply H5; [lia|auto]].
      cbv -[dget EqDec_key]. rewrite E0, E1, E2, E3, E4, E5, EV. reflexivity.
    - intros H. cbv -[dget EqDec_key not].
      destruct (dget T (KBc 0)) eqn:E0; [|reflexivity]. destruct (dget T (KBc 1)) eqn:E1; [|reflexivity]. destruct (dget T (KBc 2)) eqn:E2; [|reflexivity].
      destruct (dget T (KBc 3)) eqn:E3; [|reflexivity]. destruct (dget T (KBc 4)) eqn:E4; [|reflexivity]. destruct (dget T (KBc 5)) eqn:E5; [|reflexivity].
      destruct (dget T KVolume) eqn:EV; [|reflexivity]. exfalso. apply H. split; [congruence|]. intros i I. do 6 (destruct i as [|i]; [congruence|]). lia.
  Qed.

  Ltac in_list := cbn; repeat (first [left; reflexivity | right]).
  Ltac not_in := cbn; intros H; repeat (destruct H as [H|H]; [discriminate H|]); destruct H.
  Ltac all_in := intros x H; cbn in H; repeat (destruct H as [<-|H]; [in_list|]); destruct H.
  Ltac a_line := first [left; split; [reflexivity|in_list] | right; split; [reflexivity|in_list]].
  Lemma hexa_accepted T p0 p1 p2 p3 p4 p5 p6 p7 : accepted nothing (hexa_drawn [p0; p1; p2; p3; p4; p5; p6; p7] ++ hexa_groups T).
  Proof.
    unfold hexa_drawn, hexa_groups, point_calls. cbn [length seq combine map fst snd app].
    repeat match goal with
    | |- accepted ?s (?c :: ?l) => change (in_order s c /\ accepted (after s c) l); split; [cbn [in_order]|cbn [after points lines curve_loops surfaces surface_loops volumes nothing]]
    end.
    all: match goal with
    | |- True => exact I
    | |- accepted _ [] => exact I
    | |- ~ In _ _ => not_in
    | |- closed_trail _ _ /\ _ => split; [split; [discriminate|eexists; cbn [trail]; do 4 (eexists; split; [a_line|]); reflexivity]|not_in]
    | |- In _ _ /\ In _ _ /\ _ => split; [in_list|split; [in_list|not_in]]
    | |- _ <> [] /\ _ => split; [discriminate|split; [all_in|not_in]]
    | |- (forall x, _) /\ _ => split; [all_in|not_in]
    | |- forall x, _ => all_in
    end.
  Qed.
  Lemma hexa_described T pts : length pts = 8 -> hexa_tagged T -> plain_hexahedron P T pts (hexa_drawn pts ++ hexa_groups T).
  Proof.
    intros L [HV HB]. assert (HTa : forall p, tag_z (dget T KVolume) = p <-> dget T KVolume = Some p). { intros p. destruct (dget T KVolume); [cbn; split; congruence|congruence]. }
    assert (HTb : forall i p, i < 6 -> tag_z (dget T (KBc i)) = p <-> dget T (KBc i) = Some p). { intros i p I. specialize (HB i I). destruct (dget T (KBc i)); [cbn; split; congruence|congruence]. }
    unfold hexa_drawn. set (fixed := [AddLine 1 2 8; _; _; _; _; _; _; _; _; _; _; _; _; _; _; _; _; _; _; _; _; _; _; _; _; _; _; _]%Z).
    assert (Pc : forall c, In c (point_calls pts 0) -> exists p t, c = AddPoint p t). { intros c H. unfold point_calls in H. apply in_map_iff in H as (x & <- & _). eauto. }
    assert (Cs : forall c, (forall p t, c <> AddPoint p t) -> In c ((point_calls pts 0 ++ fixed) ++ hexa_groups T) <-> In c (fixed ++ hexa_groups T)).
    { intros c Hc. rewrite <- app_assoc, in_app_iff. split; [intros [H|H]; auto|auto]. destruct (Pc c H) as (p & t & ->). exfalso. apply (Hc p t). auto. }
    constructor.
    - intros p t. rewrite <- app_assoc, in_app_iff, In_point_calls. split; [|auto]. intros [H|H]; auto. exfalso. cbn in H. repeat (destruct H as [H|H]; [discriminate H|]). destruct H.
    - intros b e. unfold hexa_joined. split.
      + intros H. cbn [In] in H. repeat (destruct H as [H|H]; [injection H as <- <-; eexists; apply Cs; [discriminate|]; in_list|]). destruct H.
      + intros (t & H). apply Cs in H; [|discriminate]. cbn in H. repeat (destruct H as [H|H]; [first [discriminate H|injection H as <- <- <-; in_list]|]). destruct H.
    - intros l t. rewrite Cs by discriminate. split.
      + intros H. cbn in H. repeat (destruct H as [H|H]; [first [discriminate H|injection H as <- <-; split; [reflexivity|lia]]|]). destruct H.
      + intros [-> B]. assert (t = 20 \/ t = 21 \/ t = 22 \/ t = 23 \/ t = 24 \/ t = 25)%Z as [->|[->|[->|[->|[->| ->]]]]] by lia; in_list.
    - intros l t H. apply Cs in H; [|discriminate].
      assert (V : forall i, i < 6 -> forall l, nth_error [[8; 17; -12; -16]; [9; 18; -13; -17]; [10; 19; -14; -18]; [11; 16; -15; -19]; [8; 9; 10; 11]; [12; 13; 14; 15]]%Z i = Some l -> visits ((point_calls pts 0 ++ fixed) ++ hexa_groups T) l (hexa_corners i)).
      { intros i I l0 El. do 6 (destruct i as [|i]; [injection El as <-; split; [reflexivity|]; intros k t0 a b E1 E2 E3; do 4 (destruct k as [|k]; [injection E1 as <-; injection E2 as <-; injection E3 as <-; first [left; split; [reflexivity|apply Cs; [discriminate|in_list]]|right; split; [reflexivity|apply Cs; [discriminate|in_list]]]|]); destruct k; discriminate E1|]). lia. }
      cbn in H. repeat (destruct H as [H|H]; [try discriminate H|]); try solve [destruct H].
      all: injection H as <- <-.
      all: [> exists 0|exists 1|exists 2|exists 3|exists 4|exists 5].
      all: split; [lia|]; split; [reflexivity|]; apply V; [lia|reflexivity].
    - intros i I. do 6 (destruct i as [|i]; [eexists; apply Cs; [discriminate|in_list]|]). lia.
    - intros l t. rewrite Cs by discriminate. split.
      + intros H. cbn in H. repeat (destruct H as [H|H]; [first [discriminate H|injection H as <- <-; split; reflexivity]|]). destruct H.
      + intros [-> ->]. in_list.
    - intros l t. rewrite Cs by discriminate. split.
      + intros H. cbn in H. repeat (destruct H as [H|H]; [first [discriminate H|injection H as <- <-; split; reflexivity]|]). destruct H.
      + intros [-> ->]. in_list.
    - intros d l p. rewrite Cs by discriminate. rewrite in_app_iff. unfold hexa_groups. rewrite in_app_iff, in_map_iff. split.
      + intros [H|[(i & E & I)|[E|[E|[]]]]].
        * exfalso. cbn in H. repeat (destruct H as [H|H]; [discriminate H|]). destruct H.
        * injection E as <- <- E. apply in_seq in I. left. exists i. rewrite <- HTb by lia. split; [lia|auto].
        * injection E as <- <- E. right. rewrite <- HTa. auto.
        * discriminate E.
      + intros [(i & I & -> & -> & E)|(-> & -> & E)]; right; [left|right; left].
        * exists i. rewrite E. split; auto. apply in_seq. lia.
        * rewrite E. reflexivity.
    - intros c H. rewrite <- app_assoc, in_app_iff in H. destruct H as [H|H]; [destruct (Pc c H) as (p & t & ->); exact I|]. cbn in H. repeat (destruct H as [H|H]; [rewrite <- H; exact I|]). destruct H.
  Qed.
  Lemma hexa_lemma fuel tags (pts : list P) : length pts = 8 -> 3 <= fuel -> let T := in_effect tags default_3D in
    (hexa_tagged T -> exists r, mesh_box P fuel 3 tags pts = Ok r /\ accepted nothing r /\ plain_hexahedron P T pts r) /\
    (~ hexa_tagged T -> mesh_box P fuel 3 tags pts = Err TypeError).
  Proof.
    intros L Hf T. destruct fuel as [|[|[|f]]]; [lia|lia|lia|]. pose proof (hexa_described T pts L) as HD.
    destruct pts as [|p0 [|p1 [|p2 [|p3 [|p4 [|p5 [|p6 [|p7 [|? ?]]]]]]]]]; try discriminate L. destruct (hexa_mesh f tags p0 p1 p2 p3 p4 p5 p6 p7) as [A B]. fold T in A, B. split; [|exact B].
    intros H. eexists. split; [apply A; auto|]. split; [apply hexa_accepted|auto].
  Qed.
End Hexahedron.
