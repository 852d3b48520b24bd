(** * Proofs about boxes: segments *)
From Coq Require Import List Arith ZArith Bool Lia Permutation.
From Verif Require Import Base BaseProof MesherModel MesherSpec MesherProof MesherProof5 BuilderModel BuilderSpec BuilderProof BuilderProof2 BuilderProof6.
Import ListNotations.

Section Segment.
  Variable P : Type.
  Definition end_cell (T : dict key Z) (i : nat) : bcell := mk_bcell 0 i (dget T (KBc i)) (Some i) [] [].
  Definition line_cell (T : dict key Z) (n : nat) : bcell := mk_bcell 1 n (dget T KLine) None [0; 1] [].
  Definition segment_cells (T : dict key Z) (m : nat) : list bcell :=
    end_cell T 0 :: end_cell T 1 :: map box_vertex (seq 2 m) ++ [line_cell T (S (S m))].
  Lemma segment_nth T m i c : nth_error (segment_cells T m) i = Some c ->
    (i < 2 /\ c = end_cell T i) \/ (2 <= i < S (S m) /\ c = box_vertex i) \/ (i = S (S m) /\ c = line_cell T i).
  Proof.
    unfold segment_cells. destruct i as [|[|i]]; cbn [nth_error]; intros H; [injection H as <-; left; split; [lia|auto]|injection H as <-; left; split; [lia|auto]|].
    right. destruct (Nat.lt_ge_cases i m) as [L|L].
    - rewrite nth_error_app1 in H by (rewrite map_length, seq_length; auto). rewrite nth_error_map in H.
      assert (E : nth_error (seq 2 m) i = Some (2 + i)) by (rewrite (nth_error_nth' _ 0) by (rewrite seq_length; auto); rewrite seq_nth by auto; auto).
      rewrite E in H. injection H as <-. left. split; [lia|auto].
    - rewrite nth_error_app2 in H by (rewrite map_length, seq_length; auto). rewrite map_length, seq_length in H. destruct (i - m) as [|k] eqn:E; [|destruct k; discriminate H].
      injection H as <-. right. assert (i = m) by lia. subst. auto.
  Qed.
  Lemma segment_line T m : nth_error (segment_cells T m) (S (S m)) = Some (line_cell T (S (S m))).
  Proof. unfold segment_cells. cbn [nth_error]. rewrite nth_error_app2 by (rewrite map_length, seq_length; auto). rewrite map_length, seq_length, Nat.sub_diag. reflexivity. Qed.
  Lemma segment_graded T m : graded (segment_cells T m).
  Proof.
    intros i c H. destruct (segment_nth T m i c H) as [(L & ->)|[(L & ->)|(-> & ->)]]; (split; [reflexivity|]); [intros k []|intros k []|].
    intros k [<-|[<-|[]]]; eexists; split; reflexivity.
  Qed.
  Lemma box_1D_spec f tags (p0 p1 : P) rest : let T := in_effect tags default_1D in let pts := p0 :: p1 :: rest in let m := length rest in
    exists g, box_1D P (S f) (new_builder P tags) pts = Ok (mk_builder P (segment_cells T m) pts T, g) /\ Permutation (g_nodes g) [0; 1; S (S m)].
  Proof.
    intros T pts m. destruct (graph_ok (segment_cells T m) (segment_graded T m) f) as (g & E & Ng & Mg).
    { intros i c H. destruct (segment_nth T m i c H) as [(L & ->)|[(L & ->)|(-> & ->)]]; cbn; lia. }
    exists g. split.
    - unfold box_1D. rewrite tags_in_effect. fold default_1D. cbn [new_builder bu_tags bu_cells bu_points app]. fold T. cbv zeta. unfold pts. cbn [length]. fold m.
      cbn [seq map app]. unfold cells_at, get_at. do 4 cbn [nth_error bind set_at box_vertex set_tag bl_dim bl_id bl_pid bl_bc bl_loop mapM app].
      fold (end_cell T 0). fold (end_cell T 1). fold (line_cell T (S (S m))). unfold segment_cells in E. change (bind (build_box_graph (S f) (segment_cells T m)) (fun g0 => Ok (mk_builder P (segment_cells T m) pts T, g0)) = Ok (mk_builder P (segment_cells T m) pts T, g)). unfold segment_cells at 1. rewrite E. reflexivity.
    - apply NoDup_Permutation; auto; [repeat constructor; cbn; lia|]. intros u. rewrite Mg. split.
      + intros (c & H & B). destruct (segment_nth T m u c H) as [(L & ->)|[(L & ->)|(-> & ->)]]; [cbn; lia| |cbn; auto].
        destruct B as [B|(i & d & Hd & B)]; [cbn in B; congruence|]. destruct (segment_nth T m i d Hd) as [(_ & ->)|[(_ & ->)|(-> & ->)]]; cbn in B; [destruct B|destruct B|]. destruct B as [<-|[<-|[]]]; cbn; auto.
      + pose proof (segment_line T m) as HL. intros [<-|[<-|[<-|[]]]]; (eexists; split; [first [exact HL|reflexivity]|]); [right|right|left; discriminate]; exists (S (S m)), (line_cell T (S (S m))); cbn; auto.
  Qed.
  Lemma segment_lemma fuel tags (pts : list P) : 2 <= length pts -> 1 <= fuel -> let T := in_effect tags default_1D in
    (segment_tagged T -> exists r, mesh_box P fuel 1 tags pts = Ok r /\ accepted nothing r /\ plain_segment P T pts r) /\
    (~ segment_tagged T -> mesh_box P fuel 1 tags pts = Err TypeError).
  Proof.
    intros L Hf T. destruct fuel as [|f]; [lia|]. destruct pts as [|p0 [|p1 rest]]; [cbn in L; lia|cbn in L; lia|]. clear L Hf.
    destruct (box_1D_spec f tags p0 p1 rest) as (g & Eb & Pn). fold T in Eb. set (m := length rest) in *. set (pts := p0 :: p1 :: rest) in *.
    unfold mesh_box. rewrite Eb. cbn [bind fst set_points bu_points]. unfold generate, describe_domain, describe_1D. cbn [bu_cells]. set (cs := segment_cells T m).
    change (map (fun tp : nat * P => AddPoint (snd tp) (Z.of_nat (fst tp) + 1)%Z) (combine (seq 0 (length pts)) pts)) with (point_calls pts 0).
    pose proof (segment_line T m) as HL. fold cs in HL. set (n := S (S m)) in *.
    assert (E : mapM (get_at cs) (g_nodes g) = Ok (map (fun i => nth i cs (box_vertex 0)) (g_nodes g))).
    { apply mapM_Ok_map. intros i Hi. apply (Permutation_in _ Pn) in Hi. destruct Hi as [<-|[<-|[<-|[]]]]; [reflexivity|reflexivity|]. unfold get_at. rewrite (nth_error_nth _ _ _ HL), HL. reflexivity. }
    rewrite E. cbn [bind]. set (xs := map _ _).
    assert (Px : Permutation xs [end_cell T 0; end_cell T 1; line_cell T n]). { unfold xs. rewrite Pn. cbn [map]. rewrite (nth_error_nth _ _ _ HL). reflexivity. }
    assert (X1 : of_dim 1 xs = [line_cell T n]). { pose proof (Permutation_filter (fun c => bl_dim c =? 1) _ _ Px) as Q. cbn [filter end_cell line_cell bl_dim Nat.eqb] in Q. apply Permutation_sym, Permutation_length_1_inv in Q. exact Q. }
    assert (X0 : of_dim 0 xs = [end_cell T 0; end_cell T 1] \/ of_dim 0 xs = [end_cell T 1; end_cell T 0]).
    { pose proof (Permutation_filter (fun c => bl_dim c =? 0) _ _ Px) as Q. cbn [filter end_cell line_cell bl_dim Nat.eqb] in Q. apply Permutation_sym, Permutation_length_2_inv in Q. exact Q. }
    rewrite X1. cbn [mapM bind]. unfold box_line at 1, box_end at 1 2. cbn [line_cell bl_bc bl_id bind]. unfold get_at. cbn [nth_error bind cs segment_cells end_cell bl_pid]. cbn [bind].
    change (ids [line_cell T n]) with [Z.of_nat n]. fold (end_cell T 0) (end_cell T 1). 
    split.
    - intros (HTl & HT0 & HT1).
      assert (Ht : forall k, dget T k <> None -> forall p, tag_z (dget T k) = p <-> dget T k = Some p). { intros k Hk p. destruct (dget T k); [cbn; split; congruence|congruence]. }
      assert (G : exists g0 g1, mapM (fun c => add_group P 0 [(Z.of_nat (bl_id c) + 1)%Z] (bl_tag c)) (of_dim 0 xs) = Ok [g0; g1] /\
        Permutation [g0; g1] [AddPhysicalGroup 0 [1%Z] (tag_z (dget T (KBc 0))); AddPhysicalGroup 0 [2%Z] (tag_z (dget T (KBc 1)))]).
      { rewrite groups_ok. { destruct X0 as [-> | ->]; cbn [map end_cell bl_id bl_tag]; do 2 eexists; (split; [reflexivity|]); [reflexivity|apply perm_swap]. }
        intros c Hc. destruct X0 as [X0|X0]; rewrite X0 in Hc; destruct Hc as [<-|[<-|[]]]; auto. }
      destruct G as (g0 & g1 & Eg & Pg). rewrite Eg. cbn [bind]. unfold add_group. cbn [line_cell bl_tag]. destruct (dget T KLine) as [tl|] eqn:El; [|congruence]. cbn [bind app].
      eexists. split; [reflexivity|]. split.
      + rewrite accepted_app. destruct (points_accepted pts 0 nothing) as [A B]; [intros i _ []|]. split; [exact A|]. rewrite B. cbn [nothing points]. rewrite app_nil_r. set (s1 := with_points _ _).
        assert (Hp : forall i, i < length pts -> In (Z.of_nat i + 1)%Z (points s1)). { intros i Hi. unfold s1. cbn [with_points points]. apply -> in_rev. apply in_map_iff. exists i. split; auto. apply in_seq. lia. }
        assert (L1 : In 1%Z (points s1)) by (apply (Hp 0); cbn; lia). assert (L2 : In 2%Z (points s1)) by (apply (Hp 1); cbn; lia).
        split; [cbn; split; [exact L1|split; [exact L2|auto]]|]. split; [exact I|].
        set (s2 := after (after s1 _) Synchronize). assert (Pa : forall c, In c [g0; g1; @AddPhysicalGroup P 1 [Z.of_nat n] tl; Synchronize] -> in_order s2 c).
        { intros c [<-|[<-|[<-|[<-|[]]]]]; [| |intros x [<-|[]]; cbn; auto|exact I].
          - assert (H : In g0 [AddPhysicalGroup 0 [1%Z] (tag_z (dget T (KBc 0))); AddPhysicalGroup 0 [2%Z] (tag_z (dget T (KBc 1)))]) by (apply (Permutation_in _ Pg); left; auto). destruct H as [<-|[<-|[]]]; intros x [<-|[]]; auto.
          - assert (H : In g1 [AddPhysicalGroup 0 [1%Z] (tag_z (dget T (KBc 0))); AddPhysicalGroup 0 [2%Z] (tag_z (dget T (KBc 1)))]) by (apply (Permutation_in _ Pg); right; left; auto). destruct H as [<-|[<-|[]]]; intros x [<-|[]]; auto. }
        change (accepted s2 ([g0; g1; AddPhysicalGroup 1 [Z.of_nat n] tl] ++ [Synchronize])). rewrite accepted_app. split; [|split; exact I]. apply passive_accepted.
        * assert (Q : forall c, In c [g0; g1] -> passive c). { intros c Hc. apply (Permutation_in _ Pg) in Hc. destruct Hc as [<-|[<-|[]]]; intros s; reflexivity. } repeat constructor; apply Q; cbn; auto.
        * intros c [<-|[<-|[<-|[]]]]; apply Pa; cbn; auto.
      + assert (Hg : forall c, c = g0 \/ c = g1 <-> c = AddPhysicalGroup 0 [1%Z] (tag_z (dget T (KBc 0))) \/ c = AddPhysicalGroup 0 [2%Z] (tag_z (dget T (KBc 1)))).
        { intros c. split; intros H.
          - assert (Q : In c [g0; g1]) by (destruct H as [-> | ->]; cbn; auto). apply (Permutation_in _ Pg) in Q. destruct Q as [<-|[<-|[]]]; auto.
          - assert (Q : In c [AddPhysicalGroup 0 [1%Z] (tag_z (dget T (KBc 0))); AddPhysicalGroup 0 [2%Z] (tag_z (dget T (KBc 1)))]) by (destruct H as [-> | ->]; cbn; auto). apply (Permutation_in _ (Permutation_sym Pg)) in Q. destruct Q as [<-|[<-|[]]]; auto. }
        assert (Cs : forall c, In c (point_calls pts 0 ++ AddLine (Z.of_nat 0 + 1) (Z.of_nat 1 + 1) (Z.of_nat n) :: Synchronize :: g0 :: g1 :: [AddPhysicalGroup 1 [Z.of_nat n] tl] ++ [Synchronize]) <->
          (exists p t, c = AddPoint p t /\ numbered pts p t) \/ c = AddLine 1 2 (Z.of_nat n) \/ c = Synchronize \/ c = AddPhysicalGroup 0 [1%Z] (tag_z (dget T (KBc 0))) \/ c = AddPhysicalGroup 0 [2%Z] (tag_z (dget T (KBc 1))) \/ c = AddPhysicalGroup 1 [Z.of_nat n] tl).
        { intros c. rewrite in_app_iff. cbn [In app]. assert (E1 : In c (point_calls pts 0) <-> exists p t, c = AddPoint p t /\ numbered pts p t).
          { split; [|intros (p & t & -> & H); apply In_point_calls; auto]. intros H. assert (X : exists p t, c = AddPoint p t) by (unfold point_calls in H; apply in_map_iff in H as (x & <- & _); eauto).
            destruct X as (p & t & ->). exists p, t. split; auto. apply In_point_calls. auto. }
          rewrite E1. specialize (Hg c). change (Z.of_nat 0 + 1)%Z with 1%Z. change (Z.of_nat 1 + 1)%Z with 2%Z. split.
          - intros [H|[H|[H|[H|[H|[H|[H|[]]]]]]]]; auto 10; (assert (Q : c = g0 \/ c = g1) by auto; apply Hg in Q; tauto).
          - intros [H|[H|[H|[H|[H|H]]]]]; auto 10; (assert (Q : c = g0 \/ c = g1) by (apply Hg; auto); destruct Q; auto 10). }
        constructor; intros; try rewrite Cs in *.
        * split; [intros [(? & ? & E' & H)|[E'|[E'|[E'|[E'|E']]]]]; try discriminate E'; injection E' as -> ->; auto|intros H; left; eauto].
        * split; [intros [(? & ? & E' & H)|[E'|[E'|[E'|[E'|E']]]]]; try discriminate E'; injection E' as -> -> ->; auto|intros (-> & -> & ->); auto].
        * rewrite El. split; [intros [(? & ? & E' & H)|[E'|[E'|[E'|[E'|E']]]]]; try discriminate E'; injection E' as -> -> E'|].
          -- left. rewrite <- Ht; auto.
          -- right. left. rewrite <- Ht; auto.
          -- right. right. rewrite E'. auto.
          -- intros [(-> & -> & E')|[(-> & -> & E')|(-> & -> & E')]]; [apply Ht in E'; auto; rewrite E'; auto 10|apply Ht in E'; auto; rewrite E'; auto 10|injection E' as ->; auto 10].
        * destruct H as [(? & ? & -> & _)|[->|[->|[->|[->| ->]]]]]; exact I.
    - intros H. destruct (dget T (KBc 0)) eqn:E0; [destruct (dget T (KBc 1)) eqn:E1|].
      + rewrite groups_ok. 2:{ intros c Hc. destruct X0 as [X0|X0]; rewrite X0 in Hc; destruct Hc as [<-|[<-|[]]]; cbn; congruence. }
        cbn [bind]. unfold add_group. cbn [line_cell bl_tag]. destruct (dget T KLine) eqn:El; [|reflexivity]. exfalso. apply H. unfold segment_tagged. rewrite El, E0, E1. repeat split; discriminate.
      + rewrite groups_err; [reflexivity|]. exists (end_cell T 1). split; [destruct X0 as [-> | ->]; cbn; auto|exact E1].
      + rewrite groups_err; [reflexivity|]. exists (end_cell T 0). split; [destruct X0 as [-> | ->]; cbn; auto|exact E0].
  Qed.
End Segment.
