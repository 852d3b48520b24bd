(** * Proofs about boxes: the description of the polygon *)
From Coq Require Import List Arith ZArith Bool Lia Permutation.
From Verif Require Import Base BaseProof FracModel MesherModel MesherSpec MesherProof BuilderModel BuilderSpec BuilderProof.
Import ListNotations.

Definition tag_z (o : option Z) : Z := match o with Some z => z | None => 0%Z end.
Section Calls.
  Context {P : Type}.
  Notation call := (call P).
  Lemma groups_ok d (tagsf : bcell -> list Z) l : (forall c, In c l -> bl_tag c <> None) ->
    mapM (fun c => add_group P d (tagsf c) (bl_tag c)) l = Ok (map (fun c => AddPhysicalGroup d (tagsf c) (tag_z (bl_tag c))) l).
  Proof.
    intros H. apply mapM_Ok_map. intros c Hc. specialize (H c Hc). unfold add_group. destruct (bl_tag c); [reflexivity|congruence].
  Qed.
  Lemma groups_err d (tagsf : bcell -> list Z) l : (exists c, In c l /\ bl_tag c = None) ->
    mapM (fun c => add_group P d (tagsf c) (bl_tag c)) l = Err TypeError.
  Proof.
    intros (c & Hc & E). induction l as [|x l IH]; [destruct Hc|]. cbn [mapM]. unfold add_group at 1. destruct (bl_tag x) eqn:Ex; [|reflexivity].
    destruct Hc as [->|Hc]; [congruence|]. cbn [bind]. rewrite IH; auto.
  Qed.

  (** ** Points and lines *)
  Definition point_calls (l : list P) (k : nat) : list call := map (fun tp => AddPoint (snd tp) (Z.of_nat (fst tp) + 1)%Z) (combine (seq k (length l)) l).
  Lemma points_accepted : forall (l : list P) k s, (forall i, k <= i -> ~ In (Z.of_nat i + 1)%Z (points s)) ->
    accepted s (point_calls l k) /\ afters s (point_calls l k) = with_points s (rev (map (fun i => (Z.of_nat i + 1)%Z) (seq k (length l))) ++ points s).
  Proof.
    induction l as [|p l IH]; intros k s H; [simpl; split; [exact I|destruct s; reflexivity]|].
    unfold point_calls in *. cbn [length seq combine map]. cbn [fst snd accepted in_order].
    destruct (IH (S k) (after (P:=P) s (AddPoint p (Z.of_nat k + 1)%Z))) as [A B].
    { intros i Hi. simpl. intros [E|I]; [lia|]. apply (H i); [lia|auto]. }
    split; [split; [apply H; lia|exact A]|]. etransitivity; [exact B|]. unfold with_points. simpl. rewrite <- app_assoc. reflexivity.
  Qed.
  Lemma In_point_calls : forall (l : list P) p t, In (AddPoint p t) (point_calls l 0) <-> numbered l p t.
  Proof.
    assert (G : forall (l : list P) k p t, In (AddPoint p t) (point_calls l k) <-> exists i, nth_error l i = Some p /\ t = (Z.of_nat (k + i) + 1)%Z).
    { induction l as [|x l IH]; intros k p t; [simpl; split; [tauto|intros (i & E & _); destruct i; discriminate]|].
      unfold point_calls in *. cbn [length seq combine map fst snd]. simpl In. rewrite IH. split.
      - intros [E|(i & E & ->)]; [injection E as -> <-; exists 0; split; [reflexivity|f_equal; lia]|exists (S i); split; [exact E|f_equal; f_equal; lia]].
      - intros (i & E & ->). destruct i as [|i]; [left; simpl in E; injection E as ->; f_equal; f_equal; lia|right; exists i; split; [exact E|f_equal; f_equal; lia]]. }
    intros l p t. rewrite G. unfold numbered. reflexivity.
  Qed.
  Definition line_call (l : Z * Z * Z) : call := let '(b, e, t) := l in AddLine b e t.
  Definition line_known (l : Z * Z * Z) : Z * (Z * Z) := let '(b, e, t) := l in (t, (b, e)).
  Lemma lines_accepted : forall (ls : list (Z * Z * Z)) s,
    (forall b e t, In (b, e, t) ls -> In b (points s) /\ In e (points s) /\ ~ In t (map fst (lines s))) -> NoDup (map snd ls) ->
    accepted s (map line_call ls) /\ afters s (map line_call ls) = with_lines s (rev (map line_known ls) ++ lines s).
  Proof.
    induction ls as [|[[b e] t] ls IH]; intros s H N; [simpl; split; [exact I|destruct s; reflexivity]|].
    cbn [map] in *. inversion N as [|? ? Nt N']; subst. cbn [snd] in Nt.
    destruct (IH (after (P:=P) s (AddLine b e t))) as [A B]; auto.
    { intros b' e' t' I. destruct (H b' e' t' (or_intror I)) as (H1 & H2 & H3). simpl. split; auto. split; auto. intros [<-|Q]; auto.
      apply Nt. apply in_map_iff. exists (b', e', t). auto. }
    split; [split; [apply (H b e t); left; auto|exact A]|]. etransitivity; [exact B|]. unfold with_lines. simpl. rewrite <- app_assoc. reflexivity.
  Qed.
End Calls.

Section Polygon.
  Context {P : Type}.
  Notation call := (call P).
  Variable n : nat.
  Variable T : dict key Z.
  Variable g : digraph nat.
  Hypothesis Hn : 0 < n.
  Hypothesis Ng : NoDup (g_nodes g).
  Hypothesis Mg : forall u, In u (g_nodes g) <-> u < 2 * n + 1.
  Variable pts : list P.
  Notation cs := (polygon_cells n T).
  Notation face := (mk_bcell 2 (n + n) (dget T KArea) None (seq n n) []).
  Definition side_line (i : nat) : Z * Z * Z := ((Z.of_nat i + 1)%Z, (Z.of_nat ((i + 1) mod n) + 1)%Z, Z.of_nat (n + i)).
  Definition face_number : Z := Z.of_nat (n + n).
  Definition side_group (i : nat) : call := AddPhysicalGroup 1 [Z.of_nat (n + i)] (tag_z (dget T (KBc i))).
  Definition polygon_drawn : list call :=
    map line_call (map side_line (seq 0 n)) ++ [AddCurveLoop (map Z.of_nat (seq n n)) face_number; AddPlaneSurface [face_number] face_number].

  Lemma cells_dim d xs : Permutation xs cs -> Permutation (of_dim d xs) (of_dim d cs).
  Proof. apply Permutation_filter. Qed.
  Lemma filter_all {A} (f : A -> bool) l : (forall x, In x l -> f x = true) -> filter f l = l.
  Proof. induction l as [|x l IH]; intros H; auto. cbn [filter]. rewrite (H x (or_introl eq_refl)). f_equal. apply IH. intros; apply H; right; auto. Qed.
  Lemma filter_none {A} (f : A -> bool) l : (forall x, In x l -> f x = false) -> filter f l = [].
  Proof. induction l as [|x l IH]; intros H; auto. cbn [filter]. rewrite (H x (or_introl eq_refl)). apply IH. intros; apply H; right; auto. Qed.
  Lemma dim_1 : of_dim 1 cs = map (polygon_side n T) (seq 0 n).
  Proof.
    unfold of_dim, polygon_cells. rewrite !filter_app. rewrite filter_none by (intros x X; apply in_map_iff in X as (i & <- & _); reflexivity).
    rewrite filter_all by (intros x X; apply in_map_iff in X as (i & <- & _); reflexivity). cbn. apply app_nil_r.
  Qed.
  Lemma dim_2 : of_dim 2 cs = [face].
  Proof.
    unfold of_dim, polygon_cells. rewrite !filter_app. rewrite !filter_none by (intros x X; apply in_map_iff in X as (i & <- & _); reflexivity). reflexivity.
  Qed.
  Lemma box_line_side i : i < n -> box_line P cs (polygon_side n T i) = Ok (line_call (side_line i)).
  Proof.
    intros L. assert ((i + 1) mod n < n) by (apply Nat.mod_upper_bound; lia).
    unfold box_line, box_end, polygon_side. cbn [bl_bc bl_id]. unfold get_at at 1 3. cbn [nth_error bind].
    rewrite (get_at_Some _ _ _ (polygon_vertex n T i L)). cbn [bind]. rewrite (get_at_Some _ _ _ (polygon_vertex n T _ H)). reflexivity.
  Qed.
  Lemma edges_of_face : mapM (get_at cs) (seq n n) = Ok (map (polygon_side n T) (seq 0 n)).
  Proof.
    assert (G : forall m s, s + m <= n -> mapM (get_at cs) (seq (n + s) m) = Ok (map (polygon_side n T) (seq s m))).
    { induction m as [|m IH]; intros s L; [reflexivity|]. cbn [seq mapM map]. rewrite (get_at_Some _ _ _ (polygon_edge_nth n T s ltac:(lia))). cbn [bind].
      replace (S (n + s)) with (n + S s) by lia. rewrite IH by lia. reflexivity. }
    rewrite <- (G n 0) by lia. rewrite Nat.add_0_r. reflexivity.
  Qed.
  Lemma polygon_calls_face : polygon_calls P cs face = Ok polygon_drawn.
  Proof.
    unfold polygon_calls. cbn [bl_bc bl_id]. rewrite edges_of_face. cbn [bind].
    assert (G : mapM (box_line P cs) (map (polygon_side n T) (seq 0 n)) = Ok (map line_call (map side_line (seq 0 n)))).
    { assert (Q : forall l, (forall i, In i l -> i < n) -> mapM (box_line P cs) (map (polygon_side n T) l) = Ok (map line_call (map side_line l))).
      { induction l as [|i l IH]; intros H; [reflexivity|]. cbn [map mapM]. rewrite box_line_side by (apply H; left; auto). cbn [bind]. rewrite IH by (intros; apply H; right; auto). reflexivity. }
      apply Q. intros i I. apply in_seq in I. lia. }
    rewrite G. cbn [bind]. unfold polygon_drawn, ids, face_number. rewrite (map_map (polygon_side n T)).
    assert (E : map (fun x => Z.of_nat (bl_id (polygon_side n T x))) (seq 0 n) = map Z.of_nat (seq n n)).
    { replace (seq n n) with (map (Nat.add n) (seq 0 n)); [rewrite map_map; reflexivity|]. clear. rewrite <- (Nat.add_0_r n) at 3. generalize n at 2 4 as m. generalize 0 as s.
      intros s m. revert s. induction m as [|m IH]; intros s; [reflexivity|]. cbn [seq map]. f_equal. rewrite IH. f_equal. lia. }
    rewrite E. reflexivity.
  Qed.

  Lemma describe_ok : all_tagged T n -> exists groups, Permutation groups (map side_group (seq 0 n)) /\
    describe_2D P (mk_builder P cs pts T) g = Ok (polygon_drawn ++ [Synchronize] ++ groups ++ [AddPhysicalGroup 2 [face_number] (tag_z (dget T KArea))], [face_number]).
  Proof.
    intros [HA HB]. unfold describe_2D. cbn [bu_cells].
    destruct (all_nodes cs (g_nodes g) Ng) as (xs & E & Px). { intros i. rewrite Mg, polygon_length. reflexivity. }
    rewrite E. cbn [bind]. pose proof (cells_dim 2 xs Px) as P2. rewrite dim_2 in P2. apply Permutation_sym, Permutation_length_1_inv in P2. rewrite P2.
    cbn [mapM]. rewrite polygon_calls_face. cbn [bind]. pose proof (cells_dim 1 xs Px) as P1. rewrite dim_1 in P1.
    exists (map (fun c => AddPhysicalGroup 1 [Z.of_nat (bl_id c)] (tag_z (bl_tag c))) (of_dim 1 xs)). split.
    - rewrite (Permutation_map _ P1). rewrite map_map. reflexivity.
    - rewrite groups_ok.
      + cbn [bind]. unfold add_group. cbn [bl_tag]. destruct (dget T KArea) as [a|]; [|congruence]. cbn [bind concat ids map bl_id app]. rewrite app_nil_r. reflexivity.
      + intros c Hc. apply (Permutation_in _ P1), in_map_iff in Hc as (i & <- & I). apply in_seq in I. apply HB. lia.
  Qed.
  Lemma describe_err : ~ all_tagged T n -> describe_2D P (mk_builder P cs pts T) g = Err TypeError.
  Proof.
    intros H. unfold describe_2D. cbn [bu_cells].
    destruct (all_nodes cs (g_nodes g) Ng) as (xs & E & Px). { intros i. rewrite Mg, polygon_length. reflexivity. }
    rewrite E. cbn [bind]. pose proof (cells_dim 2 xs Px) as P2. rewrite dim_2 in P2. apply Permutation_sym, Permutation_length_1_inv in P2. rewrite P2.
    cbn [mapM]. rewrite polygon_calls_face. cbn [bind]. pose proof (cells_dim 1 xs Px) as P1. rewrite dim_1 in P1.
    destruct (existsb (fun i => match dget T (KBc i) with None => true | _ => false end) (seq 0 n)) eqn:Ex.
    - apply existsb_exists in Ex as (i & I & Q). rewrite groups_err; [reflexivity|]. exists (polygon_side n T i). split.
      + apply (Permutation_in _ (Permutation_sym P1)), in_map_iff. eauto.
      + cbn. destruct (dget T (KBc i)); [discriminate|reflexivity].
    - assert (HB : forall i, i < n -> dget T (KBc i) <> None).
      { intros i L Q. assert (existsb (fun i => match dget T (KBc i) with None => true | _ => false end) (seq 0 n) = true); [|congruence].
        apply existsb_exists. exists i. split; [apply in_seq; lia|rewrite Q; reflexivity]. }
      rewrite groups_ok; [|intros c Hc; apply (Permutation_in _ P1), in_map_iff in Hc as (i & <- & I); apply in_seq in I; apply HB; lia].
      cbn [bind]. unfold add_group. cbn [bl_tag]. destruct (dget T KArea) as [a|] eqn:Ea; [|reflexivity]. exfalso. apply H. split; [congruence|exact HB].
  Qed.

  (** ** The polygon is accepted *)
  Lemma sides_closed (s : scene) : (forall i, i < n -> In (line_known (side_line i)) (lines s)) -> closed_trail s (map Z.of_nat (seq n n)).
  Proof. clear - Hn.
    intros H. split; [destruct n; [lia|discriminate]|]. exists 1%Z.
    assert (G : forall m t, t + m = n -> 0 < m -> trail s (Z.of_nat t + 1)%Z (map Z.of_nat (seq (n + t) m)) 1%Z).
    { induction m as [|m IH]; intros t E L; [lia|]. cbn [seq map trail].
      exists (Z.of_nat ((t + 1) mod n) + 1)%Z. split; [left; split; [lia|apply (H t); lia]|].
      destruct m as [|m]; [|].
      - replace (t + 1) with n by lia. rewrite Nat.mod_same by lia. reflexivity.
      - rewrite Nat.mod_small by lia. replace (S (n + t)) with (n + (t + 1)) by lia. apply IH; lia. }
    specialize (G n 0 eq_refl Hn). rewrite Nat.add_0_r in G. exact G.
  Qed.
  Definition drawn_scene (m : nat) : scene :=
    mk_scene (rev (map (fun i => (Z.of_nat i + 1)%Z) (seq 0 m))) (rev (map line_known (map side_line (seq 0 n)))) [face_number] [face_number] [] [] (fun _ _ => False).
  Lemma polygon_accepted (all : list P) : n <= length all ->
    accepted nothing (point_calls all 0 ++ polygon_drawn) /\ afters nothing (point_calls all 0 ++ polygon_drawn) = drawn_scene (length all).
  Proof.
    clear - Hn. intros L. rewrite accepted_app, afters_app. destruct (points_accepted all 0 nothing) as [A B]; [intros i _ []|]. rewrite B. cbn [nothing points]. rewrite app_nil_r.
    set (s1 := with_points _ _). assert (Hp : forall i, i < length all -> In (Z.of_nat i + 1)%Z (points s1)).
    { intros i Hi. unfold s1. cbn [with_points points]. apply -> in_rev. apply in_map_iff. exists i. split; auto. apply in_seq. lia. }
    unfold polygon_drawn. rewrite accepted_app, afters_app.
    destruct (lines_accepted (P:=P) (map side_line (seq 0 n)) s1) as [C D].
    { intros b e t I. apply in_map_iff in I as (i & E & I). apply in_seq in I. injection E as <- <- <-. assert ((i + 1) mod n < n) by (apply Nat.mod_upper_bound; lia).
      split; [apply Hp; lia|]. split; [apply Hp; lia|]. simpl. tauto. }
    { rewrite map_map. cbn [side_line snd]. apply FinFun.Injective_map_NoDup; [intros a b; lia|apply seq_NoDup]. }
    rewrite D. change (lines s1) with (@nil (Z * (Z * Z))). rewrite app_nil_r. split; [|reflexivity]. split; [exact A|]. split; [exact C|].
    cbn [accepted in_order after]. split; [split|split; [|exact I]].
    - apply sides_closed. intros i Hi. cbn [with_lines lines]. apply -> in_rev. apply in_map. apply in_map. apply in_seq. lia.
    - simpl. tauto.
    - split; [simpl; intros x [<-|[]]; auto|simpl; tauto].
  Qed.
  Definition seen_scene (m : nat) : scene := after (P:=P) (drawn_scene m) Synchronize.
  Lemma groups_accepted (m : nat) groups : Permutation groups (map side_group (seq 0 n)) -> n <= m ->
    Forall (passive (P:=P)) (groups ++ [AddPhysicalGroup 2 [face_number] (tag_z (dget T KArea))]) /\
    accepted (seen_scene m) (groups ++ [AddPhysicalGroup 2 [face_number] (tag_z (dget T KArea))]).
  Proof.
    intros G L. assert (F : Forall (passive (P:=P)) (groups ++ [AddPhysicalGroup 2 [face_number] (tag_z (dget T KArea))])).
    { apply Forall_forall. intros c Hc. apply in_app_iff in Hc as [Hc|[<-|[]]]; [|intros s; reflexivity]. apply (Permutation_in _ G), in_map_iff in Hc as (i & <- & _). intros s. reflexivity. }
    split; auto. apply passive_accepted; auto. intros c Hc. apply in_app_iff in Hc as [Hc|[<-|[]]].
    - apply (Permutation_in _ G), in_map_iff in Hc as (i & <- & I). cbn [in_order side_group]. intros x [<-|[]]. unfold seen_scene. cbn [after visible entity drawn_scene lines].
      rewrite map_rev. apply -> in_rev. rewrite !map_map. cbn. apply in_map_iff. exists i. auto.
    - cbn [in_order]. intros x [<-|[]]. unfold seen_scene. cbn. auto.
  Qed.
End Polygon.
