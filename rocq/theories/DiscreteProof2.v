(** * Lemmas about the description of DiscreteDomain: what it holds; solids; boxes *)
From Coq Require Import List Arith ZArith Bool Lia Sorted.
From Verif Require Import Base BaseProof ShapeModel ShapeSpec ShapeProof BoxProof Box3Proof TagModel TagSpec TagProof
  MesherModel MesherSpec MesherProof MesherProof2 MesherProof5 DiscreteSpec DiscreteProof.
Import ListNotations.

Section Contents.
  Context {P : Type}.
  Variable pclose : P -> P -> bool.
  Variable fuel : nat.
  Variable D : domain P.
  Variable refinement : list Z * option Z.
  Hypothesis close_refl : forall x, pclose x x = true.
  Hypothesis enough : 1 <= fuel.
  Hypothesis good : proper D.
  Notation strided st := (forall d s, In s (nth d D []) -> (Z.of_nat (nth d st 0%nat) + s_tag s + 1)%Z = place D d s).

  Lemma convert_lemma : exists r, convert_occ pclose fuel refinement D = Ok r /\ accepted nothing r.
  Proof.
    destruct (convert_ok pclose fuel D refinement close_refl enough good) as (st & H & E). exists (description pclose fuel D refinement st). split; auto.
    apply description_accepted; auto.
  Qed.
  Variable r : list (call P).
  Hypothesis result : convert_occ pclose fuel refinement D = Ok r.

  Lemma open_description : exists st, strided st /\ r = description pclose fuel D refinement st.
  Proof. destruct (convert_ok pclose fuel D refinement close_refl enough good) as (st & H & E). exists st. split; auto. congruence. Qed.
  (** The members, by kind of call *)
  Definition member (st : list nat) (c : call P) : Prop :=
    (exists v p, drawn D 0 v /\ s_point v = Some p /\ c = AddPoint p (place D 0 v)) \/
    (exists k x y rest, drawn D 1 k /\ s_boundary k = x :: y :: rest /\ c = AddLine (place D 0 x) (place D 0 y) (place D 1 k)) \/
    (exists f, drawn D 2 f /\ In c (surface_of pclose fuel (num st) f)) \/
    (exists p, In p (physical_tags (nth 0 D [])) /\ c = vertex_group D st p) \/
    (exists p, In p (physical_tags (nth 1 D [])) /\ (c = AddPhysicalGroup 1 (curve_tags D st p) p \/
      exists n t, snd refinement = Some n /\ In p (fst refinement) /\ In t (curve_tags D st p) /\ c = SetTransfiniteCurve t n)) \/
    (exists p, In p (physical_tags (nth 2 D [])) /\ c = AddPhysicalGroup 2 (map (fun s => num st 2 (s_tag s)) (filter (has_phys p) (nth 2 D []))) p) \/
    (exists k, drawn D 1 k /\ c = Embed 0 (unique_tags (map (fun i => num st 0 (s_tag i)) (immersed k))) 1 (place D 1 k)) \/
    (exists f, drawn D 2 f /\ (c = Embed 0 (surface_tags_0d (num st) f) 2 (place D 2 f) \/ c = Embed 1 (surface_tags_1d (num st) f) 2 (place D 2 f))).
  Lemma members : exists st, strided st /\ forall c, c <> Synchronize -> (In c r <-> member st c).
  Proof.
    destruct open_description as (st & H & E). exists st. split; auto. intros c N. rewrite E.
    rewrite (in_description pclose fuel D refinement enough good st H c N).
    rewrite (in_pts D st H), (in_lns D good st H), (in_sfs pclose fuel D st), (in_g0 D refinement st), (in_g1 D refinement st), (in_g2 D refinement st), (in_e1 D good st H), (in_e2 D st H). reflexivity.
  Qed.
  Ltac pick H := unfold member in H; repeat match type of H with _ \/ _ => destruct H as [H|H] end.
  Lemma face_In st : strided st -> forall f c, drawn D 2 f -> In c (surface_of pclose fuel (num st) f) ->
    (exists l, c = AddCurveLoop l (place D 2 f)) \/ c = AddPlaneSurface [place D 2 f] (place D 2 f).
  Proof.
    intros H f c Df I. destruct (face_calls pclose fuel D close_refl enough good st H f Df) as (w & rest & l & _ & _ & E). rewrite E in I.
    destruct I as [<-|[<-|[]]]; eauto.
  Qed.
  Ltac no := match goal with
    | H : exists _, _ |- _ => destruct H; no
    | H : _ /\ _ |- _ => destruct H; no
    | H : _ \/ _ |- _ => destruct H; no
    | E : _ = _ |- _ => discriminate E
    | H : forall d s, In s (nth d D []) -> _, A : drawn D 2 ?f, B : In _ (surface_of _ _ _ ?f) |- _ => destruct (face_In _ H f _ A B) as [[? Q]|Q]; discriminate Q
    end.
  Lemma converted_points_lines :
    (forall p t, In (AddPoint p t) r <-> exists v, drawn D 0 v /\ s_point v = Some p /\ t = place D 0 v) /\
    (forall b e t, In (AddLine b e t) r <-> exists c x y rest, drawn D 1 c /\ s_boundary c = x :: y :: rest /\
      t = place D 1 c /\ b = place D 0 x /\ e = place D 0 y).
  Proof.
    destruct members as (st & H & M). split.
    - intros p t. rewrite M by discriminate. split.
      + intros Q. pick Q; try (exfalso; no). destruct Q as (v & q & Dv & Ev & Q). injection Q as -> ->. eauto.
      + intros (v & Dv & Ev & ->). left. eauto.
    - intros b e t. rewrite M by discriminate. split.
      + intros Q. pick Q; try (exfalso; no). destruct Q as (k & x & y & rest & Dk & Ek & Q). injection Q as -> -> ->. exists k, x, y, rest. auto.
      + intros (k & x & y & rest & Dk & Ek & -> & -> & ->). right. left. exists k, x, y, rest. auto.
  Qed.
  Lemma converted_faces :
    (forall f, drawn D 2 f -> exists w rest l, s_boundary f = w :: rest /\ map Z.abs l = map (place D 1) (immersed w) /\
      In (AddCurveLoop l (place D 2 f)) r /\ In (AddPlaneSurface [place D 2 f] (place D 2 f)) r) /\
    (forall l t, In (AddCurveLoop l t) r \/ In (AddPlaneSurface l t) r -> exists f, drawn D 2 f /\ t = place D 2 f) /\
    (forall l t, ~ In (AddSurfaceLoop l t) r /\ ~ In (AddVolume l t) r).
  Proof.
    destruct members as (st & H & M). split; [|split].
    - intros f Df. destruct (face_calls pclose fuel D close_refl enough good st H f Df) as (w & rest & l & Eb & El & E). exists w, rest, l. split; auto. split; auto.
      split; apply M; try discriminate; right; right; left; exists f; (split; [exact Df|]); rewrite E; [left|right; left]; reflexivity.
    - intros l t [I|I]; apply M in I; try discriminate; pick I; try (exfalso; no); destruct I as (f & Df & I); exists f; (split; [exact Df|]);
        destruct (face_In st H f _ Df I) as [[? Q]|Q]; congruence.
    - intros l t. split; intros I; apply M in I; try discriminate; pick I; no.
  Qed.
  Lemma above_two d : 3 <= d -> nth d D [] = [].
  Proof.
    intros L. pose proof good as (LD & L4 & Gap & _). destruct (Nat.eq_dec (length D) 4) as [Q|Q].
    - apply (above_empty D Gap 2); auto. lia.
    - apply nth_overflow. lia.
  Qed.
  Lemma converted_groups :
    (forall d s p, In s (nth d D []) -> s_phys s = Some p -> exists tags, In (AddPhysicalGroup d tags p) r) /\
    (forall d tags p, In (AddPhysicalGroup d tags p) r -> (exists s, In s (nth d D []) /\ s_phys s = Some p) /\ places D d (tagged D d p) tags).
  Proof.
    destruct members as (st & H & M). split.
    - intros d s p I E. destruct d as [|[|[|d]]].
      + eexists. apply M; [discriminate|]. do 3 right. left. exists p. split; [apply in_physical; eauto|reflexivity].
      + eexists. apply M; [discriminate|]. do 4 right. left. exists p. split; [apply in_physical; eauto|left; reflexivity].
      + eexists. apply M; [discriminate|]. do 5 right. left. exists p. split; [apply in_physical; eauto|reflexivity].
      + rewrite above_two in I by lia. destruct I.
    - intros d tags p I. apply M in I; [|discriminate]. pick I; try (exfalso; no).
      + destruct I as (q & Iq & E). unfold vertex_group in E. injection E as -> -> ->. split; [apply in_physical; auto|]. apply vertex_places; auto.
      + destruct I as (q & Iq & [E|E]); [|exfalso; no]. injection E as -> -> ->. split; [apply in_physical; auto|]. apply curve_places; auto.
      + destruct I as (q & Iq & E). injection E as -> -> ->. split; [apply in_physical; auto|]. apply surface_places; auto.
  Qed.
  Lemma converted_embedded :
    (forall c, drawn D 1 c -> exists t0, In (Embed 0 t0 1 (place D 1 c)) r) /\
    (forall f, drawn D 2 f -> exists t0 t1, In (Embed 0 t0 2 (place D 2 f)) r /\ In (Embed 1 t1 2 (place D 2 f)) r) /\
    (forall d tags d' t, In (Embed d tags d' t) r -> exists s, drawn D d' s /\ t = place D d' s /\
      ((d = 0 /\ d' = 1 /\ places D 0 (fun i => In i (immersed s)) tags) \/
       (d = 0 /\ d' = 2 /\ places D 0 (in_surface_0 s) tags) \/ (d = 1 /\ d' = 2 /\ places D 1 (in_surface_1 s) tags))).
  Proof.
    destruct members as (st & H & M). split; [|split].
    - intros c Dc. eexists. apply M; [discriminate|]. do 6 right. left. eauto.
    - intros f Df. do 2 eexists. split; (apply M; [discriminate|]); do 7 right; exists f; auto.
    - intros d tags d' t I. apply M in I; [|discriminate]. pick I; try (exfalso; no).
      + destruct I as (k & Dk & E). injection E as -> -> -> ->. exists k. split; auto. split; auto. left. split; auto. split; auto. apply tags_0; auto.
      + destruct I as (k & Dk & [E|E]); injection E as -> -> -> ->; exists k; (split; [auto|]); (split; [auto|]); right; [left|right]; (split; [auto|]); (split; [auto|]).
        * apply (surf_0 D good st H k Dk).
        * apply (surf_1 D good st H k Dk).
  Qed.
  Lemma converted_refinement : forall t n, In (SetTransfiniteCurve t n) r <->
    exists c p, drawn D 1 c /\ s_phys c = Some p /\ In p (fst refinement) /\ snd refinement = Some n /\ t = place D 1 c.
  Proof.
    destruct members as (st & H & M). intros t n. rewrite M by discriminate. split.
    - intros I. pick I; try (exfalso; no). destruct I as (p & Ip & [E|(m & u & Em & If & Iu & E)]); [discriminate E|]. injection E as -> ->.
      apply (curve_places D good st H p) in Iu as (c & [Dc Ec] & ->). exists c, p. auto.
    - intros (c & p & Dc & Ec & Ip & En & ->). do 4 right. left. exists p. split; [apply in_physical; exists c; split; auto; apply Dc|]. right. exists n, (place D 1 c).
      split; auto. split; auto. split; auto. apply (curve_places D good st H p). exists c. split; auto. split; auto.
  Qed.
End Contents.

(** ** Distinct groups *)
Section Once.
  Context {P : Type}.
  Notation call := (call P).
  Notation shape := (shape P).
  Definition groupless (c : call) : Prop := forall d tags p, c <> AddPhysicalGroup d tags p.
  Lemma groupless_keys (l : list call) : (forall c, In c l -> groupless c) -> group_keys l = [].
  Proof.
    induction l as [|c l IH]; intros H; auto. change (c :: l) with ([c] ++ l). rewrite keys_app, IH by (intros; apply H; right; auto).
    rewrite app_nil_r. specialize (H c (or_introl eq_refl)). destruct c; auto. destruct (H _ _ _ eq_refl).
  Qed.
  Lemma each_groupless (f : shape -> res (list call)) l q : (forall s k, f s = Ok k -> forall c, In c k -> groupless c) -> for_each f l = Ok q -> group_keys q = [].
  Proof.
    intros H E. apply groupless_keys. intros c I. unfold for_each in E. destruct (mapM f l) as [qs|] eqn:M; [|discriminate]. cbn [bind] in E. injection E as <-.
    apply in_concat in I as (k & Ik & Ic). clear - H M Ik Ic. revert qs M Ik. induction l as [|s l IH]; intros qs M Ik; simpl in M; [injection M as <-; destruct Ik|].
    destruct (f s) as [k'|] eqn:Es; [|discriminate]. cbn [bind] in M. destruct (mapM f l) as [qs'|]; [|discriminate]. cbn [bind] in M. injection M as <-.
    destruct Ik as [->|Ik]; [eapply H; eauto|apply (IH qs'); auto].
  Qed.
  Variable num : nat -> Z -> Z.
  Lemma vertex_keys (l : list shape) : exists ps, group_keys (group_vertices num l) = map (pair 0) ps /\ NoDup ps.
  Proof.
    exists (filter (fun p => some (filter (has_phys p) l)) (physical_tags l)). split; [|apply NoDup_filter, unique_NoDup].
    unfold group_vertices. induction (physical_tags l) as [|p ps IH]; auto. cbn [flat_map filter]. rewrite keys_app, IH. destruct (some _); reflexivity.
  Qed.
  Lemma curve_keys refinement (l : list shape) : group_keys (group_curves num refinement l) = map (pair 1) (physical_tags l).
  Proof.
    unfold group_curves. induction (physical_tags l) as [|p ps IH]; auto. cbn [flat_map map]. rewrite keys_app, IH.
    match goal with |- group_keys (?a :: ?x) ++ _ = _ => change (group_keys (a :: x)) with ((1, p) :: group_keys x); rewrite (groupless_keys x) end; [reflexivity|].
    intros c I. destruct (snd refinement); [|destruct I]. destruct (existsb _ _); [|destruct I]. apply in_map_iff in I as (t & <- & _). intros d tags q. discriminate.
  Qed.
  Lemma surface_keys (l : list shape) : group_keys (group_surfaces num l) = map (pair 2) (physical_tags l).
  Proof. unfold group_surfaces. induction (physical_tags l) as [|p ps IH]; auto. cbn [map]. unfold group_keys in *. cbn [flat_map]. rewrite IH. reflexivity. Qed.
  Lemma NoDup_pair (d : nat) (l : list Z) : NoDup l -> NoDup (map (pair d) l).
  Proof. intros N. apply FinFun.Injective_map_NoDup; auto. intros x y Q. congruence. Qed.
End Once.

Lemma converted_once {P} (pclose : P -> P -> bool) fuel refinement D r : convert_occ pclose fuel refinement D = Ok r -> NoDup (group_keys r).
Proof.
  unfold convert_occ. intros E. destruct (compute_strides _) as [st|]; [|discriminate]. cbn [bind] in E.
  destruct (get_at D 0) as [vs|]; [|discriminate]. cbn [bind] in E.
  set (num := fun (d : nat) (t : Z) => (Z.of_nat (nth d st 0%nat) + t + 1)%Z) in *.
  destruct (for_each (add_vertex num) vs) as [pts|] eqn:E0; [|discriminate]. cbn [bind] in E.
  destruct (if (0 <? _)%nat then get_at D 1 else Ok []) as [cs|]; [|discriminate]. cbn [bind] in E.
  destruct (for_each (add_curve num) cs) as [lns|] eqn:E1; [|discriminate]. cbn [bind] in E.
  destruct (if (1 <? _)%nat then get_at D 2 else Ok []) as [ss|]; [|discriminate]. cbn [bind] in E.
  destruct (for_each (add_surface pclose fuel num) ss) as [sfs|] eqn:E2; [|discriminate]. cbn [bind] in E.
  destruct (2 <? _)%nat; [discriminate|].
  destruct (for_each (embed_curve num) cs) as [e1|] eqn:E3; [|discriminate]. cbn [bind] in E.
  destruct (for_each (embed_surface num false) ss) as [e2|] eqn:E4; [|discriminate]. cbn [bind] in E. apply (f_equal (fun x => match x with Ok y => y | Err _ => r end)) in E. cbv iota beta in E. subst r.
  assert (K0 : group_keys pts = []).
  { eapply each_groupless; [|exact E0]. intros s k Ek c I. unfold add_vertex in Ek. destruct (some _); [injection Ek as <-; destruct I|].
    destruct (s_point s); [|discriminate]. injection Ek as <-. destruct I as [<-|[]]. discriminate. }
  assert (K1 : group_keys lns = []).
  { eapply each_groupless; [|exact E1]. intros s k Ek c I. unfold add_curve in Ek. destruct (_ || _); [injection Ek as <-; destruct I|]. unfold add_line in Ek.
    destruct (get_at (s_boundary s) 0); [|discriminate]. cbn [bind] in Ek. destruct (get_at (s_boundary s) 1); [|discriminate]. cbn [bind] in Ek. injection Ek as <-. destruct I as [<-|[]]. discriminate. }
  assert (K2 : group_keys sfs = []).
  { eapply each_groupless; [|exact E2]. intros s k Ek c I. unfold add_surface in Ek. destruct (s_composite s); [injection Ek as <-; destruct I|].
    destruct (get_at (s_boundary s) 0); [|discriminate]. cbn [bind] in Ek. match type of Ek with (do _ <- ?x; _) = _ => destruct x; [|discriminate] end. cbn [bind] in Ek.
    match type of Ek with (do _ <- ?x; _) = _ => destruct x; [|discriminate] end. cbn [bind] in Ek. injection Ek as <-. destruct I as [<-|[<-|[]]]; discriminate. }
  assert (K3 : group_keys e1 = []).
  { eapply each_groupless; [|exact E3]. intros s k Ek c I. unfold embed_curve in Ek. destruct (_ || _); injection Ek as <-; [destruct I|]. destruct I as [<-|[]]. discriminate. }
  assert (K4 : group_keys e2 = []).
  { eapply each_groupless; [|exact E4]. intros s k Ek c I. unfold embed_surface in Ek. destruct (s_composite s); injection Ek as <-; [destruct I|]. simpl in I. destruct I as [<-|[<-|[]]]; discriminate. }
  destruct (vertex_keys num vs) as (ps & Ev & Nv).
  assert (Ks : forall (b : bool) (l : list (call P)), NoDup (group_keys l) -> NoDup (group_keys (if b then l ++ [Synchronize] else []))) by (intros [|] l N; [rewrite keys_app; simpl; rewrite app_nil_r; auto|constructor]).
  assert (Is : forall (b : bool) (l : list (call P)) x, In x (group_keys (if b then l ++ [Synchronize] else [])) -> In x (group_keys l)) by (intros [|] l x I; [rewrite keys_app in I; simpl in I; rewrite app_nil_r in I; auto|destruct I]).
  rewrite !keys_app, K0, K3, K4.
  assert (X1 : forall b : bool, group_keys (if b then lns ++ [Synchronize] else []) = []) by (intros [|]; [rewrite keys_app, K1; reflexivity|reflexivity]).
  assert (X2 : forall b : bool, group_keys (if b then sfs ++ [Synchronize] else []) = []) by (intros [|]; [rewrite keys_app, K2; reflexivity|reflexivity]).
  rewrite X1, X2. change (group_keys [Synchronize]) with (@nil (nat * Z)). rewrite ?app_nil_r, Ev. cbn [app]. rewrite ?app_nil_r.
  assert (N1 : forall b : bool, NoDup (group_keys (if b then group_curves num refinement cs ++ [Synchronize] else []))) by (intros b; apply Ks; rewrite curve_keys; apply NoDup_pair, unique_NoDup).
  assert (N2 : forall b : bool, NoDup (group_keys (if b then group_surfaces num ss ++ [Synchronize] else []))) by (intros b; apply Ks; rewrite surface_keys; apply NoDup_pair, unique_NoDup).
  apply NoDup_join; [apply NoDup_pair; auto|apply NoDup_join; auto|].
  - intros x I J. apply Is in I, J. rewrite curve_keys in I. rewrite surface_keys in J. apply in_map_iff in I as (? & <- & _). apply in_map_iff in J as (? & Q & _). discriminate Q.
  - intros x I J. apply in_map_iff in I as (? & <- & _). apply in_app_iff in J as [J|J]; apply Is in J; [rewrite curve_keys in J|rewrite surface_keys in J]; apply in_map_iff in J as (? & Q & _); discriminate Q.
Qed.

(** ** Solids *)
Lemma strides_four {P} (a b c d : list (shape P)) : a <> [] -> b <> [] -> c <> [] -> exists st, compute_strides (map (@length _) [a; b; c; d]) = Ok st /\
  forall k s, In s (nth k [a; b; c] []) -> (Z.of_nat (nth k st 0%nat) + s_tag s + 1)%Z = place [a; b; c] k s.
Proof.
  intros Ha Hb Hc. destruct (strides_lemma (map (@length _) [a; b; c; d])) as (st & E & _ & H); [simpl; lia|]. exists st. split; auto. intros k s I.
  assert (N : forall l : list (shape P), l <> [] -> length l <> 0) by (intros [|x l] Q; [congruence|simpl; lia]).
  assert (Hk : forall j, j <= k -> nth j (map (@length _) [a; b; c; d]) 0 <> 0).
  { intros j Hj. destruct k as [|[|[|k]]]; [| | |destruct k; destruct I]; do 3 (destruct j as [|j]; [apply N; auto|]); lia. }
  specialize (H k Hk). erewrite nth_error_nth by exact H. unfold place, total.
  destruct k as [|[|[|k]]]; [| | |destruct k; destruct I]; cbn [firstn map list_sum fold_right concat]; rewrite ?app_length, ?app_nil_r; simpl; rewrite ?Nat.add_0_r; repeat f_equal; lia.
Qed.
Lemma solids_never {P} (pclose : P -> P -> bool) fuel refinement (a b c d : list (shape P)) r : a <> [] -> b <> [] -> c <> [] ->
  convert_occ pclose fuel refinement [a; b; c; d] <> Ok r.
Proof.
  intros Ha Hb Hc E. unfold convert_occ in E.
  assert (Dp : first_empty (map (@length _) [a; b; c; d]) 0 = 3).
  { cbn [map first_empty]. destruct a; [congruence|]. destruct b; [congruence|]. destruct c; [congruence|]. cbn [length Nat.eqb]. destruct d; reflexivity. }
  rewrite Dp in E.
  repeat match type of E with (do _ <- ?x; _) = _ => destruct x; [|discriminate E]; cbn [bind] in E end. discriminate E.
Qed.
Lemma solids_name {P} (pclose : P -> P -> bool) fuel refinement (a b c d : list (shape P)) : (forall x, pclose x x = true) -> 1 <= fuel -> proper [a; b; c] -> a <> [] -> b <> [] -> c <> [] ->
  convert_occ pclose fuel refinement [a; b; c; d] = Err NameError.
Proof.
  intros R Hf G Ha Hb Hc. destruct (strides_four a b c d Ha Hb Hc) as (st & E & H).
  destruct (entity_phase pclose fuel [a; b; c] refinement R Hf G st H) as (E0 & E1 & E2 & _). cbn [nth] in E0, E1, E2.
  assert (Dp : first_empty (map (@length _) [a; b; c; d]) 0 = 3).
  { cbn [map first_empty]. destruct a; [congruence|]. destruct b; [congruence|]. destruct c; [congruence|]. cbn [length Nat.eqb]. destruct d; reflexivity. }
  unfold convert_occ. rewrite E. cbn [bind]. rewrite Dp. cbn [Nat.ltb Nat.leb get_at nth_error bind].
  change (fun (d : nat) (t : Z) => (Z.of_nat (nth d st 0%nat) + t + 1)%Z) with (num st). rewrite E0. cbn [bind]. rewrite E1. cbn [bind]. rewrite E2. reflexivity.
Qed.

(** ** Domains complete for ConformalMesher *)
Section Complete.
  Context {P : Type}.
  Variable D : domain P.
  Variable dimension : nat.
  Hypothesis whole_domain : complete dimension D.
  Hypothesis vertices : forall v, In v (nth 0 D []) -> s_phys v <> None -> immersed v = [].
  Lemma elementary_drawn d s : elementary D d s -> drawn D d s.
  Proof.
    intros (I & C & H). split; auto. destruct d as [|[|d]]; [apply H; lia| |exact C]. split; auto. rewrite H by lia. intros i [].
  Qed.
  Lemma drawn_elementary c : drawn D 1 c -> elementary D 1 c.
  Proof.
    intros (I & C & H). split; auto. split; auto. intros _. pose proof whole_domain as (_ & _ & _ & Hd & _ & _ & C1 & _). rewrite Forall_forall in C1. destruct (C1 c I) as (_ & _ & _ & Hi).
    destruct (immersed c) as [|i l]; auto. exfalso. apply (H i (or_introl eq_refl)). apply (Hd 1 i). apply (Hi i). left. auto.
  Qed.
  Lemma lower_proper k : 1 <= k <= 3 -> k <= length D -> proper (firstn k D).
  Proof.
    intros Hk Lk. pose proof whole_domain as (LD & NE & Hdim & Hd & ND & C0 & C1 & C2 & _). rewrite Forall_forall in C0, C1, C2.
    assert (Lf : length (firstn k D) = k) by (rewrite firstn_length; lia).
    assert (Nf : forall d, nth d (firstn k D) [] = if d <? k then nth d D [] else []).
    { intros d. destruct (Nat.ltb_spec d k) as [L|L]; [|apply nth_overflow; lia].
      rewrite <- (firstn_skipn k D) at 2. rewrite app_nth1 by lia. reflexivity. }
    assert (Sub : forall d s, In s (nth d (firstn k D) []) -> In s (nth d D []) /\ d < k).
    { intros d s I. rewrite Nf in I. destruct (Nat.ltb_spec d k); [auto|destruct I]. }
    assert (Dr : forall d s, d < k -> drawn D d s -> drawn (firstn k D) d s).
    { intros d s L [I H]. split; auto. rewrite Nf. rewrite (proj2 (Nat.ltb_lt d k) L). auto. }
    assert (Dr' : forall d s, drawn (firstn k D) d s -> drawn D d s) by (intros d s [I H]; split; auto; apply Sub; auto).
    split; [lia|]. split; [intros Q; lia|]. split.
    { intros d H. rewrite Nf in H. rewrite Nf. destruct (Nat.ltb_spec d k) as [L|L].
      - exfalso. rewrite Forall_forall in NE. apply (NE (nth d D [])); auto. apply nth_In. lia.
      - destruct (Nat.ltb_spec (S d) k); [lia|auto]. }
    split; [intros d s I; apply Hd, Sub, I|]. split; [intros d; rewrite Nf; destruct (d <? k); [apply ND|constructor]|].
    split; [|split]; apply Forall_forall; intros s I; apply Sub in I as [I L].
    - split; [apply (C0 s I)|apply vertices; auto].
    - intros Dc. apply Dr' in Dc. pose proof (drawn_elementary s Dc) as (_ & Cs & Hs). destruct (C1 s I) as (Hb & Hl & _).
      split; [apply Hl, Cs|]. split; [intros v Iv; apply Dr; [lia|]; apply elementary_drawn; auto|]. rewrite Hs by lia. intros i [].
    - specialize (C2 s I). unfold complete_surface, proper_surface in *. destruct (s_composite s); auto. destruct C2 as ((w & q & Eb & Cw & Hw) & Hc). split.
      + exists w, q. split; auto. split; auto. intros e Ie. apply Dr; [lia|]. apply elementary_drawn; auto.
      + intros c Ic. destruct (Hc c Ic) as [H1 H2]. split; [intros i Hi|intros v Iv]; (apply Dr; [lia|]); apply elementary_drawn; auto.
  Qed.
End Complete.
Lemma complete_proper {P} (D : domain P) dimension : complete dimension D -> dimension <= 2 -> (forall v, In v (nth 0 D []) -> s_phys v <> None -> immersed v = []) -> proper D.
Proof.
  intros C H V. pose proof C as (LD & _ & Hd & _). rewrite <- (firstn_all D). apply (lower_proper D dimension C V); lia.
Qed.
Lemma complete_name {P} (pclose : P -> P -> bool) fuel refinement (D : domain P) : (forall x, pclose x x = true) -> 1 <= fuel -> complete 3 D -> (forall v, In v (nth 0 D []) -> s_phys v <> None -> immersed v = []) ->
  convert_occ pclose fuel refinement D = Err NameError.
Proof.
  intros R Hf C V. pose proof (lower_proper D 3 C V 3 ltac:(lia)) as G. destruct C as (LD & NE & _). specialize (G ltac:(lia)).
  destruct D as [|a [|b [|c [|d [|]]]]]; try discriminate LD. inversion NE as [|? ? Na NE1]; subst. inversion NE1 as [|? ? Nb NE2]; subst. inversion NE2 as [|? ? Nc NE3]; subst.
  apply solids_name; auto.
Qed.
Lemma discrete_boxes {P} (pclose : P -> P -> bool) argsort refinement : is_argsort argsort -> (forall x, pclose x x = true) ->
  (forall fuel (points : list P) line bc_0 bc_1, 2 <= length points -> 2 <= fuel -> exists D g r, build_box_1D argsort fuel points line bc_0 bc_1 = Ok (D, g) /\
    proper D /\ convert_occ pclose fuel refinement D = Ok r /\ accepted nothing r) /\
  (forall fuel (points : list P) area bc, 2 <= length points -> 4 <= fuel -> exists D w g r, build_box_2D pclose argsort fuel points area bc = Ok (D, w, g) /\
    proper D /\ convert_occ pclose fuel refinement D = Ok r /\ accepted nothing r) /\
  (forall fuel (points : list P) solid bc, 8 <= length points -> 6 <= fuel -> exists D ws g, build_box_3D pclose argsort fuel points solid bc = Ok (D, ws, g) /\
    convert_occ pclose fuel refinement D = Err NameError).
Proof.
  intros A R. destruct (boxes pclose argsort A R) as (B1 & B2 & B3). split; [|split].
  - intros fuel points line bc_0 bc_1 L Hf. destruct (B1 fuel points line bc_0 bc_1 L Hf) as (D & g & r & E & C & _).
    assert (G : proper D).
    { apply (complete_proper D 1 C); [lia|]. destruct points as [|p [|q rest]]; try (simpl in L; lia).
      destruct (box_1D_explicit argsort A fuel p q rest line bc_0 bc_1 Hf) as (g' & E' & _). rewrite E in E'. injection E' as -> _.
      intros v I _. destruct I as [<-|[<-|I]]; [reflexivity|reflexivity|]. destruct (row_In _ _ _ I) as (i & x & ->). reflexivity. }
    destruct (convert_lemma pclose fuel D refinement R ltac:(lia) G) as (r' & E' & A'). exists D, g, r'. auto.
  - intros fuel points area bc L Hf. destruct (B2 fuel points area bc L Hf) as (D & w & g & r & E & C & _).
    assert (G : proper D).
    { apply (complete_proper D 2 C); [lia|]. assert (Hp : exists p : P, In p points) by (destruct points as [|p l]; [simpl in L; lia|exists p; left; auto]). destruct Hp as (p0 & _).
      destruct (box_2D_gen pclose argsort A points area bc p0 L fuel R Hf) as (o & g' & E' & _). rewrite E in E'. injection E' as -> _ _.
      intros v I _. apply in_map_iff in I as (i & <- & _). reflexivity. }
    destruct (convert_lemma pclose fuel D refinement R ltac:(lia) G) as (r' & E' & A'). exists D, w, g, r'. auto.
  - intros fuel points solid bc L Hf. destruct (B3 fuel points solid bc L Hf) as (D & w & g & r & E & C & _). exists D, w, g. split; auto.
    apply complete_name; auto; [lia|]. do 8 (destruct points as [|? points]; [simpl in L; lia|]).
    destruct (box_3D_gen pclose argsort A p p0 p1 p2 p3 p4 p5 p6 points solid bc fuel R Hf) as (os & g' & E' & _). pose proof (eq_trans (eq_sym E) E') as Q. injection Q as -> _ _.
    intros v I _. cbn [nth] in I. unfold Box3Proof.vertices in I. apply in_app_iff in I as [I|I]; apply in_map_iff in I as (i & <- & _); reflexivity.
Qed.
