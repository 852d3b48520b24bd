(** * Lemmas about the descriptions handed to gmsh: scenes and phases *)
From Coq Require Import List Arith ZArith Bool Lia Sorted.
From Verif Require Import Base BaseProof ShapeModel ShapeSpec ShapeProof TagModel TagProof MesherModel MesherSpec.
Import ListNotations.

(** ** np.unique *)
Lemma in_insert_unique x l y : In y (insert_unique x l) <-> y = x \/ In y l.
Proof.
  induction l as [|z l IH]; simpl; [intuition|]. destruct (Z.ltb_spec x z); [simpl; intuition|].
  destruct (Z.eqb_spec x z); [subst; simpl; intuition|]. simpl. rewrite IH. intuition.
Qed.
Lemma in_unique l y : In y (unique_tags l) <-> In y l.
Proof. induction l as [|x l IH]; simpl; [tauto|]. rewrite in_insert_unique, IH. intuition. Qed.
Lemma insert_unique_sorted x l : StronglySorted Z.lt l -> StronglySorted Z.lt (insert_unique x l).
Proof.
  induction l as [|z l IH]; intros H; simpl; [repeat constructor|]. inversion H as [|? ? H' F]; subst. rewrite Forall_forall in F.
  destruct (Z.ltb_spec x z).
  - constructor; auto. constructor; auto. apply Forall_forall. intros y Hy. specialize (F _ Hy). lia.
  - destruct (Z.eqb_spec x z); auto. constructor; auto. apply Forall_forall. intros y Hy. apply in_insert_unique in Hy as [->|Hy]; [lia|auto].
Qed.
Lemma unique_sorted l : StronglySorted Z.lt (unique_tags l).
Proof. induction l; simpl; [constructor|apply insert_unique_sorted; auto]. Qed.
Lemma sorted_NoDup l : StronglySorted Z.lt l -> NoDup l.
Proof.
  induction l as [|x l IH]; intros H; constructor; inversion H as [|? ? H' F]; subst; auto. intros I. rewrite Forall_forall in F. specialize (F _ I). lia.
Qed.
Lemma unique_NoDup l : NoDup (unique_tags l).
Proof. apply sorted_NoDup, unique_sorted. Qed.
Lemma some_true {A} (l : list A) : some l = true <-> l <> [].
Proof. destruct l; simpl; split; intros; congruence. Qed.
Lemma some_false {A} (l : list A) : some l = false <-> l = [].
Proof. destruct l; simpl; split; intros; congruence. Qed.

Lemma last_shift {A} (l : list A) : forall v w, last (v :: l) w = last l v.
Proof. induction l as [|x l IH]; intros v w; [reflexivity|]. change (last (v :: x :: l) w) with (last (x :: l) w). rewrite !IH. reflexivity. Qed.

Section Scenes.
  Context {P : Type}.
  Notation call := (call P).
  Notation shape := (shape P).

  Definition afters (s : scene) (l : list call) : scene := fold_left after l s.
  Lemma afters_app s l l' : afters s (l ++ l') = afters (afters s l) l'.
  Proof. apply fold_left_app. Qed.
  Lemma accepted_app : forall l l' s, accepted s (l ++ l') <-> accepted s l /\ accepted (afters s l) l'.
  Proof. induction l as [|c l IH]; intros l' s; simpl; [tauto|]. rewrite IH. tauto. Qed.
  (** Calls which leave the scene as it is *)
  Definition passive (c : call) : Prop := forall s, after s c = s.
  Lemma passive_afters l s : Forall passive l -> afters s l = s.
  Proof. revert s. induction l as [|c l IH]; intros s F; simpl; auto. inversion F as [|? ? Hc F']; subst. rewrite (Hc s). auto. Qed.
  Lemma passive_accepted : forall l s, Forall passive l -> (forall c, In c l -> in_order s c) -> accepted s l.
  Proof.
    induction l as [|c l IH]; intros s F H; simpl; auto. inversion F as [|? ? Hc F']; subst. split; [apply H; left; auto|].
    rewrite (Hc s). apply IH; auto. intros c' I. apply H. right. auto.
  Qed.

  Lemma for_each_ok (f : shape -> res (list call)) (g : shape -> list call) l : (forall s, In s l -> f s = Ok (g s)) -> for_each f l = Ok (flat_map g l).
  Proof. intros H. unfold for_each. rewrite (mapM_Ok_map f g l H). simpl. rewrite flat_map_concat_map. reflexivity. Qed.
  Lemma for_each_In (f : shape -> res (list call)) l r c : for_each f l = Ok r -> In c r -> exists s q, In s l /\ f s = Ok q /\ In c q.
  Proof.
    intros E I. apply bind_Ok in E as (rs & E & E2). injection E2 as <-. apply in_concat in I as (q & Iq & I).
    pose proof (proj1 (mapM_Forall2 _ _ _) E) as F. clear E. induction F as [|s q' l l' H F IH]; simpl in *; [contradiction|].
    destruct Iq as [->|Iq]; [exists s, q; auto|]. destruct (IH Iq) as (s' & q'' & Hin & Hf & Hq). exists s', q''; auto.
  Qed.
  Lemma for_each_each (f : shape -> res (list call)) l r s q : for_each f l = Ok r -> In s l -> f s = Ok q -> forall c, In c q -> In c r.
  Proof.
    intros E I Hf c Hc. apply bind_Ok in E as (rs & E & E2). injection E2 as <-. apply in_concat. exists q. split; auto.
    pose proof (proj1 (mapM_Forall2 _ _ _) E) as F. clear E. induction F as [|s' q' l l' H F IH]; simpl in *; [contradiction|].
    destruct I as [->|I]; [left; congruence|right; auto].
  Qed.
  (** A loop whose body does not fail, and whose calls are passive and in order *)
  Lemma passive_phase (f : shape -> res (list call)) l s :
    (forall x, In x l -> exists q, f x = Ok q /\ forall c, In c q -> passive c /\ in_order s c) ->
    exists r, for_each f l = Ok r /\ accepted s r /\ afters s r = s.
  Proof.
    intros H. assert (E : exists r, for_each f l = Ok r).
    { unfold for_each. induction l as [|x l IH]; simpl; [eexists; reflexivity|]. destruct (H x (or_introl eq_refl)) as (q & E & _). rewrite E. simpl.
      destruct IH as (r & IH); [intros; apply H; right; auto|]. destruct (mapM f l) as [rs|]; simpl in *; [|discriminate]. eexists; reflexivity. }
    destruct E as (r & E). exists r. split; auto.
    assert (HH : forall c, In c r -> passive c /\ in_order s c).
    { intros c I. destruct (for_each_In _ _ _ _ E I) as (x & q & Hx & Hq & Hc). destruct (H x Hx) as (q' & E' & H'). rewrite Hq in E'. injection E' as <-. auto. }
    assert (Pa : Forall passive r) by (apply Forall_forall; intros c I; apply (HH c I)).
    split; [apply passive_accepted; auto; intros c I; apply (HH c I)|apply passive_afters; auto].
  Qed.

  Lemma for_each_filter (f : shape -> res (list call)) keep l : (forall x, In x l -> keep x = false -> f x = Ok []) ->
    for_each f l = for_each f (filter keep l).
  Proof.
    intros H. unfold for_each. induction l as [|x l IH]; simpl; auto. specialize (IH (fun y Hy => H y (or_intror Hy))).
    destruct (keep x) eqn:E; simpl.
    - destruct (f x); simpl; auto. destruct (mapM f l), (mapM f (filter keep l)); simpl in *; congruence.
    - rewrite (H x (or_introl eq_refl) E). simpl. destruct (mapM f l), (mapM f (filter keep l)); simpl in *; congruence.
  Qed.

  Variable pclose : P -> P -> bool.
  Variable fuel : nat.
  Variable num : nat -> Z -> Z.
  Hypothesis num_inj : forall d t t', num d t = num d t' -> t = t'.
  Hypothesis num_pos : forall d t, (0 <= t -> 0 < num d t)%Z.

  (** ** Points *)
  Definition point_of (v : shape) : list call := match s_point v with Some p => [AddPoint p (num 0 (s_tag v))] | None => [] end.
  Definition with_points (s : scene) (l : list Z) : scene :=
    mk_scene l (lines s) (curve_loops s) (surfaces s) (surface_loops s) (volumes s) (visible s).
  Lemma points_calls : forall vs s, (forall v, In v vs -> s_point v <> None) -> NoDup (map s_tag vs) ->
    (forall v, In v vs -> ~ In (num 0 (s_tag v)) (points s)) ->
    accepted s (flat_map point_of vs) /\ afters s (flat_map point_of vs) = with_points s (rev (map (fun v => num 0 (s_tag v)) vs) ++ points s).
  Proof.
    induction vs as [|v vs IH]; intros s Hp N F; [simpl; split; [exact I|destruct s; reflexivity]|].
    simpl in N. inversion N as [|? ? Nv N']; subst. destruct (s_point v) as [p|] eqn:Ep; [|destruct (Hp v (or_introl eq_refl)); auto].
    simpl flat_map. unfold point_of at 1 3. rewrite Ep. simpl.
    destruct (IH (after s (AddPoint p (num 0 (s_tag v))))) as (A & B); auto; [intros; apply Hp; right; auto| |].
    { intros v' I. simpl. intros [H|H]; [|exact (F v' (or_intror I) H)]. apply num_inj in H. apply Nv. rewrite H. apply in_map. auto. }
    split; [split; [apply F; left; auto|exact A]|]. etransitivity; [exact B|]. unfold with_points. simpl. rewrite <- app_assoc. reflexivity.
  Qed.
  Definition whole (s : shape) : bool := negb (some (immersed s)).
  Lemma whole_true s : whole s = true <-> immersed s = [].
  Proof. unfold whole. rewrite negb_true_iff. apply some_false. Qed.
  Lemma NoDup_filter_map (keep : shape -> bool) l : NoDup (map s_tag l) -> NoDup (map s_tag (filter keep l)).
  Proof.
    induction l as [|x l IH]; simpl; intros N; [constructor|]. inversion N as [|? ? Nx N']; subst. destruct (keep x); auto. simpl. constructor; auto.
    intros I. apply Nx. apply in_map_iff in I as (y & E & I). apply filter_In in I as [I _]. rewrite <- E. apply in_map. auto.
  Qed.
  Lemma points_phase vs s : (forall v, In v vs -> s_point v <> None) -> NoDup (map s_tag vs) -> points s = [] ->
    for_each (add_vertex num) vs = Ok (flat_map point_of (filter whole vs)) /\ accepted s (flat_map point_of (filter whole vs)) /\
    exists l, afters s (flat_map point_of (filter whole vs)) = with_points s l /\
      forall t, In t l <-> exists v, In v vs /\ immersed v = [] /\ t = num 0 (s_tag v).
  Proof.
    intros Hp N E. split.
    - rewrite (for_each_filter _ whole).
      + apply for_each_ok. intros v I. apply filter_In in I as [I W]. apply whole_true in W. unfold add_vertex, point_of. rewrite W. simpl.
        destruct (s_point v) eqn:Ep; auto. destruct (Hp v I Ep).
      + intros v I W. apply negb_false_iff in W. unfold add_vertex. rewrite W. reflexivity.
    - destruct (points_calls (filter whole vs) s) as (A & B).
      + intros v I. apply filter_In in I as [I _]. auto.
      + apply NoDup_filter_map. auto.
      + intros v I. rewrite E. auto.
      + split; auto. eexists. split; [exact B|]. intros t. rewrite E, app_nil_r, <- in_rev, in_map_iff. split.
        * intros (v & <- & I). apply filter_In in I as [I W]. apply whole_true in W. exists v. auto.
        * intros (v & I & W & ->). exists v. split; auto. apply filter_In. split; auto. apply whole_true. auto.
  Qed.

  (** ** Lines *)
  Definition line_of (c : shape) : list call :=
    match s_boundary c with a :: b :: _ => [AddLine (num 0 (s_tag a)) (num 0 (s_tag b)) (num 1 (s_tag c))] | _ => [] end.
  Definition line_entry (c : shape) : list (Z * (Z * Z)) :=
    match s_boundary c with a :: b :: _ => [(num 1 (s_tag c), (num 0 (s_tag a), num 0 (s_tag b)))] | _ => [] end.
  Definition with_lines (s : scene) (l : list (Z * (Z * Z))) : scene :=
    mk_scene (points s) l (curve_loops s) (surfaces s) (surface_loops s) (volumes s) (visible s).
  Lemma two_ends (c : shape) : 2 <= length (s_boundary c) -> exists a b r, s_boundary c = a :: b :: r.
  Proof. destruct (s_boundary c) as [|a [|b r]]; simpl; try lia. eauto. Qed.
  Lemma lines_calls : forall cs s, (forall c, In c cs -> 2 <= length (s_boundary c) /\ forall v, In v (s_boundary c) -> In (num 0 (s_tag v)) (points s)) ->
    NoDup (map s_tag cs) -> (forall c, In c cs -> ~ In (num 1 (s_tag c)) (map fst (lines s))) ->
    accepted s (flat_map line_of cs) /\ afters s (flat_map line_of cs) = with_lines s (rev (flat_map line_entry cs) ++ lines s).
  Proof.
    induction cs as [|c cs IH]; intros s Hp N F; [simpl; split; [exact I|destruct s; reflexivity]|].
    simpl in N. inversion N as [|? ? Nv N']; subst. destruct (Hp c (or_introl eq_refl)) as [L Hb]. destruct (two_ends c L) as (a & b & r & Eb).
    simpl flat_map. unfold line_of at 1 3, line_entry at 1. rewrite Eb in *. simpl.
    destruct (IH (after (P:=P) s (AddLine (num 0 (s_tag a)) (num 0 (s_tag b)) (num 1 (s_tag c))))) as (A & B); auto.
    { intros c' I. simpl. apply Hp. right. auto. }
    { intros c' I. simpl. intros [H|H]; [|exact (F c' (or_intror I) H)]. apply num_inj in H. apply Nv. rewrite H. apply in_map. auto. }
    split; [split; [|exact A]|].
    - split; [apply Hb; left; auto|]. split; [apply Hb; right; left; auto|]. apply F. left. auto.
    - etransitivity; [exact B|]. unfold with_lines. simpl. rewrite <- app_assoc. reflexivity.
  Qed.
  Lemma lines_phase (f : shape -> res (list call)) keep cs s :
    (forall c, In c cs -> keep c = false -> f c = Ok []) -> (forall c, In c cs -> keep c = true -> f c = add_line num c) ->
    (forall c, In c cs -> keep c = true -> 2 <= length (s_boundary c) /\ forall v, In v (s_boundary c) -> In (num 0 (s_tag v)) (points s)) ->
    NoDup (map s_tag cs) -> lines s = [] ->
    for_each f cs = Ok (flat_map line_of (filter keep cs)) /\ accepted s (flat_map line_of (filter keep cs)) /\
    exists l, afters s (flat_map line_of (filter keep cs)) = with_lines s l /\
      forall t a b, In (t, (a, b)) l <-> exists c x y r, In c cs /\ keep c = true /\ s_boundary c = x :: y :: r /\ t = num 1 (s_tag c) /\ a = num 0 (s_tag x) /\ b = num 0 (s_tag y).
  Proof.
    intros H0 H1 H2 N E. split.
    - rewrite (for_each_filter _ keep); auto. apply for_each_ok. intros c I. apply filter_In in I as [I K]. rewrite (H1 c I K).
      destruct (H2 c I K) as [L _]. destruct (two_ends c L) as (a & b & r & Eb). unfold add_line, line_of. rewrite Eb. reflexivity.
    - destruct (lines_calls (filter keep cs) s) as (A & B).
      + intros c I. apply filter_In in I as [I K]. auto.
      + apply NoDup_filter_map. auto.
      + intros c I. rewrite E. auto.
      + split; auto. eexists. split; [exact B|]. intros t a b. rewrite E, app_nil_r, <- in_rev, in_flat_map. split.
        * intros (c & I & J). apply filter_In in I as [I K]. destruct (H2 c I K) as [L _]. destruct (two_ends c L) as (x & y & r & Eb).
          unfold line_entry in J. rewrite Eb in J. destruct J as [J|[]]. injection J as <- <- <-. exists c, x, y, r. repeat split; auto.
        * intros (c & x & y & r & I & K & Eb & -> & -> & ->). exists c. split; [apply filter_In; auto|]. unfold line_entry. rewrite Eb. left. auto.
  Qed.

  (** ** Surfaces *)
  Lemma get_at_seq {A B} (f : A -> Z -> B) (l : list A) (signs : list Z) : length signs = length l ->
    mapM (fun q : nat * Z => do t <- get_at l (fst q); Ok (f t (snd q))) (combine (seq 0 (length signs)) signs) = Ok (map (fun q => f (fst q) (snd q)) (combine l signs)).
  Proof.
    intros L. assert (G : forall pre l signs, length signs = length l ->
      mapM (fun q : nat * Z => do t <- get_at (pre ++ l) (fst q); Ok (f t (snd q))) (combine (seq (length pre) (length signs)) signs) =
      Ok (map (fun q => f (fst q) (snd q)) (combine l signs))).
    { clear. intros pre l. revert pre. induction l as [|x l IH]; intros pre [|z signs] L; simpl in L; try discriminate; [reflexivity|].
      simpl. unfold get_at at 1. rewrite nth_error_app2 by lia. rewrite Nat.sub_diag. simpl.
      specialize (IH (pre ++ [x]) signs ltac:(lia)). rewrite app_length in IH. simpl in IH. rewrite Nat.add_1_r in IH.
      rewrite <- app_assoc in IH. simpl in IH. rewrite IH. reflexivity. }
    exact (G [] l signs L).
  Qed.
  Definition loop_of (w : shape) (signs : list Z) : list Z := map (fun q => (fst q * snd q)%Z) (combine (map (fun c => num 1 (s_tag c)) (immersed w)) signs).
  Definition surface_of (f : shape) : list call :=
    match s_boundary f with
    | w :: _ => match orient_immersed_edges pclose fuel w with
                | Ok signs => [AddCurveLoop (loop_of w signs) (num 2 (s_tag f)); AddPlaneSurface [num 2 (s_tag f)] (num 2 (s_tag f))]
                | Err _ => []
                end
    | [] => []
    end.
  Definition with_surfaces (s : scene) (l l' : list Z) : scene :=
    mk_scene (points s) (lines s) l l' (surface_loops s) (volumes s) (visible s).

  (** Signed lines of a closed wire *)
  Definition line_known (s : scene) (e : shape) : Prop :=
    exists a b r, s_boundary e = a :: b :: r /\ In (num 1 (s_tag e), (num 0 (s_tag a), num 0 (s_tag b))) (lines s) /\ (0 <= s_tag e)%Z.
  Lemma trail_walk s : forall l w o, length o = length l ->
    (forall i e a b, nth_error l i = Some (e, b) -> nth_error (starts w l) i = Some a -> exists g, nth_error o i = Some g /\ leads g e a b) ->
    (forall e, In e (map fst l) -> line_known s e) ->
    trail s (num 0 (s_tag w)) (map (fun q => (fst q * snd q)%Z) (combine (map (fun c : shape => num 1 (s_tag c)) (map fst l)) o)) (num 0 (s_tag (last (map snd l) w))).
  Proof.
    induction l as [|[e v] l IH]; intros w [|g o] L H K; simpl in L; try discriminate; [reflexivity|].
    cbn [map fst combine trail snd].
    exists (num 0 (s_tag v)). split.
    - destruct (H 0 e w v eq_refl eq_refl) as (g' & Eg & Ld). injection Eg as <-.
      destruct (K e (or_introl eq_refl)) as (a & b & r & Eb & I & Ht). unfold runs. pose proof (num_pos 1 (s_tag e) Ht).
      destruct Ld as [[-> B]|[-> B]]; rewrite B in Eb; injection Eb as <- <- <-.
      + left. rewrite Z.mul_1_r. auto.
      + right. replace (num 1 (s_tag e) * -1)%Z with (- num 1 (s_tag e))%Z by lia. rewrite Z.opp_involutive. split; auto. lia.
    - rewrite last_shift. apply IH; [lia| |intros; apply K; right; auto]. intros i e' a b E1 E2. exact (H (S i) e' a b E1 E2).
  Qed.
  Lemma closed_loop s w : (forall x, pclose x x = true) -> 1 <= fuel -> closed_wire w -> (forall e, In e (immersed w) -> line_known s e) ->
    exists signs, orient_immersed_edges pclose fuel w = Ok signs /\ length signs = length (immersed w) /\ closed_trail s (loop_of w signs) /\
      Forall (fun g => g = 1%Z \/ g = (-1)%Z) signs.
  Proof.
    intros R Hf (Kw & a & e & v & l & Im & W & Lt & La) K. destruct fuel as [|k] eqn:Ef; [lia|].
    destruct (wire_lemma pclose k w a e v l R Im W Lt) as (o & Eo & Lo & Ho & _ & _). exists o. split; auto.
    split; [rewrite Im, map_length; simpl; lia|]. split.
    - split.
      + unfold loop_of. rewrite Im. destruct o; [simpl in Lo; lia|]. simpl. discriminate.
      + exists (num 0 (s_tag a)). unfold loop_of. rewrite Im. rewrite <- La at 2. apply trail_walk; auto. rewrite <- Im. auto.
    - apply Forall_forall. intros g I. apply In_nth_error in I as (i & I).
      assert (Hi : i < S (length l)) by (rewrite <- Lo; apply nth_error_Some; congruence).
      destruct (nth_error ((e, v) :: l) i) as [[e' b]|] eqn:E1; [|apply nth_error_None in E1; simpl in E1; lia].
      destruct (nth_error (starts a ((e, v) :: l)) i) as [a'|] eqn:E2; [|apply nth_error_None in E2; rewrite length_starts in E2; simpl in E2; lia].
      destruct (Ho i e' a' b E1 E2) as (g' & Eg & [[-> _]|[-> _]]); rewrite I in Eg; injection Eg as ->; auto.
  Qed.

  Lemma trail_lines s s' : lines s = lines s' -> forall l a b, trail s a l b -> trail s' a l b.
  Proof. intros E. induction l as [|t l IH]; intros a b H; simpl in *; auto. destruct H as (c & R & H). exists c. split; auto. unfold runs in *. rewrite <- E. auto. Qed.
  Definition loop_ready (s : scene) (f : shape) : Prop :=
    exists w r signs, s_boundary f = w :: r /\ s_kind w = Wire /\ orient_immersed_edges pclose fuel w = Ok signs /\
      length signs = length (immersed w) /\ closed_trail s (loop_of w signs).
  Lemma surfaces_calls : forall fs s, (forall f, In f fs -> loop_ready s f) -> NoDup (map s_tag fs) ->
    (forall f, In f fs -> ~ In (num 2 (s_tag f)) (curve_loops s) /\ ~ In (num 2 (s_tag f)) (surfaces s)) ->
    accepted s (flat_map surface_of fs) /\
    exists l', afters s (flat_map surface_of fs) = with_surfaces s l' (rev (map (fun f => num 2 (s_tag f)) fs) ++ surfaces s).
  Proof.
    induction fs as [|f fs IH]; intros s Hp N F; [simpl; split; [exact I|exists (curve_loops s); destruct s; reflexivity]|].
    simpl in N. inversion N as [|? ? Nv N']; subst. destruct (Hp f (or_introl eq_refl)) as (w & r & signs & Eb & Kw & Eo & L & C).
    simpl flat_map. unfold surface_of at 1 3. rewrite Eb, Eo. set (n := num 2 (s_tag f)). cbn [app].
    destruct (IH (after (P:=P) (after (P:=P) s (AddCurveLoop (loop_of w signs) n)) (AddPlaneSurface [n] n))) as (A & l' & B); auto.
    { intros f' I. destruct (Hp f' (or_intror I)) as (w' & r' & sg & H1 & H2 & H3 & H4 & (H5 & a & H6)). exists w', r', sg. repeat split; auto. exists a.
      revert H6. apply trail_lines. reflexivity. }
    { intros f' I. destruct (F f' (or_intror I)) as [F1 F2]. assert (X : n <> num 2 (s_tag f')).
      { intros H. apply num_inj in H. apply Nv. rewrite H. apply in_map. auto. }
      simpl. split; intros [H|H]; auto. }
    destruct (F f (or_introl eq_refl)) as [F1 F2]. split.
    - split; [split; auto|]. split; [split; [intros x [<-|[]]; left; auto|exact F2]|exact A].
    - exists l'. etransitivity; [exact B|]. unfold with_surfaces. simpl. rewrite <- app_assoc. reflexivity.
  Qed.
  Definition single (s : shape) : bool := negb (s_composite s).
  Lemma surfaces_phase fs s : (forall f, In f fs -> s_composite f = false -> loop_ready s f) -> NoDup (map s_tag fs) -> curve_loops s = [] -> surfaces s = [] ->
    for_each (add_surface pclose fuel num) fs = Ok (flat_map surface_of (filter single fs)) /\ accepted s (flat_map surface_of (filter single fs)) /\
    exists l l', afters s (flat_map surface_of (filter single fs)) = with_surfaces s l' l /\
      forall t, In t l <-> exists f, In f fs /\ s_composite f = false /\ t = num 2 (s_tag f).
  Proof.
    intros H N E1 E2. split.
    - rewrite (for_each_filter _ single).
      + apply for_each_ok. intros f I. apply filter_In in I as [I K]. apply negb_true_iff in K. destruct (H f I K) as (w & r & signs & Eb & Kw & Eo & L & C).
        unfold add_surface, surface_of, orientation. rewrite K, Eb. cbn [get_at nth_error bind]. rewrite Kw, Eo. cbn [bind].
        rewrite get_at_seq by (rewrite map_length; auto). reflexivity.
      + intros f I K. apply negb_false_iff in K. unfold add_surface. rewrite K. reflexivity.
    - destruct (surfaces_calls (filter single fs) s) as (A & l' & B).
      + intros f I. apply filter_In in I as [I K]. apply negb_true_iff in K. auto.
      + apply NoDup_filter_map. auto.
      + intros f I. rewrite E1, E2. auto.
      + split; auto. exists (rev (map (fun f => num 2 (s_tag f)) (filter single fs)) ++ surfaces s), l'. split; [exact B|]. intros t. rewrite E2, app_nil_r, <- in_rev, in_map_iff. split.
        * intros (f & <- & I). apply filter_In in I as [I K]. apply negb_true_iff in K. exists f. auto.
        * intros (f & I & K & ->). exists f. split; auto. apply filter_In. split; auto. apply negb_true_iff. auto.
  Qed.

  (** ** Volumes *)
  Definition volume_of (b : shape) : list call :=
    match s_boundary b with
    | shell :: _ => [AddSurfaceLoop (map (fun c => num 2 (s_tag c)) (immersed shell)) (num 3 (s_tag b)); AddVolume [num 3 (s_tag b)] (num 3 (s_tag b))]
    | [] => []
    end.
  Definition with_volumes (s : scene) (l l' : list Z) : scene :=
    mk_scene (points s) (lines s) (curve_loops s) (surfaces s) l l' (visible s).
  Definition shell_ready (s : scene) (b : shape) : Prop :=
    exists shell r, s_boundary b = shell :: r /\ immersed shell <> [] /\ forall f, In f (immersed shell) -> In (num 2 (s_tag f)) (surfaces s).
  Lemma volumes_calls : forall bs s, (forall b, In b bs -> shell_ready s b) -> NoDup (map s_tag bs) ->
    (forall b, In b bs -> ~ In (num 3 (s_tag b)) (surface_loops s) /\ ~ In (num 3 (s_tag b)) (volumes s)) ->
    accepted s (flat_map volume_of bs) /\
    exists l', afters s (flat_map volume_of bs) = with_volumes s l' (rev (map (fun f => num 3 (s_tag f)) bs) ++ volumes s).
  Proof.
    induction bs as [|b bs IH]; intros s Hp N F; [simpl; split; [exact I|exists (surface_loops s); destruct s; reflexivity]|].
    simpl in N. inversion N as [|? ? Nv N']; subst. destruct (Hp b (or_introl eq_refl)) as (shell & r & Eb & Ne & K).
    simpl flat_map. unfold volume_of at 1 3. rewrite Eb. set (n := num 3 (s_tag b)). cbn [app].
    destruct (IH (after (P:=P) (after (P:=P) s (AddSurfaceLoop (map (fun c => num 2 (s_tag c)) (immersed shell)) n)) (AddVolume [n] n))) as (A & l' & B); auto.
    { intros f' I. exact (Hp f' (or_intror I)). }
    { intros f' I. destruct (F f' (or_intror I)) as [F1 F2]. assert (X : n <> num 3 (s_tag f')).
      { intros H. apply num_inj in H. apply Nv. rewrite H. apply in_map. auto. }
      simpl. split; intros [H|H]; auto. }
    destruct (F b (or_introl eq_refl)) as [F1 F2]. split.
    - split; [split; [|split; auto]|].
      + destruct (immersed shell); [contradiction|discriminate].
      + intros x I. apply in_map_iff in I as (f & <- & I). auto.
      + split; [split; [intros x [<-|[]]; left; auto|exact F2]|exact A].
    - exists l'. etransitivity; [exact B|]. unfold with_volumes. simpl. rewrite <- app_assoc. reflexivity.
  Qed.
  Lemma volumes_phase bs s : (forall b, In b bs -> s_composite b = false -> shell_ready s b) -> NoDup (map s_tag bs) -> surface_loops s = [] -> volumes s = [] ->
    for_each (add_volume num) bs = Ok (flat_map volume_of (filter single bs)) /\ accepted s (flat_map volume_of (filter single bs)) /\
    exists l l', afters s (flat_map volume_of (filter single bs)) = with_volumes s l' l /\
      forall t, In t l <-> exists b, In b bs /\ s_composite b = false /\ t = num 3 (s_tag b).
  Proof.
    intros H N E1 E2. split.
    - rewrite (for_each_filter _ single).
      + apply for_each_ok. intros f I. apply filter_In in I as [I K]. apply negb_true_iff in K. destruct (H f I K) as (shell & r & Eb & _).
        unfold add_volume, volume_of. rewrite K, Eb. reflexivity.
      + intros f I K. apply negb_false_iff in K. unfold add_volume. rewrite K. reflexivity.
    - destruct (volumes_calls (filter single bs) s) as (A & l' & B).
      + intros f I. apply filter_In in I as [I K]. apply negb_true_iff in K. auto.
      + apply NoDup_filter_map. auto.
      + intros f I. rewrite E1, E2. auto.
      + split; auto. exists (rev (map (fun f => num 3 (s_tag f)) (filter single bs)) ++ volumes s), l'. split; [exact B|]. intros t. rewrite E2, app_nil_r, <- in_rev, in_map_iff. split.
        * intros (f & <- & I). apply filter_In in I as [I K]. apply negb_true_iff in K. exists f. auto.
        * intros (f & I & K & ->). exists f. split; auto. apply filter_In. split; auto. apply negb_true_iff. auto.
  Qed.
End Scenes.
