(** * Lemmas on intersected faces *)
From Coq Require Import List Arith Bool Reals Lia Lra Sorted.
From Verif Require Import Base BaseProof VecBase GeoModel GeoSpec VertexModel EmbedSpec EmbedProof VecProof GeoProof IntersectSpec FaceCutModel FaceCutSpec.
Import ListNotations.

Lemma allclose_pair_iff s t : allclose_pair s t = true <-> near_pair s t.
Proof. unfold allclose_pair, near_pair. rewrite andb_true_iff, !allclose_default_iff. tauto. Qed.

Lemma earlier_irrefl a : ~ earlier a a.
Proof. unfold earlier. lia. Qed.
Lemma earlier_asym a b : earlier a b -> earlier b a -> False.
Proof. unfold earlier. lia. Qed.

(** The order of a list *)
Fixpoint ordered {T} (R : T -> T -> Prop) (l : list T) : Prop := match l with [] => True | x :: l' => Forall (R x) l' /\ ordered R l' end.
Lemma ordered_app {T} (R : T -> T -> Prop) l m : ordered R (l ++ m) <-> ordered R l /\ ordered R m /\ (forall x y, In x l -> In y m -> R x y).
Proof.
  induction l as [|a l IH]; cbn.
  - split; [intros H; repeat split; auto; intros x y []|tauto].
  - rewrite Forall_app, IH, !Forall_forall. split.
    + intros ((H1 & H2) & H3 & H4 & H5). repeat split; auto. intros x y [<-|K] J; auto.
    + intros ((H1 & H2) & H3 & H5). repeat split; auto.
Qed.
Lemma ordered_mono {T} (R S : T -> T -> Prop) l : (forall x y, In x l -> In y l -> R x y -> S x y) -> ordered R l -> ordered S l.
Proof.
  induction l as [|a l IH]; cbn; intros H K; auto. destruct K as (K & K'). split; [|apply IH; auto].
  rewrite Forall_forall in *. intros x J. apply H; auto.
Qed.
Lemma ordered_total {T} (R S : T -> T -> Prop) l x y : ordered (fun a b => R a b /\ S a b) l -> In x l -> In y l -> x = y \/ R x y /\ S x y \/ R y x /\ S y x.
Proof.
  induction l as [|a l IH]; cbn; intros H I J; [tauto|]. destruct H as (H & H'). rewrite Forall_forall in H.
  destruct I as [->|I], J as [->|J]; auto.
Qed.
Lemma ordered_sorted {T} (R : T -> T -> Prop) l : ordered R l -> StronglySorted R l.
Proof. induction l as [|a l IH]; cbn; intros H; constructor; tauto. Qed.

Section Faces.
  Context {E A : Type}.
  Variable polygon_test : list vec -> list vec -> res (option segment).
  Variable edge_eq : E -> E -> res bool.
  Notation fstep := (face_tool_step (E:=E) polygon_test edge_eq).

  Lemma on_boundary_some s edges (e : E) : points_on_face_boundary s edges = Some e ->
    exists before t after, edges = before ++ (e, t) :: after /\ joins t s /\ forall e' t', In (e', t') before -> ~ joins t' s.
  Proof.
    induction edges as [|[e0 [p q]] edges IH]; cbn; intros H; [discriminate|].
    destruct (allclose_pair (p, q) s) eqn:C1; [|destruct (allclose_pair (q, p) s) eqn:C2].
    - injection H as <-. exists [], (p, q), edges. split; [auto|]. split; [left; apply allclose_pair_iff; auto|intros ? ? []].
    - injection H as <-. exists [], (p, q), edges. split; [auto|]. split; [right; apply allclose_pair_iff; auto|intros ? ? []].
    - destruct (IH H) as (b & t & a & -> & J & B). exists ((e0, (p, q)) :: b), t, a. split; [auto|]. split; [auto|].
      intros e' t' [K|K]; [|eauto]. injection K as <- <-. intros [J'|J']; apply allclose_pair_iff in J'; cbn in J'; congruence.
  Qed.
  Lemma side_at_iff f s (e : E) : side_at f s e <-> points_on_face_boundary s (f_edges f) = Some e.
  Proof.
    split; [|apply on_boundary_some]. intros (b & t & a & Q & J & B). rewrite Q. clear Q. induction b as [|[e0 [p q]] b IH]; cbn.
    - destruct t as [p q]. destruct J as [J|J]; apply allclose_pair_iff in J; cbn in J; rewrite J; [auto|]. destruct (allclose_pair (p, q) s); auto.
    - destruct (allclose_pair (p, q) s) eqn:C1; [exfalso; apply (B e0 (p, q)); [left; auto|left; apply allclose_pair_iff; auto]|].
      destruct (allclose_pair (q, p) s) eqn:C2; [exfalso; apply (B e0 (p, q)); [left; auto|right; apply allclose_pair_iff; auto]|].
      apply IH. intros e' t' K. apply (B e'). right. auto.
  Qed.

  (** What one pair of faces adds *)
  Definition hit (i : nat) (f : face E) (jt : nat * face E) : list ((nat * nat) * segment) :=
    if f_shell (snd jt) then [] else if fst jt <=? i then [] else
    match polygon_test (f_outline f) (f_outline (snd jt)) with
    | Ok (Some s) => match common_edge edge_eq (points_on_face_boundary s (f_edges f)) (points_on_face_boundary s (f_edges (snd jt))) with Ok false => [((i, fst jt), s)] | _ => [] end
    | _ => []
    end.
  Definition hits (tools : list (nat * face E)) (ie : nat * face E) : list ((nat * nat) * segment) := if f_shell (snd ie) then [] else flat_map (hit (fst ie) (snd ie)) tools.
  Definition fresh (a b : (nat * nat) * segment) : Prop := ~ near_pair (snd b) (snd a).
  Definition state (H : list ((nat * nat) * segment)) : list segment * list (nat * nat) := (map snd H, map fst H).

  (** The result of a loop that adds [l] to [H]: an exception iff a segment recurs *)
  Definition adds (H l : list ((nat * nat) * segment)) (r : res (list segment * list (nat * nat))) : Prop :=
    (ordered fresh (H ++ l) -> r = Ok (state (H ++ l))) /\ (~ ordered fresh (H ++ l) -> r = Err TypeError).
  Lemma fresh_dec H x : {forall a, In a H -> fresh a x} + {exists a, In a H /\ near_pair (snd x) (snd a)}.
  Proof.
    destruct (existsb (allclose_pair (snd x)) (map snd H)) eqn:X; [right|left].
    - apply existsb_exists in X as (t & I & C). apply in_map_iff in I as (a & <- & I). exists a. split; [auto|]. apply allclose_pair_iff; auto.
    - intros a I N. apply allclose_pair_iff in N. assert (existsb (allclose_pair (snd x)) (map snd H) = true) by (apply existsb_exists; exists (snd a); split; [apply in_map; auto|auto]). congruence.
  Qed.
  Definition returns (i : nat) (f : face E) (jt : nat * face E) : Prop := f_shell (snd jt) = false -> i < fst jt ->
    exists r, polygon_test (f_outline f) (f_outline (snd jt)) = Ok r /\
      forall s e e', r = Some s -> side_at f s e -> side_at (snd jt) s e' -> exists b, edge_eq e e' = Ok b.
  Lemma tool_adds i f H jt : returns i f jt -> ordered fresh H -> adds H (hit i f jt) (fstep i f (state H) jt).
  Proof.
    destruct jt as [j g]. unfold returns, hit, adds, face_tool_step, state. cbn [fst snd]. intros T O.
    assert (Z : (ordered fresh (H ++ []) -> Ok (map snd H, map fst H) = Ok (map snd (H ++ []), map fst (H ++ []))) /\ (~ ordered fresh (H ++ []) -> Ok (map snd H, map fst H) = Err TypeError :> res (list segment * list (nat * nat)))).
    { rewrite app_nil_r. split; [auto|tauto]. }
    destruct (f_shell g); [exact Z|]. destruct (j <=? i) eqn:L; [exact Z|]. apply Nat.leb_gt in L.
    destruct (T eq_refl L) as (r & -> & C). cbn [bind]. destruct r as [s|]; [|exact Z].
    assert (Cm : exists b, common_edge edge_eq (points_on_face_boundary s (f_edges f)) (points_on_face_boundary s (f_edges g)) = Ok b).
    { destruct (points_on_face_boundary s (f_edges f)) as [e|] eqn:E1; [|exists false; auto]. destruct (points_on_face_boundary s (f_edges g)) as [e'|] eqn:E2; [|exists false; auto].
      apply side_at_iff in E1, E2. cbn. eauto. }
    destruct Cm as (b & ->). cbn [bind]. destruct b; [exact Z|].
    destruct (fresh_dec H ((i, j), s)) as [F|(a & I & N)]; cbn [snd] in *.
    - replace (existsb (allclose_pair s) (map snd H)) with false.
      + rewrite !map_app. split; [reflexivity|]. intros K. exfalso. apply K. apply ordered_app. split; [auto|]. split; [repeat constructor|]. intros x y I [<-|[]]. auto.
      + symmetry. apply not_true_iff_false. intros X. apply existsb_exists in X as (t & I & K). apply in_map_iff in I as (a & <- & I). apply (F a I). apply allclose_pair_iff; auto.
    - replace (existsb (allclose_pair s) (map snd H)) with true.
      + split; [|reflexivity]. intros K. apply ordered_app in K as (_ & _ & K). exfalso. apply (K a ((i, j), s) I); [left; auto|]. exact N.
      + symmetry. apply existsb_exists. exists (snd a). split; [apply in_map; auto|]. apply allclose_pair_iff; auto.
  Qed.
  Lemma adds_then H l m r k : adds H l r -> (ordered fresh (H ++ l) -> adds (H ++ l) m (k (state (H ++ l)))) -> (ordered fresh (H ++ l) \/ ~ ordered fresh (H ++ l)) -> adds H (l ++ m) (do st <- r; k st).
  Proof.
    intros (A1 & A2) K D. unfold adds. rewrite app_assoc. destruct D as [D|D].
    - rewrite (A1 D). cbn [bind]. exact (K D).
    - rewrite (A2 D). cbn [bind]. split; [|auto]. intros O. apply ordered_app in O. tauto.
  Qed.
  Lemma fresh_decidable l : ordered fresh l \/ ~ ordered fresh l.
  Proof.
    induction l as [|x l IH] using rev_ind; [left; exact I|]. destruct IH as [IH|IH]; [|right; intros O; apply ordered_app in O; tauto].
    destruct (fresh_dec l x) as [F|(a & K & N)]; [left|right].
    - apply ordered_app. split; [auto|]. split; [repeat constructor|]. intros y z J [<-|[]]. auto.
    - intros O. apply ordered_app in O as (_ & _ & O). apply (O a x K); [left; auto|exact N].
  Qed.
  Lemma loop_adds {X} (step : _ -> X -> res (list segment * list (nat * nat))) (g : X -> list ((nat * nat) * segment)) l H :
    (forall H x, In x l -> ordered fresh H -> adds H (g x) (step (state H) x)) -> ordered fresh H -> adds H (flat_map g l) (foldM step l (state H)).
  Proof.
    revert H. induction l as [|x l IH]; intros H S O; cbn [flat_map foldM].
    - unfold adds. rewrite app_nil_r. split; [auto|tauto].
    - apply adds_then; [apply S; [left; auto|auto]| |apply fresh_decidable]. intros O'. apply IH; [|auto]. intros H' y J. apply S. right. auto.
  Qed.

  Lemma numbered_in {X} (l : list X) k i x : In (i, x) (combine (seq k (length l)) l) <-> k <= i /\ nth_error l (i - k) = Some x.
  Proof.
    revert k. induction l as [|y l IH]; intros k; cbn.
    - split; [tauto|]. intros (_ & H). destruct (i - k); discriminate.
    - rewrite IH. split.
      + intros [H|(L & H)]; [injection H as <- <-; rewrite Nat.sub_diag; auto|]. split; [lia|]. replace (i - k) with (S (i - S k)) by lia. exact H.
      + intros (L & H). destruct (i - k) as [|m] eqn:Q; cbn in H; [left; injection H as ->; f_equal; lia|]. right. split; [lia|]. replace (i - S k) with m by lia. exact H.
  Qed.
  Lemma hit_in i f jt x : In x (hit i f jt) -> fst x = (i, fst jt).
  Proof.
    unfold hit. destruct (f_shell _); [intros []|]. destruct (_ <=? _); [intros []|]. destruct (polygon_test _ _) as [[s|]|]; try (intros []).
    destruct (common_edge _ _ _) as [[|]|]; try (intros []; fail). intros [<-|[]]. auto.
  Qed.
  Lemma hits_ordered tools k i f : ordered (fun a b => earlier (fst a) (fst b)) (flat_map (hit i f) (combine (seq k (length tools)) tools)).
  Proof.
    revert k. induction tools as [|g tools IH]; intros k; cbn; [auto|]. apply ordered_app. split; [|split; [apply IH|]].
    - unfold hit. destruct (f_shell _); [exact I|]. destruct (_ <=? _); [exact I|]. destruct (polygon_test _ _) as [[s|]|]; try exact I.
      destruct (common_edge _ _ _) as [[|]|]; cbn; auto.
    - intros x y Hx Hy. apply hit_in in Hx. apply in_flat_map in Hy as ([j t] & J & Hy). apply hit_in in Hy. apply numbered_in in J as (J & _). rewrite Hx, Hy. cbn. right. cbn. lia.
  Qed.
  Lemma all_ordered tools objects k : ordered (fun a b => earlier (fst a) (fst b)) (flat_map (hits (combine (seq 0 (length tools)) tools)) (combine (seq k (length objects)) objects)).
  Proof.
    revert k. induction objects as [|f objects IH]; intros k; cbn [length seq combine flat_map]; [exact I|]. apply ordered_app. split; [|split; [apply IH|]].
    - unfold hits. cbn [fst snd]. destruct (f_shell f); [exact I|]. apply hits_ordered.
    - intros x y Hx Hy. unfold hits in Hx. cbn [fst snd] in Hx. destruct (f_shell f); [destruct Hx|]. apply in_flat_map in Hx as (jt & _ & Hx). apply hit_in in Hx.
      apply in_flat_map in Hy as ([i g] & J & Hy). apply numbered_in in J as (J & _). unfold hits in Hy. cbn [fst snd] in Hy. destruct (f_shell g); [destruct Hy|].
      apply in_flat_map in Hy as (jt' & _ & Hy). apply hit_in in Hy. rewrite Hx, Hy. left. cbn. lia.
  Qed.

  Variables objects tools : list (face E).
  Definition found : list ((nat * nat) * segment) := flat_map (hits (combine (seq 0 (length tools)) tools)) (combine (seq 0 (length objects)) objects).
  Lemma found_in ij s : tests_return polygon_test edge_eq objects tools -> (In (ij, s) found <-> face_cut polygon_test edge_eq objects tools ij s).
  Proof.
    intros T. unfold found. rewrite in_flat_map. unfold face_cut, face_at. destruct ij as [i j]. cbn [fst snd]. split.
    - intros ([i' f] & Ji & H). apply numbered_in in Ji as (_ & Ji). rewrite Nat.sub_0_r in Ji. unfold hits in H. cbn [fst snd] in H. destruct (f_shell f) eqn:Sf; [destruct H|].
      apply in_flat_map in H as ([j' g] & Jj & H). apply numbered_in in Jj as (_ & Jj). rewrite Nat.sub_0_r in Jj. unfold hit in H. cbn [fst snd] in H.
      destruct (f_shell g) eqn:Sg; [destruct H|]. destruct (j' <=? i') eqn:L; [destruct H|]. apply Nat.leb_gt in L.
      destruct (polygon_test (f_outline f) (f_outline g)) as [[s'|]|] eqn:P; try (destruct H; fail).
      destruct (common_edge edge_eq _ _) as [[|]|] eqn:C; try (destruct H; fail). destruct H as [H|[]]. injection H as <- <- <-.
      split; [auto|]. exists f, g. repeat split; auto. intros e e' S1 S2. apply side_at_iff in S1, S2. rewrite S1, S2 in C. exact C.
    - intros (L & f & g & (Ji & Sf) & (Jj & Sg) & P & C). exists (i, f). split; [apply numbered_in; rewrite Nat.sub_0_r; split; [lia|auto]|].
      unfold hits. cbn [fst snd]. rewrite Sf. apply in_flat_map. exists (j, g). split; [apply numbered_in; rewrite Nat.sub_0_r; split; [lia|auto]|].
      unfold hit. cbn [fst snd]. rewrite Sg. replace (j <=? i) with false by (symmetry; apply Nat.leb_gt; auto). rewrite P.
      destruct (points_on_face_boundary s (f_edges f)) as [e|] eqn:E1; [|left; auto]. destruct (points_on_face_boundary s (f_edges g)) as [e'|] eqn:E2; [|left; auto].
      cbn. rewrite (C e e') by (apply side_at_iff; auto). left; auto.
  Qed.
  Lemma scan_adds : tests_return polygon_test edge_eq objects tools ->
    adds [] found (foldM (face_object_step polygon_test edge_eq tools) (combine (seq 0 (length objects)) objects) ([], [])).
  Proof.
    intros T. apply (loop_adds (face_object_step polygon_test edge_eq tools) (hits (combine (seq 0 (length tools)) tools)) _ []); [|exact I].
    intros H [i f] J O. apply numbered_in in J as (_ & J). rewrite Nat.sub_0_r in J. unfold hits, face_object_step. cbn [fst snd]. destruct (f_shell f) eqn:Sf.
    - unfold adds. rewrite app_nil_r. split; [auto|tauto].
    - apply loop_adds; [|auto]. intros H' [j g] Jj O'. apply tool_adds; [|auto]. intros Sg L. cbn [fst snd] in *.
      apply numbered_in in Jj as (_ & Jj). rewrite Nat.sub_0_r in Jj. apply (T i j f g L); split; auto.
  Qed.
  Lemma found_fresh : tests_return polygon_test edge_eq objects tools ->
    (forall a s b t, face_cut polygon_test edge_eq objects tools a s -> face_cut polygon_test edge_eq objects tools b t -> earlier a b -> ~ near_pair t s) -> ordered fresh found.
  Proof.
    intros T H. refine (ordered_mono _ _ _ _ (all_ordered tools objects 0)). intros [a s] [b t] Ia Ib L. apply found_in in Ia, Ib; auto. exact (H a s b t Ia Ib L).
  Qed.
  Lemma found_stale a s b t : tests_return polygon_test edge_eq objects tools ->
    face_cut polygon_test edge_eq objects tools a s -> face_cut polygon_test edge_eq objects tools b t -> earlier a b -> near_pair t s -> ~ ordered fresh found.
  Proof.
    intros T Ca Cb L N O. apply found_in in Ca, Cb; auto.
    assert (O2 : ordered (fun x y => fresh x y /\ earlier (fst x) (fst y)) found).
    { pose proof (all_ordered tools objects 0) as O1. fold found in O1. revert O O1. generalize found. intros l. induction l as [|x l IH]; cbn; [auto|]. rewrite !Forall_forall. intros (F1 & F2) (G1 & G2). split; auto. }
    destruct (ordered_total _ _ _ _ _ O2 Ca Cb) as [Q|[(F & _)|(_ & L')]]; cbn in *.
    - injection Q as -> _. exact (earlier_irrefl _ L).
    - exact (F N).
    - exact (earlier_asym _ _ L L').
  Qed.
  Variable rest : list segment -> list (nat * nat) -> res A.
  Lemma faces_found : tests_return polygon_test edge_eq objects tools ->
    (forall a s b t, face_cut polygon_test edge_eq objects tools a s -> face_cut polygon_test edge_eq objects tools b t -> earlier a b -> ~ near_pair t s) ->
    exists pairs cases, intersect_faces polygon_test edge_eq rest objects tools = rest pairs cases /\
      StronglySorted earlier cases /\ Forall2 (face_cut polygon_test edge_eq objects tools) cases pairs /\
      forall ij s, face_cut polygon_test edge_eq objects tools ij s -> In ij cases.
  Proof.
    intros T H. destruct (scan_adds T) as (S & _). cbn [app] in S. specialize (S (found_fresh T H)). exists (map snd found), (map fst found).
    unfold intersect_faces. rewrite S. cbn [bind state fst snd]. split; [auto|]. split; [|split].
    - pose proof (all_ordered tools objects 0) as O1. fold found in O1. revert O1. generalize found. intros l. induction l as [|x l IH]; cbn; intros O; constructor; [tauto|].
      destruct O as (O & _). rewrite Forall_forall in *. intros y J. apply in_map_iff in J as (z & <- & J). auto.
    - assert (G : forall l, (forall ij s, In (ij, s) l -> In (ij, s) found) -> Forall2 (face_cut polygon_test edge_eq objects tools) (map fst l) (map snd l)).
      { induction l as [|[ij s] l IH]; cbn; intros G; constructor; [apply found_in; auto|apply IH; auto]. }
      apply G. auto.
    - intros ij s C. apply found_in in C; auto. change ij with (fst (ij, s)). apply in_map. auto.
  Qed.
  Lemma faces_skipped : (forall i f j g, face_at objects i f -> face_at tools j g -> j <= i) -> intersect_faces polygon_test edge_eq rest objects tools = rest [] [].
  Proof.
    intros H. assert (Z : forall ij s, ~ face_cut polygon_test edge_eq objects tools ij s). { intros ij s (L & f & g & F & G & _). pose proof (H _ _ _ _ F G). lia. }
    destruct faces_found as (pairs & cases & -> & _ & F & _).
    - intros i j f g L F G. pose proof (H _ _ _ _ F G). lia.
    - intros a s b t C. destruct (Z _ _ C).
    - inversion F as [|ij s ? ? C]; subst; [reflexivity|destruct (Z _ _ C)].
  Qed.
  Lemma faces_recur a s b t : tests_return polygon_test edge_eq objects tools ->
    face_cut polygon_test edge_eq objects tools a s -> face_cut polygon_test edge_eq objects tools b t -> earlier a b -> near_pair t s ->
    intersect_faces polygon_test edge_eq rest objects tools = Err TypeError.
  Proof.
    intros T Ca Cb L N. destruct (scan_adds T) as (_ & S). cbn [app] in S. unfold intersect_faces. rewrite (S (found_stale a s b t T Ca Cb L N)). reflexivity.
  Qed.
End Faces.

(** The axis *)
Local Open Scope R_scope.
Lemma axis_lemma pts p0 p2 k : nth_error pts 0 = Some p0 -> nth_error pts 2 = Some p2 -> (k < 3)%nat -> coord k p0 = coord k p2 ->
  (forall m, (m < 3)%nat -> m <> k -> coord m p0 <> coord m p2) -> face_axis pts = Ok k.
Proof.
  intros E0 E2 L Q D. unfold face_axis, get_at. rewrite E0, E2. cbn [bind]. f_equal. unfold argmin3.
  assert (N : norm (vsub p2 p0) <> 0).
  { intros Z. apply norm_zero in Z. destruct k as [|[|[|k]]]; try lia; [apply (D 1%nat)|apply (D 0%nat)|apply (D 0%nat)]; try lia;
    [pose proof (f_equal vy Z) as Y|pose proof (f_equal vx Z) as Y|pose proof (f_equal vx Z) as Y]; unfold coord, vsub in *; cbn in Y; lra. }
  assert (P : forall m, (m < 3)%nat -> m <> k -> 0 < Rabs (coord m (vsub p2 p0) / norm (vsub p2 p0))).
  { intros m Lm Dm. apply Rabs_pos_lt. unfold Rdiv. apply Rmult_integral_contrapositive. split; [|apply Rinv_neq_0_compat; auto].
    pose proof (D m Lm Dm). unfold coord, vsub in *. destruct m as [|[|m]]; cbn in *; lra. }
  assert (Z : Rabs (coord k (vsub p2 p0) / norm (vsub p2 p0)) = 0).
  { replace (coord k (vsub p2 p0)) with 0; [unfold Rdiv; rewrite Rmult_0_l; apply Rabs_R0|]. unfold coord, vsub in *. destruct k as [|[|k]]; cbn in *; lra. }
  destruct k as [|[|[|k]]]; try lia; cbn [coord] in *.
  - pose proof (P 1%nat ltac:(lia) ltac:(lia)) as P1. pose proof (P 2%nat ltac:(lia) ltac:(lia)) as P2. cbn [coord] in *. rewrite !(proj2 (Rleb_true _ _)) by lra. reflexivity.
  - pose proof (P 0%nat ltac:(lia) ltac:(lia)) as P1. pose proof (P 2%nat ltac:(lia) ltac:(lia)) as P2. cbn [coord] in *. rewrite (proj2 (Rleb_false (Rabs (vx _ / _)) (Rabs (vy _ / _)))) by lra. cbn [andb]. rewrite (proj2 (Rleb_true _ _)) by lra. reflexivity.
  - pose proof (P 0%nat ltac:(lia) ltac:(lia)) as P1. pose proof (P 1%nat ltac:(lia) ltac:(lia)) as P2. cbn [coord] in *. rewrite (proj2 (Rleb_false (Rabs (vx _ / _)) (Rabs (vz _ / _)))) by lra. rewrite andb_false_r. rewrite (proj2 (Rleb_false _ _)) by lra. reflexivity.
Qed.
