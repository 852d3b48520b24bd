(** * Lemmas: the test of convexity and points in polygons, C91 *)
From Coq Require Import List Arith ZArith Bool Reals Lra Lia.
From Verif Require Import Base BaseProof VecBase VecProof GeoModel GeoSpec GeoProof GeoProof2 PolyModel PolySpec PolyProof.
Import ListNotations.
Local Open Scope R_scope.

(** ** argmax, argmin *)
Lemma best_index_lt better l : forall best at_ i k, (at_ < i)%nat -> (i + length l <= k)%nat -> (best_index better best at_ i l < k)%nat.
Proof.
  induction l as [|x l IH]; intros best at_ i k L H; simpl in *; [lia|]. destruct (better x best); apply IH; lia.
Qed.
Lemma argbest_Ok better l : l <> [] -> exists i, argbest better l = Ok i /\ (i < length l)%nat.
Proof.
  destruct l as [|x l]; [congruence|]. intros _. eexists. split; [reflexivity|]. apply best_index_lt; simpl; lia.
Qed.
Lemma get_at_lt {A} (l : list A) i d : (i < length l)%nat -> get_at l i = Ok (nth i l d).
Proof. intros L. unfold get_at. rewrite (nth_error_nth' l d L). reflexivity. Qed.
Lemma delete_at_In {A} i (l : list A) x : In x (delete_at i l) -> In x l.
Proof. revert i. induction l as [|y l IH]; intros [|i]; simpl; auto. intros [->|H]; eauto. Qed.
Lemma delete_at_length {A} i (l : list A) : (i < length l)%nat -> length (delete_at i l) = (length l - 1)%nat.
Proof. revert i. induction l as [|y l IH]; intros [|i]; simpl; intros L; try lia. rewrite IH by lia. lia. Qed.

(** ** normal *)
Lemma normalize_scale v : exists k, 0 < k /\ normalize v = vscale k v.
Proof.
  unfold normalize. destruct (Req_EM_T (norm v) 0) as [E|E].
  - exists 1. split; [lra|]. apply vec_ext; simpl; ring.
  - exists (/ norm v). split; [|apply vec_ext; simpl; unfold Rdiv; ring]. apply Rinv_0_lt_compat. pose proof (norm_nonneg v). lra.
Qed.
Lemma sign_pos x : 0 < x -> sign x = 1%Z.
Proof. intros H. unfold sign. rewrite (proj2 (Rltb_true 0 x) H). reflexivity. Qed.
Lemma sign_neg x : x < 0 -> sign x = (-1)%Z.
Proof. intros H. unfold sign. rewrite (proj2 (Rltb_false 0 x)) by lra. rewrite (proj2 (Rltb_true x 0) H). reflexivity. Qed.
Lemma sign_zero : sign 0 = 0%Z.
Proof. unfold sign. rewrite (proj2 (Rltb_false 0 0)) by lra. reflexivity. Qed.
Lemma sign_cases x : (sign x = 1%Z /\ 0 < x) \/ (sign x = (-1)%Z /\ x < 0) \/ (sign x = 0%Z /\ x = 0).
Proof. destruct (Rtotal_order x 0) as [H|[->|H]]; [right; left|right; right|left]; split; auto using sign_pos, sign_neg, sign_zero. Qed.

(** the normal is taken from three points [pa], [pb], [pc] that are corners or means of corners *)
Definition from_corners (pts : list vec) (p : vec) : Prop := In p pts \/ exists l, l <> [] /\ (forall q, In q l -> In q pts) /\ p = vmean l.
Lemma polygon_normal_Ok pts : (3 <= length pts)%nat -> exists pa pb pc, polygon_normal pts = Ok (normalize (cross (vsub pb pa) (vsub pc pa))) /\
  from_corners pts pa /\ from_corners pts pb /\ from_corners pts pc.
Proof.
  intros L. unfold polygon_normal. set (xc := vmean pts). set (dxc := map (fun p => norm (vsub p xc)) pts).
  assert (Ld : length dxc = length pts) by (unfold dxc; apply map_length).
  assert (Nd : dxc <> []) by (intros E; rewrite E in Ld; simpl in Ld; lia).
  destruct (argbest_Ok (fun x y => Rltb y x) dxc Nd) as (imax & E1 & L1). destruct (argbest_Ok Rltb dxc Nd) as (imin & E2 & L2).
  unfold argmax, argmin. rewrite E1, E2. cbn [bind]. rewrite (get_at_lt dxc imax 0 L1), (get_at_lt dxc imin 0 L2). cbn [bind].
  destruct (isclose_default _ _).
  - rewrite (get_at_lt pts 0 vzero), (get_at_lt pts 1 vzero), (get_at_lt pts 2 vzero) by lia. cbn [bind].
    do 3 eexists. split; [reflexivity|]. repeat split; left; apply nth_In; lia.
  - rewrite (get_at_lt pts imax vzero) by lia. cbn [bind].
    set (rest := delete_at imax pts). set (red := rest ++ [vmean rest]). set (d := delete_at imax dxc ++ [norm (vsub (vmean red) xc)]).
    assert (Lr : length rest = (length pts - 1)%nat) by (apply delete_at_length; lia).
    assert (Lred : length red = length pts) by (unfold red; rewrite app_length; simpl; lia).
    assert (Ldd : length d = length pts) by (unfold d; rewrite app_length, delete_at_length by lia; simpl; lia).
    assert (Ndd : d <> []) by (intros E; rewrite E in Ldd; simpl in Ldd; lia).
    destruct (argbest_Ok (fun x y => Rltb y x) d Ndd) as (ib & E3 & L3). destruct (argbest_Ok Rltb d Ndd) as (ic & E4 & L4).
    rewrite E3, E4. cbn [bind]. rewrite (get_at_lt red ib vzero), (get_at_lt red ic vzero) by lia. cbn [bind].
    assert (R : forall i, (i < length pts)%nat -> from_corners pts (nth i red vzero)).
    { intros i Li. assert (I : In (nth i red vzero) red) by (apply nth_In; lia). unfold red in I at 2. apply in_app_or in I as [I|[I|[]]].
      - left. apply delete_at_In in I. exact I.
      - right. exists rest. split; [intros E; rewrite E in Lr; simpl in Lr; lia|]. split; [intros q; apply delete_at_In|auto]. }
    do 3 eexists. split; [reflexivity|]. split; [left; apply nth_In; lia|]. split; apply R; lia.
Qed.
Lemma mapM_seq_Ok {B} (f : nat -> res B) (g : nat -> B) m : (forall i, (i < m)%nat -> f i = Ok (g i)) -> mapM f (seq 0 m) = Ok (map g (seq 0 m)).
Proof. intros H. apply mapM_Ok_map. intros i I. apply in_seq in I. apply H. lia. Qed.
(** the turn at a corner *)
Definition turn (pts : list vec) (i : nat) : vec := cross (vsub (corner pts (i + 1)) (corner pts i)) (vsub (corner pts (i + 2)) (corner pts (i + 1))).
Lemma convex_q_Ok pts N : (4 <= length pts)%nat -> polygon_normal pts = Ok N ->
  convex_q pts = Ok (Z.abs (fold_right Z.add 0%Z (map (fun i => sign (dot N (normalize (turn pts i)))) (seq 0 (length pts)))) =? Z.of_nat (length pts))%Z.
Proof.
  intros L E. unfold convex_q. replace (length pts <? 4)%nat with false by (symmetry; apply Nat.ltb_ge; lia). rewrite E. cbn [bind].
  rewrite (mapM_seq_Ok _ (fun i => dot N (normalize (turn pts i)))).
  - cbn [bind]. rewrite map_map. reflexivity.
  - intros i Li. assert (B : forall k, (k mod length pts < length pts)%nat) by (intros; apply Nat.mod_upper_bound; lia).
    rewrite (get_at_lt pts i vzero) by lia. rewrite (get_at_lt pts ((i + 1) mod length pts) vzero), (get_at_lt pts ((i + 2) mod length pts) vzero) by apply B.
    cbn [bind]. unfold turn, edge_direction. rewrite (corner_lt pts i) by exact Li. reflexivity.
Qed.
Lemma sum_const (f : nat -> Z) c : forall m s, (forall i, (i < s + m)%nat -> f i = c) -> fold_right Z.add 0%Z (map f (seq s m)) = (Z.of_nat m * c)%Z.
Proof. induction m as [|m IH]; intros s H; [reflexivity|]. cbn [seq map fold_right]. rewrite H, IH by (intros; try apply H; lia). lia. Qed.
Lemma sum_bound (f : nat -> Z) : (forall i, (-1 <= f i <= 1)%Z) -> forall m s,
  let S := fold_right Z.add 0%Z (map f (seq s m)) in
  (- Z.of_nat m <= S <= Z.of_nat m)%Z /\ (S = Z.of_nat m -> forall i, (s <= i < s + m)%nat -> f i = 1%Z) /\ (S = - Z.of_nat m -> forall i, (s <= i < s + m)%nat -> f i = (-1)%Z)%Z.
Proof.
  intros B. induction m as [|m IH]; intros s; cbn [seq map fold_right]; cbv zeta.
  - split; [lia|]. split; intros; lia.
  - destruct (IH (S s)) as (H1 & H2 & H3). cbv zeta in H1, H2, H3. pose proof (B s) as Bs. split; [lia|]. split; intros E i Hi.
    + destruct (Nat.eq_dec i s) as [->|]; [lia|]. apply H2; lia.
    + destruct (Nat.eq_dec i s) as [->|]; [lia|]. apply H3; lia.
Qed.
(** what the answer True means *)
Lemma convex_q_sound pts : (4 <= length pts)%nat -> convex_q pts = Ok true -> exists n, n <> vzero /\ turns_left n pts.
Proof.
  intros L E. destruct (polygon_normal_Ok pts) as (pa & pb & pc & EN & _); [lia|]. rewrite (convex_q_Ok pts _ L EN) in E. injection E as E.
  set (N := normalize (cross (vsub pb pa) (vsub pc pa))) in *. apply Z.eqb_eq in E.
  set (f := fun i => sign (dot N (normalize (turn pts i)))) in *.
  destruct (sum_bound f) with (m := length pts) (s := 0%nat) as (B & P1 & P2).
  { intros i. unfold f. destruct (sign_cases (dot N (normalize (turn pts i)))) as [[-> _]|[[-> _]|[-> _]]]; lia. }
  cbv zeta in B, P1, P2. set (S := fold_right Z.add 0%Z (map f (seq 0 (length pts)))) in *.
  assert (Z : S = Z.of_nat (length pts) \/ S = (- Z.of_nat (length pts))%Z) by lia.
  assert (NZ : forall (M : vec) x, 0 < dot M x -> M <> vzero) by (intros M x H ->; unfold dot in H; simpl in H; lra).
  destruct Z as [Z|Z].
  - assert (T : turns_left N pts).
    { intros i Li. pose proof (P1 Z i ltac:(lia)) as H. unfold f in H. destruct (sign_cases (dot N (normalize (turn pts i)))) as [[_ H1]|[[H1 _]|[H1 _]]]; [|lia|lia].
      destruct (normalize_scale (turn pts i)) as (k & K & EK). rewrite EK, dot_scale_r in H1. fold (turn pts i). nra. }
    exists N. split; [apply (NZ _ (turn pts 0)); apply T; lia|exact T].
  - assert (T : turns_left (vscale (-1) N) pts).
    { intros i Li. pose proof (P2 Z i ltac:(lia)) as H. unfold f in H. destruct (sign_cases (dot N (normalize (turn pts i)))) as [[H1 _]|[[_ H1]|[H1 _]]]; [lia| |lia].
      destruct (normalize_scale (turn pts i)) as (k & K & EK). rewrite EK, dot_scale_r in H1. fold (turn pts i). rewrite dot_scale_l. nra. }
    exists (vscale (-1) N). split; [apply (NZ _ (turn pts 0)); apply T; lia|exact T].
Qed.

(** plane polygons that turn left: the answer is True unless the three points lie on a line *)
Lemma from_corners_plane n pts p q : planar n pts -> from_corners pts p -> In q pts -> dot n (vsub p q) = 0.
Proof.
  intros [N P] [I|(l & Nl & Il & ->)] Iq; [apply P; assumption|].
  pose proof (linear_mean (dot n) l q (linear_dot n) Nl) as E.
  assert (Z : suml (map (fun p => dot n (vsub p q)) l) = 0).
  { clear E Nl. induction l as [|x l IH]; [reflexivity|]. cbn [map suml]. rewrite (P x q (Il x (or_introl eq_refl)) Iq), IH; [ring|]. intros. apply Il. simpl. auto. }
  rewrite Z in E. assert (INR (length l) <> 0) by (apply not_0_INR; destruct l; simpl; [congruence|lia]). nra.
Qed.
Lemma cross_plane n a b : n <> vzero -> dot n a = 0 -> dot n b = 0 -> cross a b = vscale (dot n (cross a b) / dot n n) n.
Proof.
  intros N A B. pose proof (dot_pos n N) as D.
  assert (E : vscale (dot n n) (cross a b) = vscale (dot n (cross a b)) n).
  { assert (Z : cross n (cross a b) = vzero).
    { transitivity (vsub (vscale (dot n b) a) (vscale (dot n a) b)); [apply vec_ext; unfold dot, cross; simpl; ring|]. rewrite A, B. apply vec_ext; simpl; ring. }
    set (w := cross a b) in *. clearbody w.
    assert (Z' : cross n (cross n w) = vzero) by (rewrite Z; apply vec_ext; simpl; ring).
    assert (Q : cross n (cross n w) = vsub (vscale (dot n w) n) (vscale (dot n n) w)) by (apply vec_ext; unfold dot, cross; simpl; ring).
    rewrite Z' in Q. symmetry in Q. apply vsub_zero in Q. symmetry. exact Q. }
  assert (E2 : vscale (/ dot n n) (vscale (dot n n) (cross a b)) = vscale (/ dot n n) (vscale (dot n (cross a b)) n)) by (rewrite E; reflexivity).
  set (w := dot n (cross a b)) in *. clearbody w. set (d := dot n n) in *. clearbody d. set (c := cross a b) in *. clearbody c.
  transitivity (vscale (/ d) (vscale d c)); [apply vec_ext; simpl; field; lra|]. rewrite E2. apply vec_ext; simpl; unfold Rdiv; ring.
Qed.
Lemma convex_q_plane n pts : (4 <= length pts)%nat -> planar n pts -> turns_left n pts ->
  exists pa pb pc, polygon_normal pts = Ok (normalize (cross (vsub pb pa) (vsub pc pa))) /\
    (cross (vsub pb pa) (vsub pc pa) <> vzero -> convex_q pts = Ok true) /\
    (cross (vsub pb pa) (vsub pc pa) = vzero -> convex_q pts = Ok false).
Proof.
  intros L Pl T. destruct (polygon_normal_Ok pts) as (pa & pb & pc & EN & Fa & Fb & Fc); [lia|]. exists pa, pb, pc. split; [exact EN|].
  rewrite (convex_q_Ok pts _ L EN). set (c := cross (vsub pb pa) (vsub pc pa)) in *.
  assert (Ne : pts <> []) by (intros E; rewrite E in L; simpl in L; lia).
  assert (D : forall p q, from_corners pts p -> from_corners pts q -> dot n (vsub p q) = 0).
  { intros p q Fp Fq. pose proof (from_corners_plane n pts p (corner pts 0) Pl Fp (corner_In pts 0 Ne)) as H1.
    pose proof (from_corners_plane n pts q (corner pts 0) Pl Fq (corner_In pts 0 Ne)) as H2. revert H1 H2. unfold dot. simpl. lra. }
  pose proof (cross_plane n (vsub pb pa) (vsub pc pa) (proj1 Pl) (D _ _ Fb Fa) (D _ _ Fc Fa)) as Ec. fold c in Ec.
  pose proof (dot_pos n (proj1 Pl)) as Dn.
  assert (Et : forall i, (i < length pts)%nat -> dot c (turn pts i) = dot n c / dot n n * dot n (turn pts i)).
  { intros i Li. rewrite Ec at 1. apply dot_scale_l. }
  split; intros H.
  - assert (NZ : dot n c <> 0). { intros E. apply H. rewrite Ec, E. apply vec_ext; simpl; unfold Rdiv; ring. }
    f_equal. apply Z.eqb_eq.
    destruct (normalize_scale c) as (k & K & Ek).
    destruct (Rtotal_order (dot n c) 0) as [S|[S|S]]; [|contradiction|].
    + rewrite (sum_const _ (-1)%Z); [lia|]. intros i Li. simpl in Li. apply sign_neg.
      destruct (normalize_scale (turn pts i)) as (k' & K' & Ek'). rewrite Ek, Ek', dot_scale_l, dot_scale_r, (Et i Li).
      pose proof (T i Li) as Ti. fold (turn pts i) in Ti.
      assert (dot n c / dot n n < 0). { apply Ropp_lt_cancel. rewrite Ropp_0. replace (- (dot n c / dot n n)) with ((- dot n c) / dot n n) by (field; lra). apply Rdiv_lt_0_compat; lra. }
      assert (0 < k * k') by nra. assert (dot n c / dot n n * dot n (turn pts i) < 0) by nra. nra.
    + rewrite (sum_const _ 1%Z); [lia|]. intros i Li. simpl in Li. apply sign_pos.
      destruct (normalize_scale (turn pts i)) as (k' & K' & Ek'). rewrite Ek, Ek', dot_scale_l, dot_scale_r, (Et i Li).
      pose proof (T i Li) as Ti. fold (turn pts i) in Ti.
      assert (0 < dot n c / dot n n) by (apply Rdiv_lt_0_compat; lra).
      assert (0 < k * k') by nra. assert (0 < dot n c / dot n n * dot n (turn pts i)) by nra. nra.
  - f_equal. apply Z.eqb_neq. rewrite (sum_const _ 0%Z); [lia|]. intros i Li. rewrite H.
    destruct (normalize_scale vzero) as (k & K & ->). replace (dot (vscale k vzero) (normalize (turn pts i))) with 0 by (unfold dot; simpl; ring). apply sign_zero.
Qed.
Lemma isclose_default_refl x : isclose_default x x = true.
Proof. unfold isclose_default. apply Rleb_true. rewrite Rminus_diag_eq, Rabs_R0 by reflexivity. pose proof (Rabs_pos x). lra. Qed.
Lemma equidistant_convex n pts : planar n pts -> equidistant pts -> turns_left n pts -> convex_q pts = Ok true.
Proof.
  intros Pl [r Er] T. destruct (le_lt_dec 4 (length pts)) as [L|L].
  2:{ unfold convex_q. replace (length pts <? 4)%nat with true by (symmetry; apply Nat.ltb_lt; lia). reflexivity. }
  destruct (convex_q_plane n pts L Pl T) as (pa & pb & pc & EN & H & _).
  assert (EN' : polygon_normal pts = Ok (normalize (cross (vsub (corner pts 1) (corner pts 0)) (vsub (corner pts 2) (corner pts 0))))).
  { unfold polygon_normal. set (dxc := map (fun p => norm (vsub p (vmean pts))) pts).
    assert (Ld : length dxc = length pts) by (unfold dxc; apply map_length).
    assert (Nd : dxc <> []) by (intros E; rewrite E in Ld; simpl in Ld; lia).
    assert (Cd : forall i, (i < length dxc)%nat -> nth i dxc 0 = r).
    { intros i Li. assert (I : In (nth i dxc 0) dxc) by (apply nth_In; exact Li). unfold dxc in I at 2. apply in_map_iff in I as (p & E & I). rewrite <- E. apply Er. exact I. }
    destruct (argbest_Ok (fun x y => Rltb y x) dxc Nd) as (imax & E1 & L1). destruct (argbest_Ok Rltb dxc Nd) as (imin & E2 & L2).
    unfold argmax, argmin. rewrite E1, E2. cbn [bind]. rewrite (get_at_lt dxc imax 0 L1), (get_at_lt dxc imin 0 L2). cbn [bind].
    rewrite (Cd imax L1), (Cd imin L2), isclose_default_refl.
    rewrite (get_at_lt pts 0 vzero), (get_at_lt pts 1 vzero), (get_at_lt pts 2 vzero) by lia. cbn [bind].
    rewrite !corner_lt by lia. reflexivity. }
  apply H. intros Z. rewrite EN' in EN. injection EN as EN. rewrite Z in EN.
  assert (Q : normalize (cross (vsub (corner pts 1) (corner pts 0)) (vsub (corner pts 2) (corner pts 0))) = vzero).
  { rewrite EN. destruct (normalize_scale vzero) as (k & _ & ->). apply vec_ext; simpl; ring. }
  destruct (normalize_scale (cross (vsub (corner pts 1) (corner pts 0)) (vsub (corner pts 2) (corner pts 0)))) as (k & K & Ek). rewrite Ek in Q.
  pose proof (T 0%nat ltac:(lia)) as T0. simpl in T0.
  assert (V : k * dot n (cross (vsub (corner pts 1) (corner pts 0)) (vsub (corner pts 2) (corner pts 0))) = 0).
  { rewrite <- dot_scale_r, Q. unfold dot. simpl. ring. }
  assert (W : dot n (cross (vsub (corner pts 1) (corner pts 0)) (vsub (corner pts 2) (corner pts 0))) = dot n (cross (vsub (corner pts 1) (corner pts 0)) (vsub (corner pts 2) (corner pts 1)))).
  { unfold dot, cross. simpl. ring. }
  rewrite W in V. nra.
Qed.
Lemma convex_turns n pts : convex_polygon n pts -> turns_left n pts.
Proof.
  intros (L & Pl & S) i Li. destruct (Nat.eq_dec ((i + 2) mod length pts) i) as [E|D].
  { exfalso. destruct (le_lt_dec (length pts) (i + 2)) as [H|H].
    - replace (i + 2)%nat with (i + 2 - length pts + 1 * length pts)%nat in E by lia. rewrite Nat.mod_add in E by lia. rewrite Nat.mod_small in E by lia. lia.
    - rewrite Nat.mod_small in E by lia. lia. }
  assert (D2 : ((i + 2) mod length pts <> (i + 1) mod length pts)%nat).
  { intros E. destruct (le_lt_dec (length pts) (i + 1)) as [H|H].
    - replace (i + 2)%nat with (i + 2 - length pts + 1 * length pts)%nat in E by lia. replace (i + 1)%nat with (i + 1 - length pts + 1 * length pts)%nat in E by lia.
      rewrite !Nat.mod_add in E by lia. rewrite !Nat.mod_small in E by lia. lia.
    - rewrite (Nat.mod_small (i + 1)) in E by lia. destruct (Nat.eq_dec (i + 2) (length pts)) as [H'|H'].
      + rewrite H' in E. rewrite Nat.mod_same in E by lia. lia.
      + rewrite Nat.mod_small in E by lia. lia. }
  pose proof (S i ((i + 2) mod length pts)%nat Li ltac:(apply Nat.mod_upper_bound; lia) D D2) as H. rewrite corner_mod in H.
  unfold side in H. replace (dot n (cross (vsub (corner pts (i + 1)) (corner pts i)) (vsub (corner pts (i + 2)) (corner pts (i + 1)))))
    with (dot n (cross (vsub (corner pts (i + 1)) (corner pts i)) (vsub (corner pts (i + 2)) (corner pts i)))); [exact H|].
  unfold dot, cross. simpl. ring.
Qed.
