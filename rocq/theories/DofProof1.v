(** * Lemmas: DoF numbering *)
From Coq Require Import List Arith ZArith Bool Lia.
From Verif Require Import Base BaseProof MeshModel MeshSpec MeshProof1 GraphModel GraphProof DofModel.
Import ListNotations.

(** ** ranges and chunks *)
Lemma length_zrange a b : length (zrange a b) = Z.to_nat (b - a).
Proof. unfold zrange. rewrite map_length, seq_length. auto. Qed.
Lemma nth_error_zrange a b k x :
  nth_error (zrange a b) k = Some x <-> (x = a + Z.of_nat k /\ x < b)%Z.
Proof.
  unfold zrange. rewrite nth_error_map. destruct (Nat.lt_ge_cases k (Z.to_nat (b - a))) as [L|L].
  - rewrite nth_error_seq by auto. simpl. split.
    + intros E; inversion E; subst. lia.
    + intros [-> _]; auto.
  - rewrite (proj2 (nth_error_None _ _)) by (rewrite seq_length; auto). simpl. split; [discriminate|]. lia.
Qed.
Lemma In_zrange a b x : In x (zrange a b) <-> (a <= x < b)%Z.
Proof.
  split.
  - intros H. apply In_nth_error in H as (k & Hk). apply nth_error_zrange in Hk. lia.
  - intros H. apply (nth_error_In _ (Z.to_nat (x - a))). apply nth_error_zrange. lia.
Qed.
Lemma NoDup_zrange a b : NoDup (zrange a b).
Proof.
  unfold zrange. apply NoDup_map_inj_in; [|apply seq_NoDup]. intros; lia.
Qed.
Lemma zrange_shift a b s : zrange (a + s) (b + s) = map (fun x => x + s)%Z (zrange a b).
Proof.
  unfold zrange. rewrite map_map. replace (b + s - (a + s))%Z with (b - a)%Z by lia.
  apply map_ext. intros; lia.
Qed.
Lemma map_add_seq m s w : map (fun k => w + k) (seq s m) = seq (w + s) m.
Proof. revert s; induction m; intros; simpl; auto. rewrite IHm. f_equal; f_equal; lia. Qed.
Lemma zrange_split a n w :
  zrange a (a + Z.of_nat (S n * w))
  = zrange a (a + Z.of_nat w) ++ zrange (a + Z.of_nat w) (a + Z.of_nat w + Z.of_nat (n * w)).
Proof.
  unfold zrange. replace (Z.to_nat (a + Z.of_nat (S n * w) - a)) with (w + n * w) by lia.
  replace (Z.to_nat (a + Z.of_nat w - a)) with w by lia.
  replace (Z.to_nat (a + Z.of_nat w + Z.of_nat (n * w) - (a + Z.of_nat w))) with (n * w) by lia.
  rewrite seq_app, map_app. f_equal. simpl (0 + w).
  replace (seq w (n * w)) with (map (fun k => w + k) (seq 0 (n * w)))
    by (rewrite map_add_seq; f_equal; lia).
  rewrite map_map. apply map_ext; intros; lia.
Qed.
Lemma firstn_exact {A} (l l' : list A) n : length l = n -> firstn n (l ++ l') = l.
Proof. intros <-. rewrite firstn_app, firstn_all, Nat.sub_diag. apply app_nil_r. Qed.
Lemma skipn_exact {A} (l l' : list A) n : length l = n -> skipn n (l ++ l') = l'.
Proof. intros <-. rewrite skipn_app, skipn_all, Nat.sub_diag. reflexivity. Qed.

Lemma chunks_zrange a w n :
  chunks w n (zrange a (a + Z.of_nat (n * w)))
  = map (fun p => zrange (a + Z.of_nat (p * w)) (a + Z.of_nat (p * w) + Z.of_nat w)) (seq 0 n).
Proof.
  revert a; induction n as [|n IH]; intros a; [reflexivity|].
  cbn [chunks]. rewrite zrange_split.
  rewrite firstn_exact, skipn_exact by (rewrite length_zrange; lia).
  rewrite IH. simpl seq. simpl map. f_equal.
  - f_equal; lia.
  - rewrite <- seq_shift, map_map. apply map_ext. intros p. f_equal; lia.
Qed.

Lemma np_split_zrange a w n : n <> 0 ->
  np_split (zrange a (a + Z.of_nat (n * w))) n
  = Ok (map (fun p => zrange (a + Z.of_nat (p * w)) (a + Z.of_nat (p * w) + Z.of_nat w)) (seq 0 n)).
Proof.
  intros N. unfold np_split. rewrite length_zrange.
  replace (Z.to_nat (a + Z.of_nat (n * w) - a)) with (w * n) by lia.
  rewrite Nat.mod_mul by auto. simpl. rewrite Nat.div_mul by auto. rewrite chunks_zrange. auto.
Qed.

(** ** one entity map *)
Lemma dget_combine_map {A B} `{EqDec A} (K : list A) (f : nat -> B) s k v :
  NoDup K ->
  dget (combine K (map f (seq s (length K)))) k = Some v <->
  exists p, nth_error K p = Some k /\ v = f (s + p).
Proof.
  revert s; induction K as [|a K IH]; intros s ND; simpl.
  - split; [discriminate|]. intros (p & Hp & _). destruct p; discriminate.
  - inversion ND; subst. destruct (eq_dec k a) as [->|N].
    + split.
      * intros E; inversion E; subst. exists 0; simpl; rewrite Nat.add_0_r; auto.
      * intros ([|p] & Hp & ->); simpl in Hp.
        -- rewrite Nat.add_0_r; auto.
        -- apply nth_error_In in Hp; contradiction.
    + rewrite IH by auto. split.
      * intros (p & Hp & ->). exists (S p); simpl. rewrite Nat.add_succ_r; auto.
      * intros ([|p] & Hp & ->); simpl in Hp; [congruence|]. exists p. rewrite Nat.add_succ_r; auto.
Qed.

Lemma entity_map_spec ids a w :
  NoDup ids ->
  exists em, entity_map ids a (a + Z.of_nat (length ids * w)) = Ok em /\
    forall j l, dget em j = Some l <->
      exists p, nth_error ids p = Some j /\
                l = zrange (a + Z.of_nat (p * w)) (a + Z.of_nat (p * w) + Z.of_nat w).
Proof.
  intros ND. unfold entity_map. destruct (Nat.eqb_spec (length ids) 0) as [E|N].
  - exists []. split; auto. intros j l. destruct ids; [|discriminate]. simpl. split; [discriminate|].
    intros (p & Hp & _). destruct p; discriminate.
  - rewrite np_split_zrange by auto. cbn [bind].
    eexists; split; [reflexivity|]. intros j l.
    rewrite dict_of_id.
    + rewrite dget_combine_map by auto. split; intros (p & H1 & H2); exists p; auto.
    + rewrite dkeys_combine; auto. rewrite map_length, seq_length; auto.
Qed.

(** ** the support sizes *)
Fixpoint scaled (dofs : list nat) (comps : nat) (support : list nat) : list nat :=
  match dofs, support with
  | e :: dofs', s :: support' => s * (e * comps) :: scaled dofs' comps support'
  | _, _ => support
  end.
Lemma scale_support_eq layout dofs comps support :
  Forall2 (fun l e => int_mean l = Ok e) layout dofs -> length layout <= length support ->
  scale_support layout comps support = Ok (scaled dofs comps support).
Proof.
  intros F; revert support; induction F; intros support L; simpl.
  - destruct support; auto.
  - destruct support as [|s support]; simpl in L; [lia|].
    rewrite H. cbn [bind]. rewrite IHF by lia. reflexivity.
Qed.
Lemma scale_support_Ok layout comps support s :
  scale_support layout comps support = Ok s ->
  length layout <= length support /\
  exists dofs, Forall2 (fun l e => int_mean l = Ok e) layout dofs /\ s = scaled dofs comps support.
Proof.
  revert support s; induction layout as [|l layout IH]; simpl; intros support s H.
  - inversion H; subst. split; [lia|]. exists []; split; auto.
  - destruct support as [|x support]; [discriminate|].
    apply bind_Ok in H as (e & He & H). apply bind_Ok in H as (r & Hr & H). inversion H; subst.
    apply IH in Hr as (L & dofs & F & ->). split; [simpl; lia|]. exists (e :: dofs). split; auto.
Qed.
Lemma nth_scaled dofs comps support i :
  nth i (scaled dofs comps support) 0
  = if i <? length dofs then nth i support 0 * (nth i dofs 0 * comps) else nth i support 0.
Proof.
  revert support i; induction dofs as [|e dofs IH]; intros support i; simpl.
  - reflexivity.
  - destruct support as [|s support]; simpl.
    + destruct i; destruct (_ <? _); simpl; lia.
    + destruct i; auto. rewrite IH. reflexivity.
Qed.
Lemma length_scaled dofs comps support : length (scaled dofs comps support) = length support.
Proof. revert support; induction dofs; destruct support; simpl; auto. Qed.

Lemma list_sum_firstn_S l d : list_sum (firstn (S d) l) = list_sum (firstn d l) + nth d l 0.
Proof.
  revert d; induction l as [|x l IH]; intros [|d]; simpl; auto; try lia.
  specialize (IH d). simpl in IH. lia.
Qed.
Lemma list_sum_firstn_le l d d' : d <= d' -> list_sum (firstn d l) <= list_sum (firstn d' l).
Proof.
  induction 1; auto. rewrite list_sum_firstn_S. lia.
Qed.

Lemma accumulate_at s d : d <= length s ->
  nth_error (accumulate (0 :: s)) d = Some (list_sum (firstn d s)).
Proof.
  intros L. unfold accumulate.
  rewrite (nth_error_nth' _ 0) by (rewrite length_accumulate_from; simpl; lia).
  rewrite nth_accumulate_from by (simpl; lia). reflexivity.
Qed.

Lemma nth_map_seq {A} (f : nat -> A) n i dflt : i < n -> nth i (map f (seq 0 n)) dflt = f i.
Proof.
  intros. apply nth_error_nth. rewrite nth_error_map, nth_error_seq by auto. reflexivity.
Qed.

(** ** the whole numbering *)
Section Numbering.
  Variables (t : topology) (dim comps : nat) (shift : Z) (layout : list (list nat)) (dofs : list nat).
  Variable ids : nat -> list nat.
  Hypothesis Hids : forall d, d <= dim -> entities_by_dimension t d = Ok (ids d).
  Hypothesis HND : forall d, d <= dim -> NoDup (ids d).
  Hypothesis D3 : dim <= 3.
  Hypothesis Hlay : Forall2 (fun l e => int_mean l = Ok e) layout dofs.
  Hypothesis Llay : length layout = dim + 1.

  (** number of entities / DoFs per entity / size of the blocks *)
  Definition cnt (d : nat) : nat := if d <=? dim then length (ids d) else 0.
  Definition wd (d : nat) : nat := nth d dofs 0 * comps.
  Definition sizes : list nat := map (fun d => cnt d * wd d) (seq 0 4).
  Definition start (d : nat) : Z := (shift + Z.of_nat (list_sum (firstn d sizes)))%Z.

  Lemma Ldofs : length dofs = dim + 1.
  Proof. rewrite <- Llay. symmetry. clear - Hlay. induction Hlay; simpl; auto. Qed.

  Lemma support_ids_eq :
    support_ids t dim = Ok (map (fun d => if d <=? dim then ids d else []) (seq 0 4)).
  Proof.
    unfold support_ids. destruct (Nat.ltb_spec 3 dim); [lia|].
    apply mapM_Ok_map. intros d Hd. destruct (Nat.leb_spec d dim); auto.
  Qed.

  Lemma sizes_eq :
    scaled dofs comps (map (@length nat) (map (fun d => if d <=? dim then ids d else []) (seq 0 4))) = sizes.
  Proof.
    apply nth_ext with (d := 0) (d' := 0).
    - rewrite length_scaled, !map_length. reflexivity.
    - intros i Hi. rewrite length_scaled, !map_length, seq_length in Hi.
      rewrite nth_scaled, Ldofs. unfold sizes.
      rewrite map_map.
      rewrite !nth_map_seq by auto. unfold cnt, wd.
      destruct (Nat.ltb_spec i (dim + 1)); destruct (Nat.leb_spec i dim); try lia; simpl; auto.
  Qed.

  Lemma nth_sizes d : d < 4 -> nth d sizes 0 = cnt d * wd d.
  Proof.
    intros. unfold sizes. exact (nth_map_seq (fun d => cnt d * wd d) 4 d 0 H).
  Qed.
  Lemma start_S d : d < 4 -> start (S d) = (start d + Z.of_nat (cnt d * wd d))%Z.
  Proof. intros. unfold start. rewrite list_sum_firstn_S, nth_sizes by auto. lia. Qed.
  Lemma start_le d d' : d <= d' -> (start d <= start d')%Z.
  Proof. intros. unfold start. pose proof (list_sum_firstn_le sizes d d' H). lia. Qed.

  Lemma gi_at d : d <= 4 ->
    get_at (map (fun x => Z.of_nat x + shift)%Z (accumulate (0 :: sizes))) d = Ok (start d).
  Proof.
    intros. unfold get_at. rewrite nth_error_map, accumulate_at.
    - simpl. unfold start. f_equal. lia.
    - unfold sizes. rewrite map_length, seq_length. auto.
  Qed.

  Lemma build_maps_ok :
    exists m, build_entity_maps t layout dim comps shift = Ok m /\
      dm_topo m = t /\ dm_layout m = layout /\ dm_dim m = dim /\
      dof_number m = Z.of_nat (list_sum sizes) /\
      forall d j l, dofs_of m d j = Ok l <->
        d <= dim /\ exists p, nth_error (ids d) p = Some j /\
          l = zrange (start d + Z.of_nat (p * wd d)) (start d + Z.of_nat (p * wd d) + Z.of_nat (wd d)).
  Proof.
    unfold build_entity_maps. rewrite support_ids_eq. cbn [bind].
    rewrite (scale_support_eq layout dofs) by (auto; rewrite !map_length, seq_length; lia).
    cbn [bind]. rewrite sizes_eq. cbv zeta.
    assert (EM : forall d, d < 4 -> exists em,
       entity_map (if d <=? dim then ids d else []) (start d) (start (S d)) = Ok em /\
       forall j l, dget em j = Some l <-> d <= dim /\ exists p, nth_error (ids d) p = Some j /\
          l = zrange (start d + Z.of_nat (p * wd d)) (start d + Z.of_nat (p * wd d) + Z.of_nat (wd d))).
    { intros d Hd. rewrite start_S by auto. unfold cnt. destruct (Nat.leb_spec d dim).
      - destruct (entity_map_spec (ids d) (start d) (wd d)) as (em & E & S); auto.
        exists em; split; auto. intros j l. rewrite S. tauto.
      - exists []. split; auto. intros j l; simpl. split; [discriminate|]. lia. }
    destruct (EM 0) as (m0 & E0 & S0); [lia|]. destruct (EM 1) as (m1 & E1 & S1); [lia|].
    destruct (EM 2) as (m2 & E2 & S2); [lia|]. destruct (EM 3) as (m3 & E3 & S3); [lia|].
    assert (MM : mapM (fun d => do i <- get_at (map (fun d => if d <=? dim then ids d else []) (seq 0 4)) d;
        do a <- get_at (map (fun x => Z.of_nat x + shift)%Z (accumulate (0 :: sizes))) d;
        do b <- get_at (map (fun x => Z.of_nat x + shift)%Z (accumulate (0 :: sizes))) (d + 1);
        entity_map i a b) (seq 0 4) = Ok [m0; m1; m2; m3]).
    { change (seq 0 4) with [0; 1; 2; 3] at 2. cbn [mapM]. rewrite !gi_at by lia.
      change (get_at (map (fun d => if d <=? dim then ids d else []) (seq 0 4)) 0)
        with (Ok (if 0 <=? dim then ids 0 else [])).
      change (get_at (map (fun d => if d <=? dim then ids d else []) (seq 0 4)) 1)
        with (Ok (if 1 <=? dim then ids 1 else [])).
      change (get_at (map (fun d => if d <=? dim then ids d else []) (seq 0 4)) 2)
        with (Ok (if 2 <=? dim then ids 2 else [])).
      change (get_at (map (fun d => if d <=? dim then ids d else []) (seq 0 4)) 3)
        with (Ok (if 3 <=? dim then ids 3 else [])).
      cbn [bind].
      change (0 + 1) with 1. change (1 + 1) with 2. change (2 + 1) with 3. change (3 + 1) with 4.
      rewrite E0, E1, E2, E3. reflexivity. }
    rewrite MM. cbn [bind]. eexists. split; [reflexivity|]. cbn [dm_topo dm_layout dm_dim].
    split; [reflexivity|]. split; [reflexivity|]. split; [reflexivity|]. split; [reflexivity|].
    intros d j l. unfold dofs_of. cbn [dm_maps].
    destruct d as [|[|[|[|d]]]]; unfold get_at; simpl nth_error; cbn [bind].
    1:{ rewrite <- S0. destruct (dget m0 j); split; congruence. }
    1:{ rewrite <- S1. destruct (dget m1 j); split; congruence. }
    1:{ rewrite <- S2. destruct (dget m2 j); split; congruence. }
    1:{ rewrite <- S3. destruct (dget m3 j); split; congruence. }
    destruct d; simpl; split; try discriminate; lia.
  Qed.

  Lemma total_size : (start 4 = shift + Z.of_nat (list_sum sizes))%Z.
  Proof. unfold start. rewrite firstn_all2; auto. Qed.

  (** every number in range belongs to exactly one place *)
  Lemma block_of x : (shift <= x < start 4)%Z -> exists d, d < 4 /\ (start d <= x < start (S d))%Z.
  Proof.
    intros H. assert (E0 : start 0 = shift) by (unfold start; simpl; lia).
    destruct (Z.lt_ge_cases x (start 1)); [exists 0; lia|].
    destruct (Z.lt_ge_cases x (start 2)); [exists 1; lia|].
    destruct (Z.lt_ge_cases x (start 3)); [exists 2; lia|]. exists 3; lia.
  Qed.
  Lemma block_unique x d d' : (start d <= x < start (S d))%Z -> (start d' <= x < start (S d'))%Z -> d = d'.
  Proof.
    intros H H'. destruct (Nat.lt_trichotomy d d') as [L|[L|L]]; auto; exfalso.
    - pose proof (start_le (S d) d' L). lia.
    - pose proof (start_le (S d') d L). lia.
  Qed.
  Lemma pos_bound d p : p < cnt d -> p * wd d + wd d <= cnt d * wd d.
  Proof. intros. nia. Qed.

  Lemma place_range d p j x : d <= dim -> nth_error (ids d) p = Some j ->
    (start d + Z.of_nat (p * wd d) <= x < start d + Z.of_nat (p * wd d) + Z.of_nat (wd d))%Z ->
    (start d <= x < start (S d))%Z.
  Proof.
    intros Hd Hp Hx. rewrite start_S by lia.
    assert (p < cnt d).
    { unfold cnt. destruct (Nat.leb_spec d dim); [|lia]. apply nth_error_Some; congruence. }
    pose proof (pos_bound d p H). lia.
  Qed.

  Lemma cover x : (shift <= x < start 4)%Z <->
    exists d p j, d <= dim /\ nth_error (ids d) p = Some j /\
      (start d + Z.of_nat (p * wd d) <= x < start d + Z.of_nat (p * wd d) + Z.of_nat (wd d))%Z.
  Proof.
    split.
    - intros H. destruct (block_of x H) as (d & Hd & Hx). rewrite start_S in Hx by auto.
      assert (Hdd : d <= dim).
      { destruct (Nat.le_gt_cases d dim); auto. exfalso. unfold cnt in Hx.
        destruct (Nat.leb_spec d dim); lia. }
      set (y := Z.to_nat (x - start d)).
      assert (W : wd d <> 0) by (intros W; rewrite W, Nat.mul_0_r in Hx; lia).
      assert (Hy : y < cnt d * wd d) by lia.
      exists d, (y / wd d).
      assert (P : y / wd d < cnt d) by (apply Nat.div_lt_upper_bound; auto; lia).
      unfold cnt in P. destruct (Nat.leb_spec d dim); [|lia].
      destruct (nth_error (ids d) (y / wd d)) as [j|] eqn:E; [|apply nth_error_None in E; lia].
      exists j. split; [auto|split; [auto|]].
      pose proof (Nat.div_mod y (wd d) W). pose proof (Nat.mod_upper_bound y (wd d) W).
      replace (y / wd d * wd d) with (y - y mod wd d) by nia. lia.
    - intros (d & p & j & Hd & Hp & Hx). pose proof (place_range d p j x Hd Hp Hx).
      pose proof (start_le 0 d ltac:(lia)). pose proof (start_le (S d) 4 ltac:(lia)).
      assert (E0 : start 0 = shift) by (unfold start; simpl; lia). lia.
  Qed.
  Lemma place_unique d p j d' p' j' k k' x :
    d <= dim -> d' <= dim -> nth_error (ids d) p = Some j -> nth_error (ids d') p' = Some j' ->
    k < wd d -> k' < wd d' ->
    x = (start d + Z.of_nat (p * wd d) + Z.of_nat k)%Z ->
    x = (start d' + Z.of_nat (p' * wd d') + Z.of_nat k')%Z ->
    d = d' /\ j = j' /\ k = k'.
  Proof.
    intros Hd Hd' Hp Hp' Hk Hk' E E'.
    assert (d = d').
    { apply (block_unique x).
      - apply (place_range d p j); auto. lia.
      - apply (place_range d' p' j'); auto. lia. }
    subst d'. assert (p * wd d + k = p' * wd d + k') by lia.
    assert (p = p') by nia. subst p'. split; [auto|split; [congruence|lia]].
  Qed.
End Numbering.
