(** * Lemmas: the permutation is one matrix for values and derivatives *)
From Coq Require Import List Arith ZArith Bool Reals Lra Lia FunctionalExtensionality.
From Verif Require Import Base BaseProof MeshModel GraphModel OrientModel OrientProof VecBase VecProof MapModel MapSpec MapProof JacProof SpaceModel ElementModel ElementSpec ElementProof ElementProof3.
Import ListNotations.
Local Open Scope R_scope.

(** [f] multiplies the functions by the matrix [T] of size [n]. *)
Definition by_matrix (n : nat) (T : matrix) (f : table -> res table) : Prop :=
  forall phi, tb_dof phi = n -> exists phi', f phi = Ok phi' /\ shaped phi phi' /\
    forall k i a c, (a < n)%nat -> tb_val phi' k i a c = rsum n (fun b => T a b * tb_val phi k i b c).
Definition linear (n : nat) (f : table -> res table) : Prop :=
  (exists T, by_matrix n T f) \/ (exists e, forall phi, tb_dof phi = n -> f phi = Err e).

Lemma rsum_pick n a (v : nat -> R) : (a < n)%nat -> rsum n (fun b => identity a b * v b) = v a.
Proof.
  intros H. enough (Q : forall m, rsum m (fun b => identity a b * v b) = if (a <? m)%nat then v a else 0).
  { rewrite Q. destruct (Nat.ltb_spec a n); auto; lia. }
  induction m as [|m IH]; [reflexivity|]. cbn [rsum]. rewrite IH. unfold identity.
  destruct (Nat.ltb_spec a m), (Nat.ltb_spec a (S m)), (Nat.eqb_spec a m); try lia; subst; ring.
Qed.
Lemma linear_id n : linear n (fun phi => Ok phi).
Proof.
  left. exists identity. intros phi Hn. exists phi. split; auto. split; [unfold shaped; auto|]. intros k i a c Ha. rewrite rsum_pick; auto.
Qed.
Lemma rsum_swap2 n m (f : nat -> nat -> R) : rsum n (fun i => rsum m (fun j => f i j)) = rsum m (fun j => rsum n (fun i => f i j)).
Proof.
  induction n as [|n IH]; cbn [rsum].
  - induction m as [|m IHm]; cbn [rsum]; auto. rewrite <- IHm. ring.
  - rewrite IH. clear IH. induction m as [|m IHm]; cbn [rsum]; [ring|]. rewrite <- IHm. ring.
Qed.
Lemma linear_seq n f h : linear n f -> linear n h -> linear n (fun phi => do p <- f phi; h p).
Proof.
  intros [[T HT]|[e He]] HL; [|right; exists e; intros phi Hn; rewrite He; auto].
  destruct HL as [[U HU]|[e He]].
  - left. exists (mmul n U T). intros phi Hn. destruct (HT phi Hn) as (p & E & (S1 & S2 & S3 & S4) & V). destruct (HU p ltac:(lia)) as (q & E' & (S1' & S2' & S3' & S4') & V').
    exists q. rewrite E. cbn [bind]. split; auto. split; [repeat split; congruence|]. intros k i a c Ha. rewrite V' by auto.
    transitivity (rsum n (fun b => rsum n (fun d => U a b * (T b d * tb_val phi k i d c)))).
    + apply rsum_ext. intros b Hb. rewrite V by auto. rewrite <- rsum_scal. reflexivity.
    + rewrite rsum_swap2. apply rsum_ext. intros d Hd. unfold mmul. rewrite (Rmult_comm (rsum n _)), <- rsum_scal. apply rsum_ext. intros b Hb. ring.
  - right. exists e. intros phi Hn. destruct (HT phi Hn) as (p & E & (S1 & S2 & S3 & S4) & V). rewrite E. cbn [bind]. apply He. lia.
Qed.
Lemma linear_err n e : linear n (fun _ => Err e).
Proof. right. exists e. auto. Qed.
Lemma linear_fold {A} n (f : table -> A -> res table) l : (forall x, linear n (fun phi => f phi x)) -> linear n (fun phi => foldM f l phi).
Proof.
  intros H. induction l as [|x l IH]; [apply linear_id|].
  apply (linear_seq n (fun phi => f phi x) (fun p => foldM f l p)); auto.
Qed.

Lemma in_list_sum ds n (v : nat -> R) (w : nat -> R) : forallb (fun j => j <? n)%nat ds = true ->
  rsum (length ds) (fun s => w s * v (nth s ds 0%nat)) =
  rsum n (fun b => rsum (length ds) (fun s => if (nth s ds 0 =? b)%nat then w s else 0) * v b).
Proof.
  intros H. transitivity (rsum (length ds) (fun s => rsum n (fun b => (if (nth s ds 0 =? b)%nat then w s else 0) * v b))).
  - apply rsum_ext. intros s Hs. rewrite forallb_forall in H. assert (Hn : (nth s ds 0 < n)%nat) by (apply Nat.ltb_lt, H, nth_In; auto).
    rewrite <- (rsum_pick n (nth s ds 0%nat) v Hn). rewrite <- rsum_scal. apply rsum_ext. intros b Hb. unfold identity. destruct (_ =? _)%nat; ring.
  - rewrite rsum_swap2. apply rsum_ext. intros b Hb. rewrite (Rmult_comm (rsum _ _)), <- rsum_scal. apply rsum_ext. intros s Hs. ring.
Qed.
Lemma last_index_bound a ds r : last_index a ds = Some r -> (r < length ds)%nat.
Proof.
  revert r. induction ds as [|x ds IH]; intros r; cbn; [discriminate|]. destruct (last_index a ds) as [k|].
  - intros E; inversion E; subst. specialize (IH _ eq_refl). lia.
  - destruct (a =? x)%nat; intros E; inversion E; lia.
Qed.
Lemma linear_dofs n t ds : linear n (transform_dofs t ds).
Proof.
  unfold transform_dofs. destruct (forallb (fun j => j <? n)%nat ds) eqn:Eb.
  2:{ right. exists IndexError. intros phi Hn. rewrite Hn, Eb. reflexivity. }
  destruct (Nat.eqb_spec (length ds) (fst t)) as [El|El].
  2:{ right. exists ValueError. intros phi Hn. rewrite Hn, Eb. cbn [negb]. reflexivity. }
  left. exists (fun a b => match last_index a ds with
    | Some r => rsum (length ds) (fun s => if (nth s ds 0 =? b)%nat then snd t r s else 0)
    | None => identity a b end).
  intros phi Hn. rewrite Hn, Eb. cbn [negb]. eexists. split; [reflexivity|]. split; [unfold shaped; cbn; auto|].
  intros k i a c Ha. cbn [tb_val]. rewrite <- El. destruct (last_index a ds) as [r|].
  - apply (in_list_sum ds n (fun b => tb_val phi k i b c) (fun s => snd t r s) Eb).
  - rewrite rsum_pick; auto.
Qed.
Lemma linear_bind {A} n (r : res A) (f : A -> table -> res table) : (forall x, linear n (f x)) -> linear n (fun phi => do x <- r; f x phi).
Proof. intros H. destruct r as [x|e]; cbn [bind]; [apply H|apply linear_err]. Qed.
Lemma linear_edges n g q : linear n (transform_edges g q).
Proof.
  unfold transform_edges. apply linear_fold. intros [i [|]]; cbn [fst snd]; [apply linear_id|]. apply (linear_bind n (entity_dofs g 1 i) (fun ds phi => transform_dofs (gen_interval g) ds phi)). intros; apply linear_dofs.
Qed.
Lemma linear_faces n g q : linear n (transform_faces g q).
Proof.
  unfold transform_faces. apply linear_fold. intros [i [[[|] r] s]]; cbn [fst snd]; [apply linear_id|].
  apply (linear_bind n (entity_dofs g 2 i) (fun ds phi => transform_dofs (face_matrix g r s) ds phi)). intros; apply linear_dofs.
Qed.
Lemma linear_permute n cs c g bc : linear n (permute_table cs c g bc).
Proof.
  unfold permute_table. destruct (c_dim c =? 2)%nat; [|destruct (c_dim c =? 3)%nat; [|apply linear_id]]; (destruct (gen_identity g); [apply linear_id|]).
  - apply (linear_bind n (edge_orientation_2d cs c) (fun q phi => transform_edges g q phi)). intros; apply linear_edges.
  - apply (linear_bind n (face_orientation_3d (c_nodes c) bc) (fun qf phi => do phi1 <- transform_faces g qf phi; do qe <- edge_orientation_3d cs c; transform_edges g qe phi1)).
    intros qf. apply (linear_seq n (transform_faces g qf) (fun phi1 => do qe <- edge_orientation_3d cs c; transform_edges g qe phi1)); [apply linear_faces|].
    apply (linear_bind n (edge_orientation_3d cs c) (fun qe phi => transform_edges g qe phi)). intros; apply linear_edges.
Qed.

Lemma one_matrix_lemma cs el d n vs phi : c_dim (el_cell el) = d -> (2 <= d <= 3)%nat -> tabulates (el_generator el) d n vs phi ->
  (gen_map (el_generator el) = MIdentity -> vs = 1%nat) -> (gen_map (el_generator el) <> MIdentity -> vs = d) ->
  exists T : matrix, forall points mp t, Forall (fun p => length p = d) points -> evaluate_basis cs el points mp = Ok t ->
    forall k p a, nth_error points k = Some p -> (a < n)%nat ->
      (forall r, (r < tb_vs t)%nat -> tb_val t 0 k a r =
         rsum n (fun b => T a b * moved_value (gen_map (el_generator el)) d (nth k (mp_jac mp) no_matrix) (nth k (mp_inv mp) no_matrix) (nth k (mp_det mp) 0) phi b p r)) /\
      (forall q r, (1 <= q <= d)%nat -> (r < vs)%nat -> tb_val t q k a r = rsum n (fun b => T a b * phi q b r p)) /\
      (forall q r, (1 <= q <= d)%nat -> (vs <= r < tb_vs t)%nat -> tb_val t q k a r = 0).
Proof.
  intros Hd Rd Tb V1 V3.
  destruct (linear_permute n cs (el_cell el) (el_generator el) (el_bc_entities el)) as [[T HT]|[e He]].
  - exists T. intros points mp t Fp Ev k p a Hp Ha. destruct (gen_map (el_generator el)) eqn:Gm.
    + specialize (V1 eq_refl). subst vs. destruct (stage_scalar cs el points mp d n 1 phi Hd Rd Gm Tb Fp) as (t0 & St & T1 & T2 & T3 & T4 & Tv).
      unfold staged in St. destruct (HT t0 T3) as (t' & E & (S1 & S2 & S3 & S4) & V). assert (t' = t) by congruence. subst t'. split; [|split].
      * intros r Hr. rewrite V by auto. apply rsum_ext. intros b Hb. unfold moved_value. rewrite (Tv 0%nat k p) by (auto; lia). reflexivity.
      * intros q r Hq Hr. rewrite V by auto. apply rsum_ext. intros b Hb. rewrite (Tv q k p) by (auto; lia). reflexivity.
      * intros q r Hq Hr. lia.
    + specialize (V3 ltac:(discriminate)). subst vs. destruct (stage_vector cs el points mp d n phi Hd Rd ltac:(rewrite Gm; discriminate) Tb Fp) as (t0 & St & T1 & T2 & T3 & T4 & Tv & Td).
      rewrite Gm in Tv. unfold staged in St. destruct (HT t0 T3) as (t' & E & (S1 & S2 & S3 & S4) & V). assert (t' = t) by congruence. subst t'. split; [|split].
      * intros r Hr. rewrite V by auto. apply rsum_ext. intros b Hb. unfold moved_value. rewrite (Tv k p) by (auto; lia). unfold Rdiv. ring.
      * intros q r Hq Hr. rewrite V by auto. apply rsum_ext. intros b Hb. rewrite (Td q k p) by (auto; lia). destruct (Nat.ltb_spec r d); [reflexivity|lia].
      * intros q r Hq Hr. rewrite V by auto. transitivity (rsum n (fun _ => 0 * 0)); [|rewrite rsum_scal; ring]. apply rsum_ext. intros b Hb.
        rewrite (Td q k p) by (auto; lia). destruct (Nat.ltb_spec r d); [lia|ring].
    + specialize (V3 ltac:(discriminate)). subst vs. destruct (stage_vector cs el points mp d n phi Hd Rd ltac:(rewrite Gm; discriminate) Tb Fp) as (t0 & St & T1 & T2 & T3 & T4 & Tv & Td).
      rewrite Gm in Tv. unfold staged in St. destruct (HT t0 T3) as (t' & E & (S1 & S2 & S3 & S4) & V). assert (t' = t) by congruence. subst t'. split; [|split].
      * intros r Hr. rewrite V by auto. apply rsum_ext. intros b Hb. unfold moved_value. rewrite (Tv k p) by (auto; lia). reflexivity.
      * intros q r Hq Hr. rewrite V by auto. apply rsum_ext. intros b Hb. rewrite (Td q k p) by (auto; lia). destruct (Nat.ltb_spec r d); [reflexivity|lia].
      * intros q r Hq Hr. rewrite V by auto. transitivity (rsum n (fun _ => 0 * 0)); [|rewrite rsum_scal; ring]. apply rsum_ext. intros b Hb.
        rewrite (Td q k p) by (auto; lia). destruct (Nat.ltb_spec r d); [lia|ring].
  - exists no_matrix. intros points mp t Fp Ev. exfalso.
    assert (Q : exists t0, staged cs el points mp t0 /\ tb_dof t0 = n).
    { destruct (gen_map (el_generator el)) eqn:Gm.
      - specialize (V1 eq_refl). subst vs. destruct (stage_scalar cs el points mp d n 1 phi Hd Rd Gm Tb Fp) as (t0 & St & _ & _ & T3 & _). eauto.
      - specialize (V3 ltac:(discriminate)). subst vs. destruct (stage_vector cs el points mp d n phi Hd Rd ltac:(rewrite Gm; discriminate) Tb Fp) as (t0 & St & _ & _ & T3 & _). eauto.
      - specialize (V3 ltac:(discriminate)). subst vs. destruct (stage_vector cs el points mp d n phi Hd Rd ltac:(rewrite Gm; discriminate) Tb Fp) as (t0 & St & _ & _ & T3 & _). eauto. }
    destruct Q as (t0 & St & T3). unfold staged in St. rewrite St, He in Ev by auto. discriminate.
Qed.
