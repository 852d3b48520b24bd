(** * Lemmas: tables under permute_and_transform *)
From Coq Require Import List Arith ZArith Bool Reals Lra Lia Permutation FunctionalExtensionality.
From Verif Require Import Base BaseProof MeshModel MeshSpec OrientModel OrientSpec OrientProof VecBase VecProof MapModel MapSpec MapProof JacProof ElementModel ElementSpec.
Import ListNotations.
Local Open Scope R_scope.

(** One linear functional of the rows of some functions *)
Definition row (w : nat -> R) (phi : table) (k i : nat) (ds : list nat) : nat -> R :=
  fun r => if (r <? length ds)%nat then rsum (tb_vs phi) (fun c => w c * tb_val phi k i (nth r ds 0%nat) c) else 0.
Definition act (n : nat) (t : matrix) (v : nat -> R) : nat -> R :=
  fun r => if (r <? n)%nat then rsum n (fun s => t r s * v s) else v r.

Lemma act_action n : action matrix (mmul n) identity (act n).
Proof.
  split.
  - intros x. apply functional_extensionality. intros r. unfold act. destruct (Nat.ltb_spec r n); auto.
    unfold identity. apply (rsum_delta n r x H).
  - intros a b x. apply functional_extensionality. intros r. unfold act at 1 2. destruct (Nat.ltb_spec r n) as [H|H].
    2:{ unfold act. destruct (Nat.ltb_spec r n); auto. lia. }
    unfold mmul.
    transitivity (rsum n (fun s => rsum n (fun k => a r k * (b k s * x s)))).
    { apply rsum_ext. intros s Hs. rewrite Rmult_comm, <- rsum_scal. apply rsum_ext. intros k Hk. ring. }
    rewrite rsum_swap. apply rsum_ext. intros k Hk. unfold act. destruct (Nat.ltb_spec k n); [|lia]. apply rsum_scal.
Qed.
Lemma act_identity n t : (forall r s, (r < n)%nat -> (s < n)%nat -> t r s = if (r =? s)%nat then 1 else 0) -> forall v, act n t v = v.
Proof.
  intros H v. rewrite <- (proj1 (act_action n) v) at 2. apply functional_extensionality. intros r. unfold act.
  destruct (Nat.ltb_spec r n); auto. apply rsum_ext. intros s Hs. rewrite H; auto.
Qed.

Lemma last_index_none a l : ~ In a l -> last_index a l = None.
Proof.
  induction l as [|x l IH]; intros H; simpl; auto. rewrite IH by (intros Q; apply H; right; auto).
  destruct (Nat.eqb_spec a x); auto. exfalso. apply H. left. auto.
Qed.
Lemma last_index_nth l : NoDup l -> forall r, (r < length l)%nat -> last_index (nth r l 0%nat) l = Some r.
Proof.
  induction l as [|x l IH]; intros N r Hr; simpl in *; [lia|]. apply NoDup_cons_iff in N as [Nx N]. destruct r as [|r].
  - rewrite last_index_none; auto. rewrite Nat.eqb_refl. auto.
  - rewrite IH; auto. lia.
Qed.

Definition shaped (phi phi' : table) : Prop :=
  tb_der phi' = tb_der phi /\ tb_pts phi' = tb_pts phi /\ tb_dof phi' = tb_dof phi /\ tb_vs phi' = tb_vs phi.
Lemma shaped_refl phi : shaped phi phi.
Proof. repeat split. Qed.
Lemma shaped_trans a b c : shaped a b -> shaped b c -> shaped a c.
Proof. unfold shaped. intuition congruence. Qed.

Lemma transform_dofs_lemma m t ds phi : length ds = m -> NoDup ds -> (forall a, In a ds -> (a < tb_dof phi)%nat) ->
  exists phi', transform_dofs (m, t) ds phi = Ok phi' /\ shaped phi phi' /\
    (forall w k i, row w phi' k i ds = act m t (row w phi k i ds)) /\
    (forall k i a c, ~ In a ds -> tb_val phi' k i a c = tb_val phi k i a c).
Proof.
  intros L N H. unfold transform_dofs. cbn [fst snd].
  replace (forallb _ ds) with true.
  2:{ symmetry. apply forallb_forall. intros a Ha. apply Nat.ltb_lt. auto. }
  cbn [negb]. rewrite L, Nat.eqb_refl. cbn [negb]. eexists. split; [reflexivity|]. split; [repeat split|]. split.
  - intros w k i. apply functional_extensionality. intros r. unfold row, act. cbn [tb_vs tb_val]. rewrite L.
    destruct (Nat.ltb_spec r m); auto. rewrite (last_index_nth ds N r) by lia.
    transitivity (rsum (tb_vs phi) (fun c => rsum m (fun s => t r s * (w c * tb_val phi k i (nth s ds 0%nat) c)))).
    { apply rsum_ext. intros c Hc. rewrite <- rsum_scal. apply rsum_ext. intros s Hs. ring. }
    rewrite rsum_swap. apply rsum_ext. intros s Hs. destruct (Nat.ltb_spec s m); [|lia]. apply rsum_scal.
  - intros k i a c Ha. cbn [tb_val]. rewrite last_index_none; auto.
Qed.
Lemma row_unchanged phi phi' w k i ds : tb_vs phi' = tb_vs phi ->
  (forall a c, In a ds -> tb_val phi' k i a c = tb_val phi k i a c) -> row w phi' k i ds = row w phi k i ds.
Proof.
  intros V H. apply functional_extensionality. intros r. unfold row. rewrite V. destruct (Nat.ltb_spec r (length ds)); auto.
  apply rsum_ext. intros c Hc. rewrite H; auto. apply nth_In. auto.
Qed.

(** The loops over the edges or faces *)
Definition entity_step {B} (D : list (list nat)) (m : nat) (f : B -> option matrix) (phi : table) (iq : nat * B) : res table :=
  match f (snd iq) with
  | None => Ok phi
  | Some t => do ds <- get_at D (fst iq); transform_dofs (m, t) ds phi
  end.
Definition moved_row (m : nat) (o : option matrix) (v : nat -> R) : nat -> R := match o with None => v | Some t => act m t v end.
Lemma loop_lemma {B} (D : list (list nat)) (m n : nat) (f : B -> option matrix) :
  (forall i ds, nth_error D i = Some ds -> length ds = m /\ NoDup ds /\ forall a, In a ds -> (a < n)%nat) ->
  (forall i j a, In a (nth i D []) -> In a (nth j D []) -> i = j) ->
  forall q s phi, (s + length q <= length D)%nat -> tb_dof phi = n ->
  exists phi', foldM (entity_step D m f) (combine (seq s (length q)) q) phi = Ok phi' /\ shaped phi phi' /\
    (forall j b, nth_error q j = Some b -> forall w k i, row w phi' k i (nth (s + j) D []) = moved_row m (f b) (row w phi k i (nth (s + j) D []))) /\
    (forall a, (forall j, (j < length q)%nat -> ~ In a (nth (s + j) D [])) -> forall k i c, tb_val phi' k i a c = tb_val phi k i a c).
Proof.
  intros HD Dj q. induction q as [|b q IH]; intros s phi Hs Hn; simpl.
  - exists phi. split; auto. split; [apply shaped_refl|]. split; auto. intros [|j]; discriminate.
  - simpl in Hs. assert (E : exists ds, nth_error D s = Some ds /\ nth s D [] = ds).
    { destruct (nth_error D s) as [ds|] eqn:E; [|apply nth_error_None in E; lia]. exists ds. split; auto. apply nth_error_nth. auto. }
    destruct E as (ds & Ed & Ed').
    destruct (HD s ds Ed) as (L & N & R).
    assert (S : exists phi1, entity_step D m f phi (s, b) = Ok phi1 /\ shaped phi phi1 /\
      (forall w k i, row w phi1 k i ds = moved_row m (f b) (row w phi k i ds)) /\
      (forall k i a c, ~ In a ds -> tb_val phi1 k i a c = tb_val phi k i a c)).
    { unfold entity_step. cbn [fst snd]. destruct (f b) as [t|].
      - unfold get_at. rewrite Ed. cbn [bind]. destruct (transform_dofs_lemma m t ds phi L N) as (phi1 & E1 & S1 & R1 & U1).
        { intros a Ha. rewrite Hn. auto. }
        exists phi1. auto.
      - exists phi. split; auto. split; [apply shaped_refl|]. split; auto. }
    destruct S as (phi1 & E1 & S1 & R1 & U1). rewrite E1. cbn [bind].
    destruct (IH (S s) phi1) as (phi2 & E2 & S2 & R2 & U2); [lia|destruct S1 as (_ & _ & -> & _); auto|].
    exists phi2. split; auto. split; [eapply shaped_trans; eauto|]. split.
    + intros j b' Hb w k i. destruct j as [|j].
      * simpl in Hb. injection Hb as <-. rewrite Nat.add_0_r, Ed'. rewrite <- R1. apply row_unchanged; [apply S2|].
        intros a c Ha. apply U2. intros j Hj Q. rewrite <- Ed' in Ha. pose proof (Dj _ _ _ Ha Q). lia.
      * simpl in Hb. replace (s + S j)%nat with (S s + j)%nat by lia. rewrite (R2 j b' Hb). f_equal. apply row_unchanged; [apply S1|].
        intros a c Ha. apply U1. intros Q. rewrite <- Ed' in Q. pose proof (Dj _ _ _ Ha Q). lia.
    + intros a Ha k i c. rewrite U2, U1; auto.
      * intros Q. apply (Ha 0%nat); [lia|]. rewrite Nat.add_0_r, Ed'. auto.
      * intros j Hj. replace (S s + j)%nat with (s + S j)%nat by lia. apply Ha. lia.
Qed.
Lemma foldM_ext {A S} (f g : S -> A -> res S) l : (forall s x, f s x = g s x) -> forall s, foldM f l s = foldM g l s.
Proof. intros H. induction l; intros s; simpl; auto. rewrite H. destruct (g s a); simpl; auto. Qed.

Section Loops.
  Variable g : generator.
  Variables n : nat.
  Hypothesis Once : owned_once g.

  Lemma laid_list d count m : laid_out g n d count m -> exists D, nth_error (gen_entity_dofs g) d = Some D /\ length D = count /\
    (forall i, nth i D [] = dofs g d i) /\
    (forall i ds, nth_error D i = Some ds -> length ds = m /\ NoDup ds /\ forall a, In a ds -> (a < n)%nat) /\
    (forall i j a, In a (nth i D []) -> In a (nth j D []) -> i = j).
  Proof.
    intros [(D & E & L) H]. exists D. assert (Q : forall i, nth i D [] = dofs g d i).
    { intros i. unfold dofs. erewrite (nth_error_nth (gen_entity_dofs g)); eauto. }
    split; auto. split; auto. split; auto. split.
    - intros i ds Hi. pose proof (proj1 (nth_error_Some D i) ltac:(congruence)). rewrite <- (nth_error_nth _ _ [] Hi), Q. apply H. lia.
    - intros i j a. rewrite !Q. intros Hi Hj. eapply Once; eauto.
  Qed.
  Lemma transform_edges_lemma count m (q : list bool) phi : laid_out g n 1 count m -> length q = count -> fst (gen_interval g) = m -> tb_dof phi = n ->
    exists phi', transform_edges g q phi = Ok phi' /\ shaped phi phi' /\
    (forall j b, nth_error q j = Some b -> forall w k i, row w phi' k i (dofs g 1 j) =
       transform_edge matrix (nat -> R) (act m) (snd (gen_interval g)) b (row w phi k i (dofs g 1 j))) /\
    (forall a, (forall j, (j < count)%nat -> ~ In a (dofs g 1 j)) -> forall k i c, tb_val phi' k i a c = tb_val phi k i a c).
  Proof.
    intros Lo Lq Hm Hn. destruct (laid_list _ _ _ Lo) as (D & E & L & Q & HD & Dj).
    destruct (loop_lemma D m n (fun b : bool => if b then None else Some (snd (gen_interval g))) HD Dj q 0 phi) as (phi' & E' & S & R & U); [lia|auto|].
    exists phi'. split.
    { rewrite <- E'. unfold transform_edges, enumerate. apply foldM_ext. intros s [i b]. unfold entity_step. cbn [fst snd]. destruct b; auto.
      unfold entity_dofs, get_at at 1. rewrite E. cbn [bind]. rewrite <- Hm. destruct (gen_interval g). reflexivity. }
    split; auto. split.
    - intros j b Hb w k i. specialize (R j b Hb w k i). simpl in R. rewrite Q in R. rewrite R. destruct b; reflexivity.
    - intros a Ha. apply U. intros j Hj. simpl. rewrite Q. apply Ha. lia.
  Qed.
  Lemma transform_faces_lemma count m (q : list (bool * nat * nat)) phi : laid_out g n 2 count m -> length q = count -> fst (gen_triangle g) = m -> tb_dof phi = n ->
    exists phi', transform_faces g q phi = Ok phi' /\ shaped phi phi' /\
    (forall j o, nth_error q j = Some o -> forall w k i, row w phi' k i (dofs g 2 j) =
       transform_face matrix (nat -> R) (mmul m) identity (act m) (fst (snd (gen_triangle g))) (snd (snd (gen_triangle g))) o (row w phi k i (dofs g 2 j))) /\
    (forall a, (forall j, (j < count)%nat -> ~ In a (dofs g 2 j)) -> forall k i c, tb_val phi' k i a c = tb_val phi k i a c).
  Proof.
    intros Lo Lq Hm Hn. destruct (laid_list _ _ _ Lo) as (D & E & L & Q & HD & Dj).
    destruct (loop_lemma D m n (fun o : bool * nat * nat => let '(b, r, s) := o in if b then None else Some (snd (face_matrix g r s))) HD Dj q 0 phi)
      as (phi' & E' & S & R & U); [lia|auto|].
    exists phi'. split.
    { rewrite <- E'. unfold transform_faces, enumerate. apply foldM_ext. intros s [i [[b r] t]]. unfold entity_step. cbn [fst snd]. destruct b; auto.
      unfold entity_dofs, get_at at 1. rewrite E. cbn [bind]. unfold face_matrix. cbn [fst snd]. rewrite Hm. reflexivity. }
    split; auto. split.
    - intros j o Ho w k i. specialize (R j o Ho w k i). simpl in R. rewrite Q in R. rewrite R. destruct o as [[b r] s]. destruct b; [reflexivity|].
      unfold transform_face, moved_row, face_matrix. cbn [fst snd]. rewrite Hm. reflexivity.
    - intros a Ha. apply U. intros j Hj. simpl. rewrite Q. apply Ha. lia.
  Qed.
End Loops.
