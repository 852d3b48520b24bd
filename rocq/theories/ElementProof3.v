(** * Lemmas: the mapping and the values before the permutation *)
From Coq Require Import List Arith ZArith Bool Reals Lra Lia Permutation FunctionalExtensionality.
From Verif Require Import Base BaseProof MeshModel MeshSpec OrientModel OrientSpec OrientProof VecBase VecProof MapModel MapSpec MapProof JacProof ElementModel ElementSpec ElementProof ElementProof2.
Import ListNotations.
Local Open Scope R_scope.

Lemma located_nodes X c pos : located X c pos -> mapM (get_at X) (c_nodes c) = Ok (map pos (c_nodes c)).
Proof.
  unfold located. generalize (c_nodes c) as l. induction l as [|x l IH]; intros H; simpl; auto.
  unfold get_at at 1. rewrite (H x (or_introl eq_refl)). cbn [bind]. rewrite IH by (intros y Hy; apply H; right; auto). reflexivity.
Qed.
Lemma frame_columns pos nodes d : length nodes = (d + 1)%nat -> (1 <= d <= 3)%nat -> jac_columns d (map pos nodes) = frame pos nodes.
Proof.
  intros L Hd. destruct nodes as [|x0 l]; simpl in L; [lia|]. simpl map. rewrite jac_columns_lemma; [|rewrite map_length; lia|auto].
  rewrite map_map. reflexivity.
Qed.
Lemma frame_length pos nodes d : length nodes = (d + 1)%nat -> length (frame pos nodes) = d.
Proof. intros L. destruct nodes; simpl in *; [lia|]. rewrite map_length. lia. Qed.

(** The mapping of a cell: the same Jacobian at all points *)
Definition mapped_at (pos : nat -> vec) (d : nat) (nodes : list nat) (m : mapping) (i : nat) (p : list R) : Prop :=
  nth_error (mp_x m) i = Some (map_x d (map pos nodes) p) /\
  nth_error (mp_jac m) i = Some (of_columns (frame pos nodes)) /\
  nth_error (mp_det m) i = Some (measure (frame pos nodes)) /\
  exists K, nth_error (mp_inv m) i = Some K /\
    forall a b, (a < d)%nat -> (b < d)%nat -> mmul 3 K (of_columns (frame pos nodes)) a b = if (a =? b)%nat then 1 else 0.
Lemma mapping_lemma qr inv X c pos d points : is_inverse inv -> located X c pos -> c_dim c = d -> (1 <= d <= 3)%nat -> length (c_nodes c) = (d + 1)%nat ->
  nondegenerate qr pos d (c_nodes c) -> points <> [] -> Forall (fun p => length p = d) points ->
  exists m, element_mapping qr inv X c points = Ok m /\ length (mp_det m) = length points /\ length (mp_jac m) = length points /\
    forall i p, nth_error points i = Some p -> mapped_at pos d (c_nodes c) m i p.
Proof.
  intros Hi Lo Hd Hr Ln [Nz Fa] Ne Fp. unfold element_mapping. rewrite (located_nodes _ _ _ Lo). cbn [bind]. rewrite Hd.
  assert (Q : forallb (fun p : list R => (length p =? d)%nat) points = true).
  { apply forallb_forall. intros p Hp. apply Nat.eqb_eq. rewrite Forall_forall in Fp. auto. }
  assert (Ld : length (map pos (c_nodes c)) = (d + 1)%nat) by (rewrite map_length; auto).
  destruct d as [|d']; [lia|]. rewrite Q. cbn [negb]. rewrite Ld, Nat.eqb_refl. cbn [negb]. destruct points as [|p0 ps]; [congruence|].
  rewrite frame_columns by auto. eexists. split; [reflexivity|]. cbn [mp_det mp_jac]. rewrite !map_length. split; auto. split; auto.
  intros i p Hp. unfold mapped_at. cbn [mp_x mp_jac mp_det mp_inv]. rewrite !nth_error_map, Hp. cbn [option_map].
  pose proof (frame_length pos (c_nodes c) (S d') Ln) as Lf.
  pose proof (jacobian_lemma qr inv (frame pos (c_nodes c))) as J. rewrite Lf in J. destruct (J Fa Hi Hr Nz) as (J1 & J2 & J3).
  split; auto. split; auto. split; [rewrite J1; auto|]. eexists. split; [reflexivity|]. exact J3.
Qed.

Lemma nth_of_error {A} (l : list A) i x d : nth_error l i = Some x -> nth i l d = x.
Proof. apply nth_error_nth. Qed.

Lemma vector_family_ok f : vector_family f = Ok (match f with FP => false | _ => true end).
Proof. destruct f; reflexivity. Qed.

(** The stages of evaluate_basis in dimensions 2 and 3 *)
Definition staged (cs : cells) (el : element) (points : list (list R)) (m : mapping) (t : table) : Prop :=
  evaluate_basis cs el points m = permute_table cs (el_cell el) (el_generator el) (el_bc_entities el) t.
Lemma stage_vector cs el points m d n phi : c_dim (el_cell el) = d -> (2 <= d <= 3)%nat -> gen_map (el_generator el) <> MIdentity ->
  tabulates (el_generator el) d n d phi -> Forall (fun p => length p = d) points ->
  exists t, staged cs el points m t /\ tb_der t = (d + 1)%nat /\ tb_pts t = length points /\ tb_dof t = n /\ tb_vs t = 3%nat /\
    (forall i p a r, nth_error points i = Some p -> (a < n)%nat -> (r < 3)%nat -> tb_val t 0 i a r =
       match gen_map (el_generator el) with
       | MContravariant => / nth i (mp_det m) 0 * rsum d (fun c => nth i (mp_jac m) no_matrix r c * phi 0%nat a c p)
       | _ => rsum d (fun c => nth i (mp_inv m) no_matrix c r * phi 0%nat a c p)
       end) /\
    (forall k i p a c, (1 <= k <= d)%nat -> nth_error points i = Some p -> (a < n)%nat -> (c < 3)%nat -> tb_val t k i a c = if (c <? d)%nat then phi k a c p else 0).
Proof.
  intros Hd Rd Hm Tb Fp. destruct (Tb points Fp) as (t & Et & T1 & T2 & T3 & T4 & V).
  unfold staged, evaluate_basis. rewrite Hd.
  replace (d =? 0)%nat with false by (symmetry; apply Nat.eqb_neq; lia). rewrite Et. cbn [bind]. rewrite vector_family_ok. cbn [bind].
  replace (d =? 1)%nat with false by (symmetry; apply Nat.eqb_neq; lia). cbn [andb].
  set (mapped := push_forward _ _ _ _).
  assert (Mp : sl_pts mapped = length points /\ sl_dof mapped = n /\ sl_vs mapped = 3%nat).
  { unfold mapped, push_forward. destruct (gen_map _); try congruence; cbn; auto. }
  destruct Mp as (M1 & M2 & M3).
  assert (W : forall i p a r, nth_error points i = Some p -> (a < n)%nat -> (r < 3)%nat -> sl_val mapped i a r =
       match gen_map (el_generator el) with
       | MContravariant => / nth i (mp_det m) 0 * rsum d (fun c => nth i (mp_jac m) no_matrix r c * phi 0%nat a c p)
       | _ => rsum d (fun c => nth i (mp_inv m) no_matrix c r * phi 0%nat a c p)
       end).
  { intros i p a r Hp Ha Hr. unfold mapped, push_forward. destruct (gen_map _); try congruence; cbn [sl_val first_slice].
    - f_equal. apply rsum_ext. intros c Hc. rewrite (V 0%nat i p a c); auto. lia.
    - apply rsum_ext. intros c Hc. rewrite (V 0%nat i p a c); auto. lia. }
  unfold store_mapped, same_shape. rewrite T2, T3, T4, M1, M2, M3, !Nat.eqb_refl. cbn [andb].
  destruct (Nat.eqb_spec d 3) as [D3|D3].
  - cbn [bind]. eexists. split; [reflexivity|]. cbn [tb_der tb_pts tb_dof tb_vs tb_val set_first]. rewrite T1, T2, T3, T4. repeat split; auto.
    intros k i p a c Hk Hp Ha Hc. destruct k; [lia|]. cbn [Nat.eqb]. replace (c <? d)%nat with true by (symmetry; apply Nat.ltb_lt; lia). apply V; auto; lia.
  - assert (d = 2)%nat by lia. unfold insert_component. rewrite T4. replace (d <? 2)%nat with false by (symmetry; apply Nat.ltb_ge; lia).
    cbn [bind tb_pts tb_dof tb_vs]. rewrite ?T2, ?T3, !Nat.eqb_refl. replace (d + 1 =? 3)%nat with true by (symmetry; apply Nat.eqb_eq; lia). cbn [andb bind].
    eexists. split; [reflexivity|]. cbn [tb_der tb_pts tb_dof tb_vs tb_val set_first]. rewrite ?T1, ?T2, ?T3. split; auto. split; auto. split; auto. split; [lia|]. split; auto.
    intros k i p a c Hk Hp Ha Hc. destruct k; [lia|]. cbn [Nat.eqb]. rewrite H at 1. destruct (c <? 2)%nat eqn:Q; [apply Nat.ltb_lt in Q; apply V; auto; lia|].
    apply Nat.ltb_ge in Q. replace (c =? 2)%nat with true by (symmetry; apply Nat.eqb_eq; lia). auto.
Qed.
Lemma stage_scalar cs el points m d n vs phi : c_dim (el_cell el) = d -> (2 <= d <= 3)%nat -> gen_map (el_generator el) = MIdentity ->
  tabulates (el_generator el) d n vs phi -> Forall (fun p => length p = d) points ->
  exists t, staged cs el points m t /\ tb_der t = (d + 1)%nat /\ tb_pts t = length points /\ tb_dof t = n /\ tb_vs t = vs /\
    (forall k i p a c, (k <= d)%nat -> nth_error points i = Some p -> (a < n)%nat -> (c < vs)%nat -> tb_val t k i a c = phi k a c p).
Proof.
  intros Hd Rd Hm Tb Fp. destruct (Tb points Fp) as (t & Et & T1 & T2 & T3 & T4 & V).
  unfold staged, evaluate_basis. rewrite Hd.
  replace (d =? 0)%nat with false by (symmetry; apply Nat.eqb_neq; lia). rewrite Et. cbn [bind]. rewrite vector_family_ok. cbn [bind].
  replace (d =? 1)%nat with false by (symmetry; apply Nat.eqb_neq; lia). cbn [andb].
  rewrite Hm. unfold push_forward, store_mapped, same_shape, first_slice. cbn [sl_pts sl_dof sl_vs]. rewrite !Nat.eqb_refl. cbn [andb bind].
  eexists. split; [reflexivity|]. cbn. repeat split; auto. intros k i p a c Hk Hp Ha Hc. destruct k; cbn; apply V; auto; lia.
Qed.

(** Rows as dot products *)
Lemma row_dot u t i ds r : tb_vs t = 3%nat -> (r < length ds)%nat -> row (coordinate u) t 0 i ds r = dot (value_at t i (nth r ds 0%nat)) u.
Proof.
  intros V H. unfold row. rewrite V. destruct (Nat.ltb_spec r (length ds)); [|lia]. unfold dot, value_at. simpl. ring.
Qed.

(** Signs of permutations *)
Definition sg (x y : nat) : R := if (x <? y)%nat then 1 else if (y <? x)%nat then -1 else 0.
Definition osign (f : list nat) : R :=
  match f with [x; y; z] => sg x y * sg x z * sg y z | [x; y] => sg x y | _ => 1 end.
Lemma sg_flip x y : sg y x = - sg x y.
Proof. unfold sg. destruct (Nat.ltb_spec x y), (Nat.ltb_spec y x); try lia; lra. Qed.
Lemma sg_lt x y : (x < y)%nat -> sg x y = 1.
Proof. unfold sg. intros H. apply Nat.ltb_lt in H. rewrite H. auto. Qed.
Lemma perm3 (f : list nat) a b c : Permutation f [a; b; c] ->
  f = [a; b; c] \/ f = [a; c; b] \/ f = [b; a; c] \/ f = [b; c; a] \/ f = [c; a; b] \/ f = [c; b; a].
Proof.
  intros P. pose proof (Permutation_length P) as L. destruct (list3 f L) as (x & y & z & ->).
  assert (In x [a; b; c]) by (rewrite <- P; simpl; auto). simpl in H. symmetry in P. destruct H as [<-|[<-|[<-|[]]]].
  - apply Permutation_cons_inv in P. apply Permutation_length_2_inv in P as [Q|Q]; inversion Q; subst; auto.
  - rewrite perm_swap in P. apply Permutation_cons_inv in P. apply Permutation_length_2_inv in P as [Q|Q]; inversion Q; subst; auto 6.
  - assert (P' : Permutation [c; a; b] [c; y; z]) by (rewrite <- P; change [a; b; c] with ([a; b] ++ [c]); change [c; a; b] with ([c] ++ [a; b]); apply Permutation_app_comm). apply Permutation_cons_inv in P'. apply Permutation_length_2_inv in P' as [Q|Q]; inversion Q; subst; auto 8.
Qed.
Lemma area_sign pos f a b c : (a < b < c)%nat -> Permutation f [a; b; c] -> area pos f = vscale (osign f) (area pos [a; b; c]) /\ osign f * osign f = 1 /\ (even f = true <-> osign f = 1).
Proof.
  intros [H1 H2] P. pose proof (sg_lt a b H1) as S1. pose proof (sg_lt b c H2) as S2. assert (H3 : (a < c)%nat) by lia. pose proof (sg_lt a c H3) as S3.
  destruct (perm3 f a b c P) as [->|[->|[->|[->|[->| ->]]]]]; unfold osign; rewrite ?(sg_flip a b), ?(sg_flip b c), ?(sg_flip a c), S1, S2, S3;
  (split; [apply vec_ext; simpl; ring|]); (split; [ring|]); simpl;
  repeat match goal with |- context [(?x <? ?y)%nat] => destruct (Nat.ltb_spec x y); try lia end; simpl; split; intros Q; try reflexivity; try lra; try discriminate.
Qed.
