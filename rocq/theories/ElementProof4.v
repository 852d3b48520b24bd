(** * Lemmas: normal and tangential components of the basis *)
From Coq Require Import List Arith ZArith Bool Reals Lra Lia Permutation FunctionalExtensionality.
From Verif Require Import Base BaseProof MeshModel MeshSpec OrientModel OrientSpec OrientProof VecBase VecProof MapModel MapSpec MapProof JacProof ElementModel ElementSpec ElementProof ElementProof2 ElementProof3.
Import ListNotations.
Local Open Scope R_scope.

Lemma sign_over_abs t : t <> 0 -> / Rabs t * t = sign t.
Proof.
  intros H. unfold sign. destruct (Rlt_dec 0 t).
  - rewrite Rabs_right by lra. field. auto.
  - destruct (Rlt_dec t 0); [|lra]. rewrite Rabs_left by auto. field. auto.
Qed.
Lemma in_nth_dof (a : nat) l : In a l -> exists r, (r < length l)%nat /\ nth r l 0%nat = a.
Proof. intros H. destruct (In_nth l a 0%nat H) as (r & H1 & H2). eauto. Qed.
Lemma owner_dec (a : nat) (D : nat -> list nat) count : (exists j, (j < count)%nat /\ In a (D j)) \/ forall j, (j < count)%nat -> ~ In a (D j).
Proof.
  induction count as [|k IH]; [right; intros; lia|]. destruct IH as [(j & Hj & H)|H]; [left; exists j; split; auto; lia|].
  destruct (in_dec Nat.eq_dec a (D k)) as [Q|Q]; [left; exists k; split; auto; lia|].
  right. intros j Hj. destruct (Nat.eq_dec j k); [subst; auto|apply H; lia].
Qed.

Section Bases.
  Variable g : generator.
  Variables (m : nat) (e : R) (psi : nat -> list R -> R) (l : nat -> R) (s0 : R).
  (** The traces for all orders of the nodes, relative to the increasing one *)
  Definition trace_basis (signed : bool) (f : list nat) : nat -> R :=
    fun r => if (r <? m)%nat then s0 * ((if signed then osign f else 1) * psi r (map l f)) else 0.
  Lemma face_bases_signed : face_change g m (-1) psi -> face_bases matrix (nat -> R) (act m) (fst (snd (gen_triangle g))) (snd (snd (gen_triangle g))) (trace_basis true).
  Proof.
    intros (_ & _ & _ & H) f L. destruct (list3 f L) as (x & y & z & ->). split; apply functional_extensionality; intros r; unfold act, trace_basis;
    destruct (Nat.ltb_spec r m) as [Hr|Hr]; auto; destruct (H r (l x) (l y) (l z) Hr) as [H1 H2]; cbn [rotated reflected map].
    - transitivity (s0 * osign [y; z; x] * rsum m (fun s => fst (snd (gen_triangle g)) r s * psi s [l y; l z; l x])).
      { rewrite <- rsum_scal. apply rsum_ext. intros s Hs. destruct (Nat.ltb_spec s m); [|lia]. ring. }
      rewrite H1. unfold osign. rewrite (sg_flip x y), (sg_flip x z). ring.
    - transitivity (s0 * osign [x; z; y] * rsum m (fun s => snd (snd (gen_triangle g)) r s * psi s [l x; l z; l y])).
      { rewrite <- rsum_scal. apply rsum_ext. intros s Hs. destruct (Nat.ltb_spec s m); [|lia]. ring. }
      rewrite H2. unfold osign. rewrite (sg_flip y z). ring.
  Qed.
  Lemma face_bases_plain : face_change g m 1 psi -> face_bases matrix (nat -> R) (act m) (fst (snd (gen_triangle g))) (snd (snd (gen_triangle g))) (trace_basis false).
  Proof.
    intros (_ & _ & _ & H) f L. destruct (list3 f L) as (x & y & z & ->). split; apply functional_extensionality; intros r; unfold act, trace_basis;
    destruct (Nat.ltb_spec r m) as [Hr|Hr]; auto; destruct (H r (l x) (l y) (l z) Hr) as [H1 H2]; cbn [rotated reflected map].
    - transitivity (s0 * rsum m (fun s => fst (snd (gen_triangle g)) r s * psi s [l y; l z; l x])).
      { rewrite <- rsum_scal. apply rsum_ext. intros s Hs. destruct (Nat.ltb_spec s m); [|lia]. ring. }
      rewrite H1. ring.
    - transitivity (s0 * rsum m (fun s => snd (snd (gen_triangle g)) r s * psi s [l x; l z; l y])).
      { rewrite <- rsum_scal. apply rsum_ext. intros s Hs. destruct (Nat.ltb_spec s m); [|lia]. ring. }
      rewrite H2. ring.
  Qed.
  Lemma edge_bases_signed : edge_change g m (-1) psi -> edge_bases matrix (nat -> R) (act m) (snd (gen_interval g)) (trace_basis true).
  Proof.
    intros (_ & _ & H) f L. destruct (list2 f L) as (x & y & ->). apply functional_extensionality; intros r; unfold act, trace_basis.
    destruct (Nat.ltb_spec r m) as [Hr|Hr]; auto. cbn [swapped map].
    transitivity (s0 * osign [y; x] * rsum m (fun s => snd (gen_interval g) r s * psi s [l y; l x])).
    { rewrite <- rsum_scal. apply rsum_ext. intros s Hs. destruct (Nat.ltb_spec s m); [|lia]. ring. }
    rewrite (H r (l x) (l y) Hr). unfold osign. rewrite (sg_flip x y). ring.
  Qed.
  Lemma edge_bases_plain : edge_change g m 1 psi -> edge_bases matrix (nat -> R) (act m) (snd (gen_interval g)) (trace_basis false).
  Proof.
    intros (_ & _ & H) f L. destruct (list2 f L) as (x & y & ->). apply functional_extensionality; intros r; unfold act, trace_basis.
    destruct (Nat.ltb_spec r m) as [Hr|Hr]; auto. cbn [swapped map].
    transitivity (s0 * rsum m (fun s => snd (gen_interval g) r s * psi s [l y; l x])).
    { rewrite <- rsum_scal. apply rsum_ext. intros s Hs. destruct (Nat.ltb_spec s m); [|lia]. ring. }
    rewrite (H r (l x) (l y) Hr). ring.
  Qed.
End Bases.

Lemma bary_face n0 n1 n2 n3 p l i : barycentric [n0; n1; n2; n3] p l -> (i < 4)%nat ->
  map l (face_of [n0; n1; n2; n3] i) = map (fun k => nth k (linear_shapes p) 0) (face_of [0; 1; 2; 3]%nat i).
Proof.
  intros B Hi. pose proof (B 0%nat) as B0. pose proof (B 1%nat) as B1. pose proof (B 2%nat) as B2. pose proof (B 3%nat) as B3. simpl in B0, B1, B2, B3.
  destruct i as [|[|[|[|i]]]]; try lia; simpl; rewrite ?B0, ?B1, ?B2, ?B3; auto; lia.
Qed.
Lemma bary_edge3 n0 n1 n2 n3 p l i : barycentric [n0; n1; n2; n3] p l -> (i < 6)%nat ->
  map l (tetra_edge_of [n0; n1; n2; n3] i) = map (fun k => nth k (linear_shapes p) 0) (tetra_edge_of [0; 1; 2; 3]%nat i).
Proof.
  intros B Hi. pose proof (B 0%nat) as B0. pose proof (B 1%nat) as B1. pose proof (B 2%nat) as B2. pose proof (B 3%nat) as B3. simpl in B0, B1, B2, B3.
  destruct i as [|[|[|[|[|[|i]]]]]]; try lia; simpl; rewrite ?B0, ?B1, ?B2, ?B3; auto; lia.
Qed.
Lemma bary_edge2 n0 n1 n2 p l i : barycentric [n0; n1; n2] p l -> (i < 3)%nat ->
  map l (edge_of [n0; n1; n2] i) = map (fun k => nth k (linear_shapes p) 0) (edge_of [0; 1; 2]%nat i).
Proof.
  intros B Hi. pose proof (B 0%nat) as B0. pose proof (B 1%nat) as B1. pose proof (B 2%nat) as B2. simpl in B0, B1, B2.
  destruct i as [|[|[|i]]]; try lia; simpl; rewrite ?B0, ?B1, ?B2; auto; lia.
Qed.

Lemma piola_face pos n0 n1 n2 n3 i (f : nat -> R) : (i < 4)%nat ->
  let V r := rsum 3 (fun c => of_columns (frame pos [n0; n1; n2; n3]) r c * f c) in
  dot (mk_vec (V 0%nat) (V 1%nat) (V 2%nat)) (area pos (face_of [n0; n1; n2; n3] i)) =
  dot (cross (vsub (pos n1) (pos n0)) (vsub (pos n2) (pos n0))) (vsub (pos n3) (pos n0)) *
  dot (mk_vec (f 0%nat) (f 1%nat) (f 2%nat)) (area ref_vertex (face_of [0; 1; 2; 3]%nat i)).
Proof.
  intros Hi V. unfold V. destruct i as [|[|[|[|i]]]]; try lia; unfold of_columns, frame, area, face_of, dot, cross, vsub, coordinate, ref_vertex, vzero; cbn; ring.
Qed.

Section Flux3.
  Variable qr : nat -> matrix -> matrix * matrix.
  Variable inv : nat -> matrix -> matrix.
  Hypothesis Hinv : is_inverse inv.

  Lemma face_flux_lemma X cs el pos n m phi psi points :
    tetrahedron cs (el_cell el) -> length (el_bc_entities el) = 4%nat -> located X (el_cell el) pos -> nondegenerate qr pos 3 (c_nodes (el_cell el)) ->
    gen_map (el_generator el) = MContravariant -> tabulates (el_generator el) 3 n 3 phi -> owned_once (el_generator el) ->
    laid_out (el_generator el) n 1 6 0 -> fst (gen_interval (el_generator el)) = 0%nat -> laid_out (el_generator el) n 2 4 m ->
    face_change (el_generator el) m (-1) psi -> normal_traces_3d (el_generator el) n m phi psi ->
    points <> [] -> Forall (fun p => length p = 3%nat) points ->
    exists mp t, element_mapping qr inv X (el_cell el) points = Ok mp /\ evaluate_basis cs el points mp = Ok t /\
      tb_der t = 4%nat /\ tb_pts t = length points /\ tb_dof t = n /\ tb_vs t = 3%nat /\
      forall k p i g0 l, nth_error points k = Some p -> (i < 4)%nat -> nth i (linear_shapes p) 0 = 0 -> barycentric (c_nodes (el_cell el)) p l ->
        increasing g0 -> Permutation g0 (face_of (c_nodes (el_cell el)) i) ->
        (forall r, (r < m)%nat -> dot (value_at t k (nth r (dofs (el_generator el) 2 i) 0%nat)) (area pos g0) =
           handedness pos (c_nodes (el_cell el)) *
           if overridden (el_bc_entities el) i && even (face_of (c_nodes (el_cell el)) i) then - psi r (map l (reflected g0)) else psi r (map l g0)) /\
        (forall a, (a < n)%nat -> ~ In a (dofs (el_generator el) 2 i) -> dot (value_at t k a) (area pos g0) = 0).
  Proof.
    intros Tet Lb Loc Nd Gm Tb On L1 S1 L2 Fc Nt Ne Fp. set (c := el_cell el) in *. set (g := el_generator el) in *.
    pose proof Tet as (Hd & Ln & N & _).
    destruct (mapping_lemma qr inv X c pos 3 points Hinv Loc Hd ltac:(lia) ltac:(lia) Nd Ne Fp) as (mp & Em & Ld & Lj & Mp).
    destruct (stage_vector cs el points mp 3 n phi Hd ltac:(lia) ltac:(fold g; rewrite Gm; discriminate) Tb Fp) as (t & St & T1 & T2 & T3 & T4 & Tv & _).
    unfold staged in St. fold c g in St. fold g in Tv. rewrite Gm in Tv.
    pose proof Fc as (Sm & H1 & H2 & Fc').
    destruct (permute_tetra g n 0 m On L1 L2 S1 Sm ltac:(intros ? ? ? ?; lia) H1 H2 cs c (el_bc_entities el) t Tet Lb T3) as (t' & Et & Sh & Pf & _ & Pz & Pu).
    destruct Sh as (Sh1 & Sh2 & Sh3 & Sh4).
    exists mp, t'. split; auto. split; [congruence|]. split; [lia|]. split; [lia|]. split; [lia|]. split; [lia|].
    intros k p i g0 l Hp Hi Hz Bl I P.
    destruct (list4 _ Ln) as (n0 & n1 & n2 & n3 & En).
    assert (L3 : length g0 = 3%nat).
    { rewrite En in *. destruct (face_of_distinct _ _ _ _ i N Hi) as (x & y & z & Efc & _). apply Permutation_length in P. rewrite Efc in P. auto. }
    destruct (increasing_three g0 L3 I) as (a0 & b0 & c0 & Eg & Hlt).
    assert (Ar : area pos (face_of (c_nodes c) i) = vscale (osign (face_of (c_nodes c) i)) (area pos g0) /\ osign (face_of (c_nodes c) i) * osign (face_of (c_nodes c) i) = 1).
    { rewrite Eg. rewrite Eg in P. destruct (area_sign pos (face_of (c_nodes c) i) a0 b0 c0 Hlt (Permutation_sym P)) as (A1 & A2 & _). auto. }
    destruct Ar as [Ar1 Ar2].
    set (tr := dot (cross (vsub (pos n1) (pos n0)) (vsub (pos n2) (pos n0))) (vsub (pos n3) (pos n0))).
    assert (Me : measure (frame pos (c_nodes c)) = Rabs tr) by (rewrite En; reflexivity).
    assert (Ha : handedness pos (c_nodes c) = sign tr) by (rewrite En; reflexivity).
    assert (Nz : tr <> 0). { destruct Nd as [Nd _]. rewrite Me in Nd. intros Q. apply Nd. rewrite Q. apply Rabs_R0. }
    destruct (Mp k p Hp) as (_ & Mj & Md & _).
    (* value before the permutation *)
    assert (V0 : forall a, (a < n)%nat -> dot (value_at t k a) (area pos g0) =
      osign (face_of (c_nodes c) i) * (sign tr * dot (ref_value 3 phi a p) (area ref_vertex (face_of [0; 1; 2; 3]%nat i)))).
    { intros a Haa. replace (area pos g0) with (vscale (osign (face_of (c_nodes c) i)) (area pos (face_of (c_nodes c) i))).
      2:{ rewrite Ar1. transitivity (vscale (osign (face_of (c_nodes c) i) * osign (face_of (c_nodes c) i)) (area pos g0)); [apply vec_ext; simpl; ring|].
          rewrite Ar2. apply vec_ext; simpl; ring. }
      rewrite dot_scale_r. f_equal. unfold value_at. rewrite !(Tv k p a) by (auto; lia).
      rewrite (nth_of_error _ _ _ _ Mj), (nth_of_error _ _ _ _ Md), Me.
      rewrite <- (sign_over_abs tr Nz), Rmult_assoc.
      pose proof (piola_face pos n0 n1 n2 n3 i (fun c => phi 0%nat a c p) Hi) as PF. cbv zeta in PF. rewrite <- En in PF. fold tr in PF. unfold ref_value. rewrite <- PF.
      unfold dot. simpl vx. simpl vy. simpl vz. ring. }
    split.
    - intros r Hr. destruct L2 as [_ L2]. destruct (L2 i Hi) as (Ld2 & Nd2 & In2).
      rewrite <- (row_dot (area pos g0) t' k (dofs g 2 i) r) by (auto; congruence || lia).
      rewrite (Pf i g0 (trace_basis m psi l (sign tr) true) (coordinate (area pos g0)) 0%nat k Hi (face_bases_signed g m psi l (sign tr) Fc) I P).
      + unfold face_row. rewrite Ha. destruct (overridden _ i && even _).
        * unfold act. destruct (Nat.ltb_spec r m); [|lia].
          transitivity (sign tr * osign g0 * rsum m (fun s => snd (snd (gen_triangle g)) r s * psi s (map l g0))).
          { rewrite <- rsum_scal. apply rsum_ext. intros s Hs. unfold trace_basis. destruct (Nat.ltb_spec s m); [|lia]. ring. }
          rewrite Eg. cbn [map reflected]. destruct (Fc' r (l a0) (l c0) (l b0) Hr) as [_ Q]. rewrite Q. unfold osign. rewrite !sg_lt by lia. ring.
        * unfold trace_basis. destruct (Nat.ltb_spec r m); [|lia]. rewrite Eg. unfold osign. rewrite !sg_lt by lia. ring.
      + apply functional_extensionality. intros s. unfold trace_basis. destruct (Nat.ltb_spec s m) as [Hs|Hs].
        * rewrite row_dot by (auto; lia). rewrite V0 by (apply In2, nth_In; lia). destruct (Nt i p Hi) as [Q _]; auto. { rewrite Forall_forall in Fp. apply Fp. eapply nth_error_In; eauto. }
          rewrite Q by auto. rewrite En in Bl |- *. rewrite (bary_face _ _ _ _ _ _ _ Bl Hi). ring.
        * unfold row. destruct (Nat.ltb_spec s (length (dofs g 2 i))); auto. lia.
    - intros a Haa Hn. assert (Z0 : dot (value_at t k a) (area pos g0) = 0).
      { rewrite V0 by auto. destruct (Nt i p Hi) as [_ Q]; auto. { rewrite Forall_forall in Fp. apply Fp. eapply nth_error_In; eauto. } rewrite Q by auto. ring. }
      destruct (owner_dec a (dofs g 2) 4) as [(j & Hj & Hin)|Hno].
      + assert (j <> i) by (intros ->; auto). destruct (in_nth_dof _ _ Hin) as (r & Hr & Er). rewrite <- Er.
        rewrite <- (row_dot (area pos g0) t' k (dofs g 2 j) r) by (auto; congruence). apply Pz; [auto|].
        intros s. unfold row. destruct (Nat.ltb_spec s (length (dofs g 2 j))) as [Hs|Hs]; auto.
        rewrite T4. transitivity (dot (value_at t k (nth s (dofs g 2 j) 0%nat)) (area pos g0)); [unfold dot, value_at; simpl; ring|].
        destruct L2 as [_ L2]. destruct (L2 j Hj) as (_ & _ & In2).
        rewrite V0 by (apply In2, nth_In; lia). destruct (Nt i p Hi) as [_ Q]; auto. { rewrite Forall_forall in Fp. apply Fp. eapply nth_error_In; eauto. }
        rewrite Q; [ring|apply In2, nth_In; lia|]. intros Q'. assert (Qj : In (nth s (dofs g 2 j) 0%nat) (dofs g 2 j)) by (apply nth_In; auto).
        destruct (On _ _ _ _ _ Q' Qj). congruence.
      + rewrite <- Z0. unfold value_at, dot. rewrite !Pu; auto; intros j Hj Q; destruct L1 as [_ L1]; destruct (L1 j Hj) as (Q1 & _); destruct (dofs g 1 j); simpl in *; auto; discriminate.
  Qed.
End Flux3.
