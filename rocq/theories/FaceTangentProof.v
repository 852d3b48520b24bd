(** * Lemmas: tangential components on the faces of tetrahedra *)
From Coq Require Import List Arith ZArith Bool Reals Lra Lia Permutation FunctionalExtensionality.
From Verif Require Import Base BaseProof MeshModel MeshSpec OrientModel OrientSpec OrientProof VecBase VecProof MapModel MapSpec MapProof JacProof SpaceModel ElementModel ElementSpec ElementProof ElementProof2 ElementProof3 ElementProof4 ElementProof5 ElementProof6 ElementProof7 FaceTangentSpec.
Import ListNotations.
Local Open Scope R_scope.

(** The covariant map keeps the products with directions of the cell. *)
Lemma covariant_along pos n0 n1 n2 n3 (d : nat -> R) (f : nat -> R) (K : matrix) : NoDup [n0; n1; n2; n3] ->
  (forall a b, (a < 3)%nat -> (b < 3)%nat -> mmul 3 K (of_columns (frame pos [n0; n1; n2; n3])) a b = if (a =? b)%nat then 1 else 0) ->
  rsum_on d [n0; n1; n2; n3] = 0 ->
  let V r := rsum 3 (fun c => K c r * f c) in
  dot (mk_vec (V 0%nat) (V 1%nat) (V 2%nat)) (along_nodes pos d [n0; n1; n2; n3]) =
  dot (mk_vec (f 0%nat) (f 1%nat) (f 2%nat)) (along_nodes ref_vertex (fun k => d (nth k [n0; n1; n2; n3] 0%nat)) [0; 1; 2; 3]%nat).
Proof.
  intros N H Z V. set (M := mmul 3 K (of_columns (frame pos [n0; n1; n2; n3]))) in *.
  assert (Z0 : d n0 = - d n1 - d n2 - d n3) by (unfold rsum_on in Z; cbn in Z; lra).
  transitivity (f 0%nat * (d n1 * M 0%nat 0%nat + d n2 * M 0%nat 1%nat + d n3 * M 0%nat 2%nat) +
                f 1%nat * (d n1 * M 1%nat 0%nat + d n2 * M 1%nat 1%nat + d n3 * M 1%nat 2%nat) +
                f 2%nat * (d n1 * M 2%nat 0%nat + d n2 * M 2%nat 1%nat + d n3 * M 2%nat 2%nat)).
  - unfold M, V, along_nodes, vsum. cbn [map fold_right]. rewrite Z0. unfold mmul, of_columns, frame, dot, vadd, vscale, vsub, coordinate, vzero; cbn; ring.
  - rewrite !H by lia. cbn [Nat.eqb]. unfold along_nodes, vsum. cbn [map fold_right nth]. unfold dot, vadd, vscale, ref_vertex, vzero. cbn [vx vy vz]. ring.
Qed.

Section Bases.
  Variable g : generator.
  Variables (m : nat) (psi : nat -> list (R * R) -> R) (w : nat -> R * R).
  Definition along_basis (f : list nat) : nat -> R := fun r => if (r <? m)%nat then psi r (map w f) else 0.
  Lemma face_bases_along : face_change_along g m psi -> face_bases matrix (nat -> R) (act m) (fst (snd (gen_triangle g))) (snd (snd (gen_triangle g))) along_basis.
  Proof.
    intros (_ & _ & _ & H) f L. destruct (list3 f L) as (x & y & z & ->). split; apply functional_extensionality; intros r; unfold act, along_basis;
    destruct (Nat.ltb_spec r m) as [Hr|Hr]; auto; destruct (H r (w x) (w y) (w z) Hr) as [H1 H2]; cbn [rotated reflected map].
    - rewrite <- H1. apply rsum_ext. intros s Hs. destruct (Nat.ltb_spec s m); [|lia]. ring.
    - rewrite <- H2. apply rsum_ext. intros s Hs. destruct (Nat.ltb_spec s m); [|lia]. ring.
  Qed.
  Lemma edge_bases_along : edge_change_along g m psi -> edge_bases matrix (nat -> R) (act m) (snd (gen_interval g)) along_basis.
  Proof.
    intros (_ & _ & H) f L. destruct (list2 f L) as (x & y & ->). apply functional_extensionality; intros r; unfold act, along_basis.
    destruct (Nat.ltb_spec r m) as [Hr|Hr]; auto. cbn [swapped map]. rewrite <- (H r (w x) (w y) Hr).
    apply rsum_ext. intros s Hs. destruct (Nat.ltb_spec s m); [|lia]. ring.
  Qed.
End Bases.

Lemma both_face n0 n1 n2 n3 p l c i : barycentric [n0; n1; n2; n3] p l -> (i < 4)%nat ->
  map (both l c) (face_of [n0; n1; n2; n3] i) =
  map (both (fun k => nth k (linear_shapes p) 0) (fun k => c (nth k [n0; n1; n2; n3] 0%nat))) (face_of [0; 1; 2; 3]%nat i).
Proof.
  intros B Hi. pose proof (B 0%nat) as B0. pose proof (B 1%nat) as B1. pose proof (B 2%nat) as B2. pose proof (B 3%nat) as B3. simpl in B0, B1, B2, B3. unfold both.
  destruct i as [|[|[|[|i]]]]; try lia; simpl; rewrite ?B0, ?B1, ?B2, ?B3; auto; lia.
Qed.
Lemma both_edge n0 n1 n2 n3 p l c i : barycentric [n0; n1; n2; n3] p l -> (i < 6)%nat ->
  map (both l c) (tetra_edge_of [n0; n1; n2; n3] i) =
  map (both (fun k => nth k (linear_shapes p) 0) (fun k => c (nth k [n0; n1; n2; n3] 0%nat))) (tetra_edge_of [0; 1; 2; 3]%nat i).
Proof.
  intros B Hi. pose proof (B 0%nat) as B0. pose proof (B 1%nat) as B1. pose proof (B 2%nat) as B2. pose proof (B 3%nat) as B3. simpl in B0, B1, B2, B3. unfold both.
  destruct i as [|[|[|[|[|[|i]]]]]]; try lia; simpl; rewrite ?B0, ?B1, ?B2, ?B3; auto; lia.
Qed.
Lemma edge_of_face_dec i j : (j < 6)%nat -> edge_of_face i j \/ ~ edge_of_face i j.
Proof. intros Hj. unfold edge_of_face. destruct (in_dec Nat.eq_dec i (tetra_edge_of [0; 1; 2; 3]%nat j)); tauto. Qed.

Section Cell.
  Variable qr : nat -> matrix -> matrix * matrix.
  Variable inv : nat -> matrix -> matrix.
  Hypothesis Hinv : is_inverse inv.
  Variable X : list vec.
  Variable pos : nat -> vec.

  Lemma face_tangent_lemma cs el n me mf phi psi_e psi_f points :
    placed qr X cs el pos 3 -> hcurl_faces (el_generator el) n me mf phi psi_e psi_f -> points_of 3 points ->
    exists t, evaluated qr inv X cs el points t /\ shape t 4 (length points) n 3 /\
      forall k p i l c, nth_error points k = Some p -> (i < 4)%nat -> nth i (linear_shapes p) 0 = 0 -> barycentric (c_nodes (el_cell el)) p l ->
        in_face c (c_nodes (el_cell el)) i ->
        let component := fun a => dot (value_at t k a) (along_nodes pos c (c_nodes (el_cell el))) in
        (forall f r, sorted_face el i f -> (r < mf)%nat ->
           component (nth r (dofs (el_generator el) 2 i) 0%nat) = psi_f r (map (both l c) (if flipped el i then reflected f else f))) /\
        (forall j e r, edge_of_face i j -> increasing e -> Permutation e (tetra_edge_of (c_nodes (el_cell el)) j) -> (r < me)%nat ->
           component (nth r (dofs (el_generator el) 1 j) 0%nat) = psi_e r (map (both l c) e)) /\
        (forall a, (a < n)%nat -> ~ In a (dofs (el_generator el) 2 i) -> (forall j, edge_of_face i j -> ~ In a (dofs (el_generator el) 1 j)) -> component a = 0).
  Proof.
    intros ((Tet & Lb) & Loc & Nd) (Gm & Tb & On & L1 & L2 & Ec & Fc & Ft) (Ne & Fp). pose proof Tet as (Hd & Ln & N & _).
    destruct (mapping_lemma qr inv X (el_cell el) pos 3 points Hinv Loc Hd ltac:(lia) ltac:(lia) Nd Ne Fp) as (mp & Em & Ld & Lj & Mp).
    destruct (stage_vector cs el points mp 3 n phi Hd ltac:(lia) ltac:(rewrite Gm; discriminate) Tb Fp) as (t & St & T1 & T2 & T3 & T4 & Tv & _).
    unfold staged in St. rewrite Gm in Tv. set (c0 := el_cell el) in *. set (g := el_generator el) in *.
    pose proof Fc as (Sm & H1 & H2 & Fc'). pose proof Ec as (Se & H3 & _).
    destruct (permute_tetra g n me mf On L1 L2 Se Sm H3 H1 H2 cs c0 (el_bc_entities el) t Tet Lb T3) as (t' & Et & Sh & Pf & Pe & Pz & Pu).
    destruct Sh as (Sh1 & Sh2 & Sh3 & Sh4).
    exists t'. split; [exists mp; split; [auto|congruence]|]. split; [repeat split; lia|].
    intros k p i l d Hp Hi Hz Bl [Dz Ds] component. unfold component. clear component. destruct (Mp k p Hp) as (_ & _ & _ & K & MK & KJ).
    destruct (list4 _ Ln) as (n0 & n1 & n2 & n3 & En).
    assert (Lp : length p = 3%nat) by (rewrite Forall_forall in Fp; apply Fp; eapply nth_error_In; eauto).
    set (v := along_nodes pos d (c_nodes c0)) in *. set (d' := fun k => d (nth k [n0; n1; n2; n3] 0%nat)).
    assert (V0 : forall a, (a < n)%nat -> dot (value_at t k a) v = dot (ref_value 3 phi a p) (along_nodes ref_vertex d' [0; 1; 2; 3]%nat)).
    { intros a Ha. unfold value_at, v. rewrite !(Tv k p a) by (auto; lia). rewrite (nth_of_error _ _ _ _ MK). rewrite En in *.
      apply (covariant_along pos n0 n1 n2 n3 d (fun c => phi 0%nat a c p) K N KJ Ds). }
    rewrite En in Dz, Ds, Bl.
    assert (Z' : rsum_on d' [0; 1; 2; 3]%nat = 0) by exact Ds.
    destruct (Ft i p d' Hi Lp Hz Dz Z') as (Q1 & Q2 & Q3). clear Ft.
    pose proof L1 as [_ L1']. pose proof L2 as [_ L2'].
    split; [|split].
    - intros f r [I P] Hr. destruct (L2' i Hi) as (Ld2 & _ & In2).
      assert (L3 : length f = 3%nat).
      { fold c0 in P. rewrite En in *. destruct (face_of_distinct _ _ _ _ i N Hi) as (x & y & z & Efc & _). apply Permutation_length in P. rewrite Efc in P. auto. }
      destruct (list3 f L3) as (a0 & b0 & c1 & Ef).
      rewrite <- (row_dot v t' k (dofs g 2 i) r) by (auto; lia).
      rewrite (Pf i f (along_basis mf psi_f (both l d)) (coordinate v) 0%nat k Hi (face_bases_along g mf psi_f (both l d) Fc) I P).
      + unfold face_row. fold (flipped el i). unfold flipped. fold c0. destruct (overridden _ i && even _).
        * unfold act. destruct (Nat.ltb_spec r mf); [|lia].
          transitivity (rsum mf (fun s => snd (snd (gen_triangle g)) r s * psi_f s (map (both l d) f))).
          { apply rsum_ext. intros s Hs. unfold along_basis. destruct (Nat.ltb_spec s mf); [|lia]. ring. }
          rewrite Ef. cbn [map reflected]. destruct (Fc' r (both l d a0) (both l d c1) (both l d b0) Hr) as [_ Q]. rewrite Q. reflexivity.
        * unfold along_basis. destruct (Nat.ltb_spec r mf); [reflexivity|lia].
      + apply functional_extensionality. intros s. unfold along_basis. destruct (Nat.ltb_spec s mf) as [Hs|Hs].
        * rewrite row_dot by (auto; lia). rewrite V0 by (apply In2, nth_In; lia). rewrite Q1 by auto. rewrite En. rewrite (both_face _ _ _ _ _ _ _ _ Bl Hi). reflexivity.
        * unfold row. destruct (Nat.ltb_spec s (length (dofs g 2 i))); auto. lia.
    - intros j e r Hj I P Hr. destruct (L1' j (proj1 Hj)) as (Ld1 & _ & In1).
      rewrite <- (row_dot v t' k (dofs g 1 j) r) by (auto; lia).
      rewrite (Pe j e (along_basis me psi_e (both l d)) (coordinate v) 0%nat k (proj1 Hj) (edge_bases_along g me psi_e (both l d) Ec) I P).
      + unfold along_basis. destruct (Nat.ltb_spec r me); [reflexivity|lia].
      + apply functional_extensionality. intros s. unfold along_basis. destruct (Nat.ltb_spec s me) as [Hs|Hs].
        * rewrite row_dot by (auto; lia). rewrite V0 by (apply In1, nth_In; lia). rewrite (Q2 j s Hj Hs). rewrite En. rewrite (both_edge _ _ _ _ _ _ _ _ Bl (proj1 Hj)). reflexivity.
        * unfold row. destruct (Nat.ltb_spec s (length (dofs g 1 j))); auto. lia.
    - intros a Ha Hf He.
      assert (Zr : forall e j, (e = 1 /\ j < 6 \/ e = 2 /\ j < 4)%nat -> (e = 2%nat -> j <> i) -> (e = 1%nat -> ~ edge_of_face i j) -> forall r, row (coordinate v) t 0 k (dofs g e j) r = 0).
      { intros e j Hdj Hn2 Hn1 r. unfold row. destruct (Nat.ltb_spec r (length (dofs g e j))) as [Hr|Hr]; auto. rewrite T4.
        transitivity (dot (value_at t k (nth r (dofs g e j) 0%nat)) v); [unfold dot, value_at; simpl; ring|].
        assert (Qj : In (nth r (dofs g e j) 0%nat) (dofs g e j)) by (apply nth_In; auto).
        assert (Qn : (nth r (dofs g e j) 0 < n)%nat) by (destruct Hdj as [[-> Hj]|[-> Hj]]; [apply (L1' j Hj); auto|apply (L2' j Hj); auto]).
        rewrite V0 by auto. apply Q3; auto.
        - intros Q. destruct (On _ _ _ _ _ Q Qj) as [<- <-]. apply (Hn2 eq_refl eq_refl).
        - intros j' Hj' Q. destruct (On _ _ _ _ _ Q Qj) as [<- <-]. apply (Hn1 eq_refl Hj'). }
      destruct (owner_dec a (dofs g 1) 6) as [(j & Hj & Hin)|Hno1].
      + destruct (in_nth_dof _ _ Hin) as (r & Hr & Er). rewrite <- Er. rewrite <- (row_dot v t' k (dofs g 1 j) r) by (auto; lia).
        apply Pz; [auto|]. apply Zr; [auto|discriminate|]. intros _ Q. apply (He j Q). auto.
      + destruct (owner_dec a (dofs g 2) 4) as [(j & Hj & Hin)|Hno2].
        * destruct (in_nth_dof _ _ Hin) as (r & Hr & Er). rewrite <- Er. rewrite <- (row_dot v t' k (dofs g 2 j) r) by (auto; lia).
          apply Pz; [auto|]. apply Zr; [auto| |discriminate]. intros _ ->. auto.
        * transitivity (dot (value_at t k a) v); [unfold value_at; rewrite !Pu; auto|]. rewrite V0 by auto. apply Q3; auto.
  Qed.
End Cell.
