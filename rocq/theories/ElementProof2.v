(** * Lemmas: permute_table on tetrahedra and triangles *)
From Coq Require Import List Arith ZArith Bool Reals Lra Lia Permutation FunctionalExtensionality.
From Verif Require Import Base BaseProof MeshModel MeshSpec OrientModel OrientSpec OrientProof VecBase VecProof MapModel MapSpec MapProof JacProof ElementModel ElementSpec ElementProof.
Import ListNotations.
Local Open Scope R_scope.

Lemma even_moved a b c r s : (a < b < c)%nat -> (r < 3)%nat -> (s < 2)%nat -> even (moved r s [a; b; c]) = (s =? 0)%nat.
Proof.
  intros H Hr Hs. destruct r as [|[|[|r]]]; [| | |lia]; (destruct s as [|[|s]]; [| |lia]); simpl;
  repeat match goal with |- context [(?x <? ?y)%nat] => destruct (Nat.ltb_spec x y); try lia end; reflexivity.
Qed.
Lemma increasing_three g : length g = 3%nat -> increasing g -> exists a b c, g = [a; b; c] /\ (a < b < c)%nat.
Proof. intros L I. destruct (list3 g L) as (a & b & c & ->). exists a, b, c. split; auto. inversion I as [| |? ? ? ? I']; subst. inversion I'; subst. lia. Qed.

Lemma face_bases_fixed M F (act_f : M -> F -> F) rot refl Bf : face_bases M F act_f rot refl Bf ->
  (forall v, act_f rot v = v) -> (forall v, act_f refl v = v) -> forall r s f, length f = 3%nat -> Bf (moved r s f) = Bf f.
Proof.
  intros H H1 H2 r s f L. unfold moved. assert (L' : length (Nat.iter s reflected f) = 3%nat) by (apply len_iter; auto; apply len_reflected).
  transitivity (Bf (Nat.iter s reflected f)).
  - induction r as [|r IH]; simpl; auto. rewrite <- IH. assert (L2 : length (Nat.iter r rotated (Nat.iter s reflected f)) = 3%nat) by (apply len_iter; auto; apply len_rotated).
    destruct (H _ L2) as [Q _]. rewrite H1 in Q. auto.
  - clear L'. induction s as [|s IH]; simpl; auto. rewrite <- IH. assert (L2 : length (Nat.iter s reflected f) = 3%nat) by (apply len_iter; auto; apply len_reflected).
    destruct (H _ L2) as [_ Q]. rewrite H2 in Q. auto.
Qed.

(** The outcome for one face *)
Definition face_row (bc : list bool) (m : nat) (refl : matrix) (i : nat) (f : list nat) (x : nat -> R) : nat -> R :=
  if overridden bc i && even f then act m refl x else x.

Section Tetra.
  Variable g : generator.
  Variables n me mf : nat.
  Hypothesis Once : owned_once g.
  Hypothesis Lay1 : laid_out g n 1 6 me.
  Hypothesis Lay2 : laid_out g n 2 4 mf.
  Hypothesis Se : fst (gen_interval g) = me.
  Hypothesis Sf : fst (gen_triangle g) = mf.
  Hypothesis He : honest g me (snd (gen_interval g)).
  Hypothesis Hr : honest g mf (fst (snd (gen_triangle g))).
  Hypothesis Hs : honest g mf (snd (snd (gen_triangle g))).

  Lemma permute_tetra cs c bc phi : tetrahedron cs c -> length bc = 4%nat -> tb_dof phi = n ->
    exists phi', permute_table cs c g bc phi = Ok phi' /\ shaped phi phi' /\
      (forall i g0 (Bf : list nat -> nat -> R) w k p, (i < 4)%nat ->
         face_bases matrix (nat -> R) (act mf) (fst (snd (gen_triangle g))) (snd (snd (gen_triangle g))) Bf ->
         increasing g0 -> Permutation g0 (face_of (c_nodes c) i) -> row w phi k p (dofs g 2 i) = Bf (face_of (c_nodes c) i) ->
         row w phi' k p (dofs g 2 i) = face_row bc mf (snd (snd (gen_triangle g))) i (face_of (c_nodes c) i) (Bf g0)) /\
      (forall i g0 (Be : list nat -> nat -> R) w k p, (i < 6)%nat ->
         edge_bases matrix (nat -> R) (act me) (snd (gen_interval g)) Be ->
         increasing g0 -> Permutation g0 (tetra_edge_of (c_nodes c) i) -> row w phi k p (dofs g 1 i) = Be (tetra_edge_of (c_nodes c) i) ->
         row w phi' k p (dofs g 1 i) = Be g0) /\
      (forall d i w k p, (d = 1 /\ i < 6 \/ d = 2 /\ i < 4)%nat -> (forall r, row w phi k p (dofs g d i) r = 0) -> forall r, row w phi' k p (dofs g d i) r = 0) /\
      (forall a, (forall j, (j < 6)%nat -> ~ In a (dofs g 1 j)) -> (forall j, (j < 4)%nat -> ~ In a (dofs g 2 j)) ->
         forall k p v, tb_val phi' k p a v = tb_val phi k p a v).
  Proof.
    intros (Hd & Ln & N & St) Lb Hn. unfold permute_table. rewrite Hd. cbn [Nat.eqb].
    destruct (face_orientation_lemma (c_nodes c) bc Ln N Lb) as (qf & Ef & Lf & Hq).
    destruct (list4 _ Ln) as (n0 & n1 & n2 & n3 & En). rewrite En in *.
    assert (Lface : forall i g0, (i < 4)%nat -> Permutation g0 (face_of [n0; n1; n2; n3] i) -> length g0 = 3%nat).
    { intros i g0 Hi P. destruct (face_of_distinct _ _ _ _ i N Hi) as (x & y & z & Efc & D). apply Permutation_length in P. rewrite Efc in P. auto. }
    destruct (gen_identity g) eqn:Ei.
    - exists phi. split; auto. split; [apply shaped_refl|].
      pose proof (act_identity mf _ (Hr Ei)) as A1. pose proof (act_identity mf _ (Hs Ei)) as A2. pose proof (act_identity me _ (He Ei)) as A3.
      split; [|split; [|split; auto]].
      + intros i g0 Bf w k p Hi HB I P HR. rewrite HR. destruct (Hq i Hi) as (g' & o & r & s & t & I' & P' & _ & Hr' & Hs' & Mv & _).
        assert (g' = g0).
        { destruct (increasing_three g0 (Lface _ _ Hi P) I) as (a & b & c0 & -> & Hlt). apply increasing_unique3; auto. rewrite P', P. auto. }
        subst g'. unfold face_row. rewrite A2. rewrite <- Mv. rewrite (face_bases_fixed _ _ _ _ _ _ HB A1 A2) by eauto. destruct (_ && _); auto.
      + intros i g0 Be w k p Hi HB I P HR. rewrite HR. destruct (tetra_edge_distinct n0 n1 n2 n3 i N Hi) as [L2 N2].
        destruct (list2 _ L2) as (a & b & Eab). rewrite Eab in *. symmetry in P. apply Permutation_length_2_inv in P as [->| ->]; auto.
        pose proof (HB [b; a] eq_refl) as Q. rewrite A3 in Q. auto.
    - rewrite Ef. cbn [bind].
      destruct (transform_faces_lemma g n Once 4 mf qf phi Lay2 Lf Sf Hn) as (phi1 & E1 & S1 & R1 & U1). rewrite E1. cbn [bind].
      set (v i := match sub_edge_nodes cs c i with Ok v => v | Err _ => [] end).
      assert (Ev : forall i, (i < 6)%nat -> sub_edge_nodes cs c i = Ok (v i) /\ Permutation (v i) (tetra_edge_of [n0; n1; n2; n3] i)).
      { intros i Hi. destruct (St i Hi) as (e & He' & Pe). apply sub_edge in He'. unfold v. rewrite He'. auto. }
      unfold edge_orientation_3d. rewrite (mapM_enumerate _ tetra_edges (fun i _ => eqb (tetra_edge_of [n0; n1; n2; n3] i) (sort_nat (v i)))).
      2:{ intros i con Hi. cbn [fst snd]. rewrite En, (take_edge _ _ _ _ _ _ Hi). cbn [bind].
          assert (i < 6)%nat by (change 6%nat with (length tetra_edges); apply nth_error_Some; congruence).
          destruct (Ev i H) as [-> _]. reflexivity. }
      cbn [bind]. set (qe := map _ (enumerate tetra_edges)).
      assert (Nq : forall i, (i < 6)%nat -> nth_error qe i = Some (eqb (tetra_edge_of [n0; n1; n2; n3] i) (sort_nat (v i)))).
      { intros i Hi. unfold qe. destruct (nth_error tetra_edges i) as [con|] eqn:Eq; [|apply nth_error_None in Eq; simpl in Eq; lia].
        rewrite (map_nth_error _ i (enumerate tetra_edges) (d := (i, con))); [reflexivity|]. rewrite nth_error_enumerate, Eq. reflexivity. }
      assert (Ro1 : forall i w k p, row w phi1 k p (dofs g 1 i) = row w phi k p (dofs g 1 i)).
      { intros. apply row_unchanged; [apply S1|]. intros a v0 Ha. apply U1. intros j Hj Q. destruct (Once _ _ _ _ _ Ha Q). discriminate. }
      destruct (transform_edges_lemma g n Once 6 me qe phi1 Lay1 eq_refl Se) as (phi2 & E2 & S2 & R2 & U2).
      { destruct S1 as (_ & _ & -> & _). auto. }
      assert (Ro2 : forall i w k p, row w phi2 k p (dofs g 2 i) = row w phi1 k p (dofs g 2 i)).
      { intros. apply row_unchanged; [apply S2|]. intros a v0 Ha. apply U2. intros j Hj Q. destruct (Once _ _ _ _ _ Ha Q). discriminate. }
      exists phi2. split; auto. split; [eapply shaped_trans; eauto|].
      split; [|split; [|split]].
      + intros i g0 Bf w k p Hi HB I P HR. destruct (Hq i Hi) as (g' & o & r & s & t & I' & P' & Eq & Hr' & Hs' & Mv & U & C).
        pose proof (Lface _ _ Hi P) as Lg.
        destruct (increasing_three g0 Lg I) as (a & b & c0 & Eg & Hlt).
        assert (g' = g0).
        { rewrite Eg. apply increasing_unique3; auto. rewrite P', <- Eg, P. auto. }
        subst g'. rewrite Ro2, (R1 i _ Eq), HR. rewrite <- Mv at 1.
        assert (Ho : o = true -> r = 0%nat /\ s = 0%nat) by (destruct (overridden bc i); destruct C as [C1 C2]; [congruence|apply C2]).
        rewrite (transform_face_lemma matrix (nat -> R) (mmul mf) identity (act mf) _ _ Bf (act_action mf) HB o r s t g0 Lg Hs' Ho).
        unfold face_row. rewrite <- Mv, Eg, even_moved, <- Eg; auto.
        destruct (overridden bc i); cbn [andb].
        * destruct C as [-> ->]. cbn [Nat.iter nat_rect]. destruct s as [|[|s]]; [reflexivity| |lia]. apply (HB g0 Lg).
        * destruct C as [-> C]. destruct o; auto. apply (undo_iter matrix (nat -> R) (act mf) Bf (snd (snd (gen_triangle g))) reflected); auto. { intros f Hl. apply (HB f Hl). } apply len_reflected.
      + intros i g0 Be w k p Hi HB I P HR. rewrite (R2 i _ (Nq i Hi)), Ro1, HR. destruct (Ev i Hi) as [_ Pv]. destruct (tetra_edge_distinct n0 n1 n2 n3 i N Hi) as [L2 N2].
        assert (S : sort_nat (v i) = g0).
        { apply sort2_spec; auto. { apply Permutation_length in Pv. lia. } rewrite P, Pv. auto. }
        rewrite S, (edge_row matrix (nat -> R) (act me) _ Be HB); auto. symmetry; auto.
      + intros d i w k p [[-> Hi]|[-> Hi]] Z r.
        * rewrite (R2 i _ (Nq i Hi)), Ro1. unfold transform_edge. destruct (eqb _ _); auto. unfold act. destruct (Nat.ltb_spec r me); auto.
          apply rsum_zero. intros s _. rewrite Z. ring.
        * rewrite Ro2. destruct (Hq i Hi) as (g' & o & r' & s & t & _ & _ & Eq & _). rewrite (R1 i _ Eq). unfold transform_face. destruct o; auto.
          unfold act. destruct (Nat.ltb_spec r mf); auto. apply rsum_zero. intros s' _. rewrite Z. ring.
      + intros a H1 H2 k p v0. rewrite U2, U1; auto.
  Qed.
End Tetra.

Section Triangle.
  Variable g : generator.
  Variables n me : nat.
  Hypothesis Once : owned_once g.
  Hypothesis Lay1 : laid_out g n 1 3 me.
  Hypothesis Se : fst (gen_interval g) = me.
  Hypothesis He : honest g me (snd (gen_interval g)).

  Lemma permute_triangle cs c bc phi : triangle cs c -> tb_dof phi = n ->
    exists phi', permute_table cs c g bc phi = Ok phi' /\ shaped phi phi' /\
      (forall i e (Be : list nat -> nat -> R) w k p, (i < 3)%nat ->
         edge_bases matrix (nat -> R) (act me) (snd (gen_interval g)) Be ->
         stored_edge cs c i e -> row w phi k p (dofs g 1 i) = Be (edge_of (c_nodes c) i) ->
         row w phi' k p (dofs g 1 i) = Be e) /\
      (forall i w k p, (i < 3)%nat -> (forall r, row w phi k p (dofs g 1 i) r = 0) -> forall r, row w phi' k p (dofs g 1 i) r = 0) /\
      (forall a, (forall j, (j < 3)%nat -> ~ In a (dofs g 1 j)) -> forall k p v, tb_val phi' k p a v = tb_val phi k p a v).
  Proof.
    intros (Hd & Ln & N & St) Hn. unfold permute_table. rewrite Hd. cbn [Nat.eqb].
    destruct (list3 _ Ln) as (n0 & n1 & n2 & En). rewrite En in *.
    set (v i := match sub_edge_nodes cs c i with Ok v => v | Err _ => [] end).
    assert (Ev : forall i, (i < 3)%nat -> sub_edge_nodes cs c i = Ok (v i) /\ Permutation (v i) (edge_of [n0; n1; n2] i)).
    { intros i Hi. destruct (St i Hi) as (e & He' & Pe). apply sub_edge in He'. unfold v. rewrite He'. auto. }
    assert (De : forall i, (i < 3)%nat -> length (edge_of [n0; n1; n2] i) = 2%nat /\ NoDup (edge_of [n0; n1; n2] i)).
    { intros i Hi. apply NoDup_cons_iff in N as [N1 N]. apply NoDup_cons_iff in N as [N2 N]. simpl in *.
      destruct i as [|[|[|i]]]; try lia; (split; [reflexivity|]); repeat constructor; simpl; tauto. }
    assert (Same : forall i e, (i < 3)%nat -> stored_edge cs c i e -> e = v i).
    { intros i e Hi S. apply sub_edge in S. destruct (Ev i Hi) as [Q _]. congruence. }
    destruct (gen_identity g) eqn:Ei.
    - exists phi. split; auto. split; [apply shaped_refl|]. pose proof (act_identity me _ (He Ei)) as A3. split; [|split; auto].
      intros i e Be w k p Hi HB S HR. rewrite HR. rewrite (Same i e Hi S). destruct (Ev i Hi) as [_ P]. destruct (De i Hi) as [L2 N2].
      destruct (list2 _ L2) as (a & b & Eab). rewrite Eab in *. symmetry in P. apply Permutation_length_2_inv in P as [->| ->]; auto.
      pose proof (HB [b; a] eq_refl) as Q. rewrite A3 in Q. auto.
    - unfold edge_orientation_2d. rewrite En.
      replace (mapM (take [n0; n1; n2]) triangle_edges) with (Ok (map (edge_of [n0; n1; n2]) [0; 1; 2]%nat)) by reflexivity. cbn [bind].
      rewrite (mapM_enumerate _ (map (edge_of [n0; n1; n2]) [0; 1; 2]%nat) (fun i e => eqb e (v i))).
      2:{ intros i e Hi. cbn [fst snd].
          assert (i < 3)%nat by (change 3%nat with (length (map (edge_of [n0; n1; n2]) [0; 1; 2]%nat)); apply nth_error_Some; congruence).
          destruct (Ev i H) as [-> _]. reflexivity. }
      cbn [bind]. set (q := map _ (enumerate _)).
      assert (Nq : forall i, (i < 3)%nat -> nth_error q i = Some (eqb (edge_of [n0; n1; n2] i) (v i))).
      { intros i Hi. unfold q. rewrite (map_nth_error _ i (enumerate _) (d := (i, edge_of [n0; n1; n2] i))); [reflexivity|]. rewrite nth_error_enumerate. rewrite (map_nth_error _ i [0; 1; 2]%nat (d := i)); [reflexivity|].
        destruct i as [|[|[|i]]]; try reflexivity. lia. }
      destruct (transform_edges_lemma g n Once 3 me q phi Lay1 eq_refl Se Hn) as (phi2 & E2 & S2 & R2 & U2).
      exists phi2. split; auto. split; auto. split; [|split; auto].
      + intros i e Be w k p Hi HB S HR. rewrite (R2 i _ (Nq i Hi)), HR, (Same i e Hi S). destruct (Ev i Hi) as [_ Pv]. destruct (De i Hi) as [L2 N2].
        apply (edge_row matrix (nat -> R) (act me) _ Be HB); auto. symmetry; auto.
      + intros i w k p Hi Z r. rewrite (R2 i _ (Nq i Hi)). unfold transform_edge. destruct (eqb _ _); auto. unfold act. destruct (Nat.ltb_spec r me); auto.
        apply rsum_zero. intros s _. rewrite Z. ring.
  Qed.
End Triangle.
