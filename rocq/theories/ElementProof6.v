(** * Lemmas: values, lines, construction *)
From Coq Require Import String List Arith ZArith Bool Reals Lra Lia Permutation FunctionalExtensionality.
From Verif Require Import Base BaseProof MeshModel MeshSpec GraphModel OrientModel OrientSpec OrientProof VecBase VecProof MapModel MapSpec MapProof JacProof SpaceModel ElementModel ElementSpec ElementProof ElementProof2 ElementProof3 ElementProof4 ElementProof5.
Import ListNotations.
Local Open Scope R_scope.

Lemma row_one t k i ds r : tb_vs t = 1%nat -> (r < List.length ds)%nat -> row (fun _ => 1) t k i ds r = tb_val t k i (nth r ds 0%nat) 0%nat.
Proof. intros V H. unfold row. rewrite V. destruct (Nat.ltb_spec r (List.length ds)); [|lia]. simpl. ring. Qed.

Lemma values3_lemma cs el mp n me mf phi psi_e psi_f points :
  tetrahedron cs (el_cell el) -> List.length (el_bc_entities el) = 4%nat ->
  gen_map (el_generator el) = MIdentity -> tabulates (el_generator el) 3 n 1 phi -> owned_once (el_generator el) ->
  laid_out (el_generator el) n 1 6 me -> laid_out (el_generator el) n 2 4 mf ->
  edge_change (el_generator el) me 1 psi_e -> face_change (el_generator el) mf 1 psi_f ->
  edge_values (el_generator el) 3 me phi psi_e -> face_values (el_generator el) mf phi psi_f ->
  Forall (fun p => List.length p = 3%nat) points ->
  exists t, evaluate_basis cs el points mp = Ok t /\ tb_der t = 4%nat /\ tb_pts t = List.length points /\ tb_dof t = n /\ tb_vs t = 1%nat /\
    forall k p l, nth_error points k = Some p -> barycentric (c_nodes (el_cell el)) p l ->
      (forall i e r, (i < 6)%nat -> on_edge 3 i p -> increasing e -> Permutation e (tetra_edge_of (c_nodes (el_cell el)) i) -> (r < me)%nat ->
         tb_val t 0 k (nth r (dofs (el_generator el) 1 i) 0%nat) 0 = psi_e r (map l e)) /\
      (forall i f r, (i < 4)%nat -> nth i (linear_shapes p) 0 = 0 -> increasing f -> Permutation f (face_of (c_nodes (el_cell el)) i) -> (r < mf)%nat ->
         tb_val t 0 k (nth r (dofs (el_generator el) 2 i) 0%nat) 0 =
         psi_f r (map l (if overridden (el_bc_entities el) i && even (face_of (c_nodes (el_cell el)) i) then reflected f else f))) /\
      (forall d i, (d = 1 /\ i < 6 \/ d = 2 /\ i < 4)%nat -> (forall a, In a (dofs (el_generator el) d i) -> phi 0%nat a 0%nat p = 0) ->
         forall a, In a (dofs (el_generator el) d i) -> tb_val t 0 k a 0 = 0) /\
      (forall a, (a < n)%nat -> (forall j, (j < 6)%nat -> ~ In a (dofs (el_generator el) 1 j)) -> (forall j, (j < 4)%nat -> ~ In a (dofs (el_generator el) 2 j)) ->
         forall q, (q <= 3)%nat -> tb_val t q k a 0 = phi q a 0%nat p).
Proof.
  intros Tet Lb Gm Tb On L1 L2 Ec Fc Ev Fv Fp. set (c := el_cell el) in *. set (g := el_generator el) in *.
  pose proof Tet as (Hd & Ln & N & _).
  destruct (stage_scalar cs el points mp 3 n 1 phi Hd ltac:(lia) Gm Tb Fp) as (t & St & T1 & T2 & T3 & T4 & Tv).
  unfold staged in St. fold c g in St.
  pose proof Fc as (Sm & H1 & H2 & Fc'). pose proof Ec as (Se & H3 & _).
  destruct (permute_tetra g n me mf On L1 L2 Se Sm H3 H1 H2 cs c (el_bc_entities el) t Tet Lb T3) as (t' & Et & Sh & Pf & Pe & Pz & Pu).
  destruct Sh as (Sh1 & Sh2 & Sh3 & Sh4). exists t'. split; [congruence|]. split; [lia|]. split; [lia|]. split; [lia|]. split; [lia|].
  intros k p l Hp Bl. destruct (list4 _ Ln) as (n0 & n1 & n2 & n3 & En).
  assert (Lp : List.length p = 3%nat) by (rewrite Forall_forall in Fp; apply Fp; eapply nth_error_In; eauto).
  split; [|split; [|split]].
  - intros i e r Hi Hz I P Hr. destruct L1 as [_ L1]. destruct (L1 i Hi) as (Ld1 & _ & Ind).
    rewrite <- (row_one t' 0 k (dofs g 1 i) r) by (auto; lia).
    rewrite (Pe i e (trace_basis me psi_e l 1 false) (fun _ => 1) 0%nat k Hi (edge_bases_plain g me psi_e l 1 Ec) I P).
    + unfold trace_basis. destruct (Nat.ltb_spec r me); [ring|lia].
    + apply functional_extensionality. intros s. unfold trace_basis. destruct (Nat.ltb_spec s me) as [Hs|Hs].
      * rewrite row_one by (auto; lia). rewrite (Tv 0%nat k p) by (auto; try lia; apply Ind, nth_In; lia). rewrite (Ev i p s) by auto.
        cbn [local_edge]. rewrite En in Bl |- *. rewrite (bary_edge3 _ _ _ _ _ _ _ Bl Hi). ring.
      * unfold row. destruct (Nat.ltb_spec s (List.length (dofs g 1 i))); auto. lia.
  - intros i g0 r Hi Hz I P Hr. destruct L2 as [_ L2]. destruct (L2 i Hi) as (Ld2 & _ & In2).
    assert (L3 : List.length g0 = 3%nat).
    { rewrite En in *. destruct (face_of_distinct _ _ _ _ i N Hi) as (x & y & z & Efc & _). apply Permutation_length in P. rewrite Efc in P. auto. }
    destruct (list3 g0 L3) as (a0 & b0 & c0 & Eg).
    rewrite <- (row_one t' 0 k (dofs g 2 i) r) by (auto; lia).
    rewrite (Pf i g0 (trace_basis mf psi_f l 1 false) (fun _ => 1) 0%nat k Hi (face_bases_plain g mf psi_f l 1 Fc) I P).
    + unfold face_row. destruct (overridden _ i && even _).
      * unfold act. destruct (Nat.ltb_spec r mf); [|lia].
        transitivity (rsum mf (fun s => snd (snd (gen_triangle g)) r s * psi_f s (map l g0))).
        { apply rsum_ext. intros s Hs. unfold trace_basis. destruct (Nat.ltb_spec s mf); [|lia]. ring. }
        rewrite Eg. cbn [map reflected]. destruct (Fc' r (l a0) (l c0) (l b0) Hr) as [_ Q]. rewrite Q. ring.
      * unfold trace_basis. destruct (Nat.ltb_spec r mf); [ring|lia].
    + apply functional_extensionality. intros s. unfold trace_basis. destruct (Nat.ltb_spec s mf) as [Hs|Hs].
      * rewrite row_one by (auto; lia). rewrite (Tv 0%nat k p) by (auto; try lia; apply In2, nth_In; lia). rewrite (Fv i p s) by auto.
        rewrite En in Bl |- *. rewrite (bary_face _ _ _ _ _ _ _ Bl Hi). ring.
      * unfold row. destruct (Nat.ltb_spec s (List.length (dofs g 2 i))); auto. lia.
  - intros d i Hdi Z a Ha. destruct (in_nth_dof _ _ Ha) as (r & Hr & Er). rewrite <- Er. rewrite <- (row_one t' 0 k (dofs g d i) r) by (auto; lia).
    apply Pz; auto. intros s. unfold row. destruct (Nat.ltb_spec s (List.length (dofs g d i))) as [Hs|Hs]; auto. rewrite T4.
    assert (Qi : In (nth s (dofs g d i) 0%nat) (dofs g d i)) by (apply nth_In; auto).
    assert (Qn : (nth s (dofs g d i) 0 < n)%nat).
    { destruct Hdi as [[-> Hj]|[-> Hj]]; [destruct L1 as [_ L1]; apply (L1 i Hj); auto|destruct L2 as [_ L2]; apply (L2 i Hj); auto]. }
    cbn. rewrite (Tv 0%nat k p) by (auto; lia). rewrite Z by auto. ring.
  - intros a Ha A1 A2 q Hq. rewrite Pu by auto. apply Tv; auto.
Qed.

Lemma values2_lemma cs el mp n m phi psi points :
  triangle cs (el_cell el) ->
  gen_map (el_generator el) = MIdentity -> tabulates (el_generator el) 2 n 1 phi -> owned_once (el_generator el) ->
  laid_out (el_generator el) n 1 3 m -> edge_change (el_generator el) m 1 psi -> edge_values (el_generator el) 2 m phi psi ->
  Forall (fun p => List.length p = 2%nat) points ->
  exists t, evaluate_basis cs el points mp = Ok t /\ tb_der t = 3%nat /\ tb_pts t = List.length points /\ tb_dof t = n /\ tb_vs t = 1%nat /\
    forall k p l, nth_error points k = Some p -> barycentric (c_nodes (el_cell el)) p l ->
      (forall i e r, (i < 3)%nat -> on_edge 2 i p -> stored_edge cs (el_cell el) i e -> (r < m)%nat ->
         tb_val t 0 k (nth r (dofs (el_generator el) 1 i) 0%nat) 0 = psi r (map l e)) /\
      (forall i, (i < 3)%nat -> (forall a, In a (dofs (el_generator el) 1 i) -> phi 0%nat a 0%nat p = 0) ->
         forall a, In a (dofs (el_generator el) 1 i) -> tb_val t 0 k a 0 = 0) /\
      (forall a, (a < n)%nat -> (forall j, (j < 3)%nat -> ~ In a (dofs (el_generator el) 1 j)) ->
         forall q, (q <= 2)%nat -> tb_val t q k a 0 = phi q a 0%nat p).
Proof.
  intros Tr Gm Tb On L1 Ec Ev Fp. set (c := el_cell el) in *. set (g := el_generator el) in *.
  pose proof Tr as (Hd & Ln & N & _).
  destruct (stage_scalar cs el points mp 2 n 1 phi Hd ltac:(lia) Gm Tb Fp) as (t & St & T1 & T2 & T3 & T4 & Tv).
  unfold staged in St. fold c g in St.
  destruct (permute_triangle g n m On L1 (proj1 Ec) (proj1 (proj2 Ec)) cs c (el_bc_entities el) t Tr T3) as (t' & Et & Sh & _).
  destruct Sh as (Sh1 & Sh2 & Sh3 & Sh4). exists t'. split; [congruence|]. split; [lia|]. split; [lia|]. split; [lia|]. split; [lia|].
  intros k p l Hp Bl. destruct (list3 _ Ln) as (n0 & n1 & n2 & En).
  destruct (triangle_functional cs c g n m k (el_bc_entities el) false 1 psi t Tr On L1 Ec T3) as (t'' & Et' & _ & Pe & Pz & Pu).
  assert (t'' = t') by congruence. subst t''.
  split; [|split].
  - intros i e r Hi Hz Se Hr. pose proof L1 as [_ L1']. destruct (L1' i Hi) as (Ld1 & _ & Ind).
    rewrite <- (row_one t' 0 k (dofs g 1 i) r) by (auto; lia).
    rewrite (Pe i e l (fun _ => 1) 0%nat Hi Se); auto.
    + unfold trace_basis. destruct (Nat.ltb_spec r m); [ring|lia].
    + intros s Hs. rewrite row_one by (auto; lia). rewrite (Tv 0%nat k p) by (auto; try lia; apply Ind, nth_In; lia). rewrite (Ev i p s) by auto.
      unfold trace_basis. destruct (Nat.ltb_spec s m); [|lia]. cbn [local_edge]. rewrite En in Bl |- *. rewrite (bary_edge2 _ _ _ _ _ _ Bl Hi). ring.
  - intros i Hi Z a Ha. destruct (in_nth_dof _ _ Ha) as (r & Hr & Er). rewrite <- Er. rewrite <- (row_one t' 0 k (dofs g 1 i) r) by (auto; lia).
    apply Pz; auto. intros s. unfold row. destruct (Nat.ltb_spec s (List.length (dofs g 1 i))) as [Hs|Hs]; auto. rewrite T4.
    assert (Qi : In (nth s (dofs g 1 i) 0%nat) (dofs g 1 i)) by (apply nth_In; auto).
    pose proof L1 as [_ L1']. destruct (L1' i Hi) as (_ & _ & Ind). cbn. rewrite (Tv 0%nat k p) by (auto; lia). rewrite Z by auto. ring.
  - intros a Ha A1 q Hq. rewrite Pu by auto. apply Tv; auto.
Qed.

(** ** Lines *)
Lemma line_scalar_lemma cs el mp n phi points : c_dim (el_cell el) = 1%nat -> el_generator_family el = FP ->
  gen_map (el_generator el) = MIdentity -> tabulates (el_generator el) 1 n 1 phi -> Forall (fun p => List.length p = 1%nat) points ->
  exists t, evaluate_basis cs el points mp = Ok t /\ tb_der t = 2%nat /\ tb_pts t = List.length points /\ tb_dof t = n /\ tb_vs t = 1%nat /\
    forall k i p a, (k <= 1)%nat -> nth_error points i = Some p -> (a < n)%nat -> tb_val t k i a 0 = phi k a 0%nat p.
Proof.
  intros Hd Hf Hm Tb Fp. destruct (Tb points Fp) as (t & Et & T1 & T2 & T3 & T4 & V). unfold evaluate_basis. rewrite Hd, Hf, Hm. cbn [Nat.eqb].
  rewrite Et. cbn [bind]. unfold push_forward, store_mapped, same_shape, first_slice. cbn [sl_pts sl_dof sl_vs]. rewrite !Nat.eqb_refl. cbn [andb bind].
  rewrite vector_family_ok. cbn [bind andb]. unfold permute_table. rewrite Hd. cbn [Nat.eqb]. eexists. split; [reflexivity|]. cbn. repeat split; auto.
  intros k i p a Hk Hp Ha. destruct k; cbn; apply V; auto.
Qed.

Lemma line_vector_lemma qr inv X cs el pos n phi points x0 x1 : is_inverse inv ->
  c_dim (el_cell el) = 1%nat -> c_nodes (el_cell el) = [x0; x1] -> el_generator_family el <> FP ->
  located X (el_cell el) pos -> nondegenerate qr pos 1 (c_nodes (el_cell el)) ->
  gen_map (el_generator el) = MIdentity -> tabulates (el_generator el) 1 n 1 phi -> points <> [] -> Forall (fun p => List.length p = 1%nat) points ->
  exists mp, element_mapping qr inv X (el_cell el) points = Ok mp /\
    (List.length points = n \/ List.length points = 1%nat ->
     exists t, evaluate_basis cs el points mp = Ok t /\ tb_der t = 2%nat /\ tb_pts t = List.length points /\ tb_dof t = n /\ tb_vs t = 1%nat /\
       forall i p a, nth_error points i = Some p -> (a < n)%nat ->
         tb_val t 0 i a 0 = phi 0%nat a 0%nat p * (vx (vsub (pos x1) (pos x0)) / norm (vsub (pos x1) (pos x0))) /\
         tb_val t 1 i a 0 = phi 1%nat a 0%nat p) /\
    (List.length points <> n -> List.length points <> 1%nat -> evaluate_basis cs el points mp = Err ValueError).
Proof.
  intros Hinv Hd Hn Hf Lo Nd Hm Tb Ne Fp.
  destruct (mapping_lemma qr inv X (el_cell el) pos 1 points Hinv Lo Hd ltac:(lia) ltac:(rewrite Hn; reflexivity) Nd Ne Fp) as (mp & Em & Ld & Lj & Mp).
  exists mp. split; auto. destruct (Tb points Fp) as (t & Et & T1 & T2 & T3 & T4 & V).
  assert (E : evaluate_basis cs el points mp =
    (do scaled <- scale_line (first_slice t) mp;
     Ok (if same_shape (set_first t (first_slice t)) scaled then set_first (set_first t (first_slice t)) scaled else set_first t (first_slice t)))).
  { unfold evaluate_basis. rewrite Hd, Hm. cbn [Nat.eqb]. rewrite Et. cbn [bind]. unfold push_forward, store_mapped. unfold same_shape at 1, first_slice at 1 2 3. cbn [sl_pts sl_dof sl_vs].
    rewrite !Nat.eqb_refl. cbn [andb bind]. rewrite vector_family_ok. cbn [bind andb].
    replace (match el_generator_family el with FP => false | _ => true end) with true by (destruct (el_generator_family el); congruence).
    destruct (scale_line (first_slice t) mp) as [s|e]; cbn [bind]; auto. unfold permute_table. rewrite Hd. reflexivity. }
  unfold scale_line in E. unfold first_slice in E. cbn [sl_pts sl_dof sl_vs sl_val] in E. rewrite Ld, T2, Nat.eqb_refl, T3 in E. cbn [negb] in E.
  split.
  - intros Hc. replace ((List.length points =? n)%nat || (List.length points =? 1)%nat) with true in E.
    2:{ symmetry. apply orb_true_iff. destruct Hc as [Hc|Hc]; [left|right]; apply Nat.eqb_eq; auto. }
    cbn [bind] in E. unfold same_shape, set_first in E. cbn [tb_pts tb_dof tb_vs sl_pts sl_dof sl_vs] in E. rewrite T2, T3, !Nat.eqb_refl in E. cbn [andb] in E.
    eexists. split; [exact E|]. cbn [tb_der tb_pts tb_dof tb_vs tb_val]. repeat (split; [auto; fail|]).
    intros i p a Hp Ha. split; [|cbn; apply V; auto; lia]. cbn [Nat.eqb sl_val].
    assert (Hi : exists q, nth_error points (if (List.length points =? 1)%nat then 0%nat else a) = Some q).
    { destruct (nth_error points (if (List.length points =? 1)%nat then 0%nat else a)) eqn:Q; [eauto|]. apply nth_error_None in Q.
      destruct (Nat.eqb_spec (List.length points) 1); lia. }
    destruct Hi as (q & Hq). destruct (Mp _ _ Hq) as (_ & Mj & Md & _).
    rewrite (V 0%nat i p a 0%nat) by (auto; lia). rewrite (nth_of_error _ _ _ _ Md).
    erewrite nth_of_error. 2:{ rewrite nth_error_map, Mj. reflexivity. }
    rewrite Hn. unfold frame, measure, of_columns. cbn. field.
    destruct Nd as [Nd _]. rewrite Hn in Nd. unfold frame, measure in Nd. cbn in Nd. exact Nd.
  - intros C1 C2. apply Nat.eqb_neq in C1, C2. rewrite C1, C2 in E. cbn [orb bind] in E. exact E.
Qed.

(** ** Construction *)
Lemma effective_ok d f : effective_family d f = Ok (asked d f).
Proof. unfold effective_family. rewrite vector_family_ok. cbn [bind]. destruct d as [|[|d]], f; reflexivity. Qed.
Lemma cell_of_some cs id c : cell_of cs id = Ok c <-> nth_error cs id = Some (Some c).
Proof.
  unfold cell_of, get_at. destruct (nth_error cs id) as [[x|]|]; cbn; split; intros H; try discriminate; inversion H; auto.
Qed.
Lemma type_ok d ct : type_by_dimension (Z.of_nat d) = Ok ct <-> type_of d ct.
Proof.
  destruct d as [|[|[|[|d]]]]; try (cbn; split; intros H; [inversion H; auto|subst; auto]; fail).
  unfold type_by_dimension, dindex, type_of. split; [|tauto]. intros H. exfalso.
  assert (Q : forall z, (0 <= z <= 3)%Z -> (z = Z.of_nat (S (S (S (S d))))) -> False) by lia. revert H. cbn [dget].
  repeat (match goal with |- context[eq_dec ?a ?b] => destruct (eq_dec a b) as [E|_]; [exfalso; lia|] end). discriminate.
Qed.
Lemma facets_ok c subs : match c_dim c with 0%nat => get_at (rev (c_sub c)) 0 | S d => get_at (c_sub c) d end = Ok subs <-> facets c subs.
Proof.
  unfold facets. destruct (c_dim c) as [|d].
  - unfold get_at. split.
    + intros H. destruct (rev (c_sub c)) as [|x r] eqn:E; [discriminate|]. cbn in H. inversion H; subst. exists (rev r). rewrite <- (rev_involutive (c_sub c)), E. reflexivity.
    + intros (l & ->). rewrite rev_app_distr. reflexivity.
  - unfold get_at. destruct (nth_error (c_sub c) d); split; intros H; try discriminate; inversion H; auto.
Qed.
Lemma fold_sum l n : fold_left Nat.add l n = (n + list_sum l)%nat.
Proof. revert n. induction l as [|x l IH]; intros n; [cbn; lia|]. cbn [fold_left]. rewrite IH. change (list_sum (x :: l)) with (x + list_sum l)%nat. lia. Qed.
Lemma count_total ll : count_dofs ll = total ll.
Proof.
  unfold count_dofs, total. enough (Q : forall n, fold_left (fun n l => n + fold_left Nat.add l 0)%nat ll n = (n + list_sum (map list_sum ll))%nat) by apply Q.
  induction ll as [|x ll IH]; intros n; [cbn; lia|]. cbn [fold_left]. rewrite IH, fold_sum. cbn [map]. change (list_sum (list_sum x :: map list_sum ll)) with (list_sum x + list_sum (map list_sum ll))%nat. lia.
Qed.

Lemma element_lemma create cs id fam k disc order el :
  new_element create cs id fam k disc order = Ok el <->
  exists c ct g ids bc, nth_error cs id = Some (Some c) /\ type_of (c_dim c) ct /\ create (asked (c_dim c) fam) ct k disc = Ok g /\
    facets c ids /\ Forall2 (fun f b => exists x, nth_error cs f = Some (Some x) /\ (b = true <-> tagged cs f)) ids bc /\
    el = mk_element c fam k disc (if (order =? 0)%Z then (2 * k + 1)%Z else order) g (total (gen_num_entity_dofs g)) bc.
Proof.
  unfold new_element. split.
  - intros H. destruct (cell_of cs id) as [c|] eqn:Ec; [|discriminate]. cbn [bind] in H. rewrite effective_ok in H. cbn [bind] in H.
    destruct (type_by_dimension (Z.of_nat (c_dim c))) as [ct|] eqn:Et; [|discriminate]. cbn [bind] in H.
    destruct (create (asked (c_dim c) fam) ct k disc) as [g|] eqn:Eg; [|discriminate]. cbn [bind] in H.
    unfold fill_bc_entities in H. destruct (match c_dim c with 0%nat => _ | S _ => _ end) as [ids|] eqn:Ef; [|discriminate]. cbn [bind] in H.
    destruct (mapM _ ids) as [bc|] eqn:Eb; [|discriminate]. cbn [bind] in H. inversion H; subst el. clear H.
    exists c, ct, g, ids, bc. split; [apply cell_of_some; auto|]. split; [apply type_ok; auto|]. split; auto. split; [apply facets_ok; auto|].
    split; [|rewrite count_total; reflexivity].
    apply mapM_Forall2 in Eb. clear Ef. induction Eb as [|x y l l' Hxy _ IH]; constructor; auto.
    destruct (cell_of cs x) as [f|] eqn:Ex; [|discriminate]. cbn [bind] in Hxy. apply cell_of_some in Ex. exists f. split; auto. inversion Hxy. unfold tagged.
    destruct (c_mat f) eqn:Em; split; intros Q; auto; try discriminate; [exists f; split; auto; congruence|]. destruct Q as (f' & Q1 & Q2). congruence.
  - intros (c & ct & g & ids & bc & Ec & Et & Eg & Ef & Fb & ->). apply cell_of_some in Ec. rewrite Ec. cbn [bind]. rewrite effective_ok. cbn [bind].
    apply type_ok in Et. rewrite Et. cbn [bind]. rewrite Eg. cbn [bind]. unfold fill_bc_entities. apply facets_ok in Ef. rewrite Ef. cbn [bind].
    assert (Eb : mapM (fun id => do f <- cell_of cs id; Ok (match c_mat f with Some _ => true | None => false end)) ids = Ok bc).
    { clear Ef. induction Fb as [|x y l l' (f & Q1 & Q2) _ IH]; auto. cbn [mapM]. apply cell_of_some in Q1. rewrite Q1. cbn [bind]. rewrite IH. cbn [bind].
      do 2 f_equal. apply cell_of_some in Q1. destruct (c_mat f) eqn:Em, y; auto; exfalso.
      - assert (false = true) by (apply Q2; exists f; split; auto; congruence). discriminate.
      - destruct (proj1 Q2 eq_refl) as (f' & Q3 & Q4). congruence. }
    rewrite Eb. cbn [bind]. rewrite count_total. reflexivity.
Qed.

(** In dimension 0 *)
Lemma vertex_lemma cs el points mp : c_dim (el_cell el) = 0%nat -> exists t, evaluate_basis cs el points mp = Ok t /\ tb_der t = 1%nat /\ tb_pts t = 1%nat /\ tb_dof t = 1%nat /\ tb_vs t = 1%nat /\ tb_val t 0 0 0 0 = 1.
Proof. intros H. unfold evaluate_basis. rewrite H. cbn [Nat.eqb]. eexists. split; [reflexivity|]. cbn. auto 10. Qed.

(** Names *)
Lemma names_lemma : (forall name f, family_by_name name = Ok f <->
    (name = "Lagrange" /\ f = FP \/ name = "BDM" /\ f = FBDM \/ name = "RT" /\ f = FRT \/ (name = "N1E" \/ name = "N2E") /\ f = FN1E)%string) /\
  (forall name e, family_by_name name = Err e -> e = KeyError).
Proof.
  unfold family_by_name, dindex. cbn [dget]. split.
  - intros name f. repeat (match goal with |- context [eq_dec ?a ?b] => destruct (eq_dec a b) end);
      (split; [intros Q; inversion Q; subst; auto 12|intros Q; repeat (destruct Q as [Q|Q]); destruct Q as [Q1 Q2]; repeat (destruct Q1 as [Q1|Q1]); subst; try discriminate; try reflexivity; exfalso; auto]).
  - intros name e. repeat (match goal with |- context [eq_dec ?a ?b] => destruct (eq_dec a b) end); intros Q; inversion Q; auto.
Qed.
