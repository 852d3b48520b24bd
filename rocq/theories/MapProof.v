(** * Lemmas: trace map and Jacobian, C46, C56 *)
From Coq Require Import List Arith Bool Reals Lra Lia Permutation.
From Verif Require Import Base BaseProof MeshModel OrientModel OrientSpec OrientProof VecBase VecProof MapModel MapSpec.
Import ListNotations.

Lemma index_of_first x l i : nth_error l i = Some x -> (forall k, k < i -> nth_error l k <> Some x) -> index_of x l = Ok i.
Proof.
  revert i. induction l as [|y l IH]; intros i Hi Hf; [destruct i; discriminate|]. simpl.
  destruct (Nat.eqb_spec x y) as [->|Hn].
  - destruct i as [|i]; auto. exfalso. apply (Hf 0); auto. lia.
  - destruct i as [|i]; simpl in Hi; [congruence|]. rewrite (IH i Hi); auto. intros k Hk. apply (Hf (S k)). lia.
Qed.

Lemma take_combine (a : list nat) local sub : take a local = Ok sub -> forall k j, In (k, j) (combine sub local) -> get_at a j = Ok k.
Proof.
  revert sub. induction local as [|i local IH]; intros sub H k j Hin; unfold take in *; simpl in H.
  - inversion H; subst. destruct Hin.
  - destruct (get_at a i) eqn:E; [|discriminate]. cbn [bind] in H. destruct (mapM (get_at a) local) eqn:F; [|discriminate]. inversion H; subst.
    destruct Hin as [Q|Hin]; [inversion Q; subst; auto|]. eapply IH; eauto.
Qed.
Lemma in_combine_fst {A B} (l : list A) (l' : list B) x : In x l -> length l = length l' -> exists y, In (x, y) (combine l l').
Proof.
  revert l'. induction l as [|a l IH]; intros [|b l'] H L; simpl in *; try discriminate; try tauto.
  destruct H as [->|H]; eauto. destruct (IH l' H) as (y & Hy); [lia|]. eauto.
Qed.
Lemma align_spec c1 c0 local sub : take c0 local = Ok sub -> Permutation c1 sub ->
  exists facet, align_facet c1 c0 local c1 = Ok facet /\ mapM (get_at c0) facet = Ok c1.
Proof.
  intros T P. unfold align_facet. rewrite T. cbn [bind]. destruct (eqb c1 sub) eqn:E.
  - rewrite eqb_true in E. subst. exists local. split; [reflexivity|exact T].
  - replace (eqb (sort_nat c1) (sort_nat sub)) with true by (symmetry; apply eqb_true, sort_nat_eq_iff; auto).
    assert (L : length sub = length local) by (eapply mapM_length; eauto).
    assert (H : forall k, In k c1 -> exists j, dindex (dict_of (combine sub local)) k = Ok j /\ get_at c0 j = Ok k).
    { intros k Hk. eapply Permutation_in in Hk; [|exact P]. destruct (in_combine_fst _ _ _ Hk L) as (y & Hy).
      unfold dindex. rewrite dget_dict_of. destruct (dget (rev (combine sub local)) k) as [j|] eqn:D.
      - apply dget_Some_In, in_rev in D. exists j. split; auto. eapply take_combine; eauto.
      - exfalso. apply dget_None in D. apply D. unfold dkeys. apply in_map_iff. exists (k, y). split; auto. rewrite <- in_rev. auto. }
    clear E P. induction c1 as [|k c1 IH]; simpl; [eauto|]. destruct (H k (or_introl eq_refl)) as (j & D & G). rewrite D. cbn [bind].
    destruct IH as (facet & F1 & F2); [intros; apply H; simpl; auto|]. rewrite F1. cbn [bind]. eexists. split; [reflexivity|].
    simpl. rewrite G. cbn [bind]. rewrite F2. reflexivity.
Qed.
Lemma align_rejects c1 c0 local sub : take c0 local = Ok sub -> ~ Permutation c1 sub -> align_facet c1 c0 local c1 = Err AssertionError.
Proof.
  intros T P. unfold align_facet. rewrite T. cbn [bind].
  replace (eqb c1 sub) with false by (symmetry; apply eqb_false; intros ->; auto).
  replace (eqb (sort_nat c1) (sort_nat sub)) with false; auto. symmetry. apply eqb_false. rewrite sort_nat_eq_iff. auto.
Qed.

Lemma mapM_ok {A B} (f : A -> res B) (R : A -> B -> Prop) l : (forall x, In x l -> exists y, f x = Ok y /\ R x y) ->
  exists ys, mapM f l = Ok ys /\ Forall2 R l ys.
Proof.
  induction l as [|x l IH]; intros H; simpl; [eauto|]. destruct (H x (or_introl eq_refl)) as (y & -> & Ry). cbn [bind].
  destruct IH as (ys & -> & F); [intros; apply H; simpl; auto|]. cbn [bind]. eauto.
Qed.
Lemma get_at_lt {A} (l : list A) i x : get_at l i = Ok x -> i < length l /\ nth_error l i = Some x.
Proof. unfold get_at. destruct (nth_error l i) eqn:E; intros H; inversion H; subst. split; auto. apply nth_error_Some. congruence. Qed.

Local Open Scope R_scope.
Ltac vcoords := apply vec_ext; unfold map_x, lincomb, linear_shapes, ladd, lscale, vadd, vscale, vzero; simpl; ring.

Lemma trace_lemma points c1 c0 i (X : nat -> vec) : is_facet c1 c0 i ->
  Forall (reference_point (c_dim c1)) points ->
  (Permutation (c_nodes c1) (facet_nodes (c_dim c0) (c_nodes c0) i) ->
     exists mapped, transform_lower_to_higher points c1 c0 = Ok (Some mapped) /\
     Forall2 (fun p q => length q = c_dim c0 /\ map_x (c_dim c0) (map X (c_nodes c0)) q = map_x (c_dim c1) (map X (c_nodes c1)) p) points mapped) /\
  (~ Permutation (c_nodes c1) (facet_nodes (c_dim c0) (c_nodes c0) i) -> c_dim c1 <> 0%nat ->
     transform_lower_to_higher points c1 c0 = Err AssertionError).
Proof.
  intros (D0 & D1 & L0 & N0 & Hi & subs & S1 & S2 & S3) Hp. unfold transform_lower_to_higher.
  assert (S1' : get_at (c_sub c0) (c_dim c1) = Ok subs) by (unfold get_at; rewrite S1; auto). rewrite S1'. cbn [bind]. rewrite (index_of_first _ _ _ S2 S3). cbn [bind].
  rewrite D0 in *. rewrite Forall_forall in Hp.
  destruct (c_dim c1) as [|[|[|d]]]; [| | |lia]; cbn [Nat.add] in *.
  - (* a vertex of a line *)
    split; [|congruence]. intros P. destruct (list2 _ L0) as (a & b & E0). rewrite E0 in *. unfold R0_to_R1.
    assert (E1 : c_nodes c1 = facet_nodes 1 [a; b] i).
    { destruct i as [|[|i]]; try lia; simpl in *; apply Permutation_sym, Permutation_length_1_inv in P; auto. }
    unfold align_facet. rewrite E0, E1.
    destruct i as [|[|i]]; try lia; cbn [facet_nodes firstn skipn];
      cbn [get_at facet_connectivity nth_error bind take mapM eqb].
    + replace (eqb [a] [a]) with true by (symmetry; apply eqb_true; auto). cbn [bind].
      destruct (mapM_ok (fun p : list R => match p with [xi] => do i0 <- get_at [0%nat] 0; do v0 <- get_at (reference_vertices 1) i0; Ok (lscale xi v0) | _ => Err ValueError end)
        (fun p q => length q = 1%nat /\ map_x 1 (map X [a; b]) q = map_x 0 (map X [a]) p) points) as (ys & -> & F).
      { intros p Hin. rewrite (Hp p Hin). eexists. split; [reflexivity|]. split; auto. vcoords. }
      cbn [bind]. eexists. split; [reflexivity|exact F].
    + replace (eqb [b] [b]) with true by (symmetry; apply eqb_true; auto). cbn [bind].
      destruct (mapM_ok (fun p : list R => match p with [xi] => do i0 <- get_at [1%nat] 0; do v0 <- get_at (reference_vertices 1) i0; Ok (lscale xi v0) | _ => Err ValueError end)
        (fun p q => length q = 1%nat /\ map_x 1 (map X [a; b]) q = map_x 0 (map X [b]) p) points) as (ys & -> & F).
      { intros p Hin. rewrite (Hp p Hin). eexists. split; [reflexivity|]. split; auto. vcoords. }
      cbn [bind]. eexists. split; [reflexivity|exact F].
  - (* an edge of a triangle *)
    destruct (list3 _ L0) as (a & b & c & E0). rewrite E0 in *. unfold R1_to_R2. rewrite E0.
    assert (T : exists local, get_at (facet_connectivity 2) i = Ok local /\ take [a; b; c] local = Ok (facet_nodes 2 [a; b; c] i)).
    { destruct i as [|[|[|i]]]; try lia; (eexists; split; [reflexivity|reflexivity]). }
    destruct T as (local & G & T). rewrite G. cbn [bind]. split.
    + intros P. destruct (align_spec _ _ _ _ T P) as (facet & A & Fc). rewrite A. cbn [bind].
      assert (L1 : length (c_nodes c1) = 2%nat).
      { apply Permutation_length in P. rewrite P. destruct i as [|[|[|i]]]; try lia; reflexivity. }
      destruct (list2 _ L1) as (x & y & E1). rewrite E1 in *.
      destruct (list2 facet) as (j0 & j1 & ->). { apply mapM_length in Fc. simpl in Fc. congruence. }
      cbn [mapM bind] in Fc. destruct (get_at [a; b; c] j0) as [x'|] eqn:G0; [|discriminate]. cbn [bind] in Fc.
      destruct (get_at [a; b; c] j1) as [y'|] eqn:G1; [|discriminate]. cbn [bind] in Fc. inversion Fc; subst x' y'.
      apply get_at_lt in G0 as [H0 G0], G1 as [H1 G1]. simpl in H0, H1.
      set (f := fun p : list R => _).
      destruct (mapM_ok f (fun p q => length q = 2%nat /\ map_x 2 (map X [a; b; c]) q = map_x 1 (map X [x; y]) p) points) as (ys & -> & F).
      { intros p Hin. specialize (Hp p Hin). destruct p as [|xi [|]]; try discriminate. subst f. cbn beta iota.
        clear - H0 H1 G0 G1.
        destruct j0 as [|[|[|j0]]], j1 as [|[|[|j1]]]; try lia; simpl in G0, G1; inversion G0; inversion G1; subst;
          (eexists; split; [reflexivity|]; split; [reflexivity|]); vcoords. }
      cbn [bind]. eexists. split; [reflexivity|exact F].
    + intros P _. rewrite (align_rejects _ _ _ _ T P). reflexivity.
  - (* a face of a tetrahedron *)
    destruct (list4 _ L0) as (a & b & c & d & E0). rewrite E0 in *. unfold R2_to_R3. rewrite E0.
    assert (T : exists local, get_at (facet_connectivity 3) i = Ok local /\ take [a; b; c; d] local = Ok (facet_nodes 3 [a; b; c; d] i)).
    { destruct i as [|[|[|[|i]]]]; try lia; (eexists; split; [reflexivity|reflexivity]). }
    destruct T as (local & G & T). rewrite G. cbn [bind]. split.
    + intros P. destruct (align_spec _ _ _ _ T P) as (facet & A & Fc). rewrite A. cbn [bind].
      assert (L1 : length (c_nodes c1) = 3%nat).
      { apply Permutation_length in P. rewrite P. destruct i as [|[|[|[|i]]]]; try lia; reflexivity. }
      destruct (list3 _ L1) as (x & y & z & E1). rewrite E1 in *.
      destruct (list3 facet) as (j0 & j1 & j2 & ->). { apply mapM_length in Fc. simpl in Fc. congruence. }
      cbn [mapM bind] in Fc. destruct (get_at [a; b; c; d] j0) as [x'|] eqn:G0; [|discriminate]. cbn [bind] in Fc.
      destruct (get_at [a; b; c; d] j1) as [y'|] eqn:G1; [|discriminate]. cbn [bind] in Fc.
      destruct (get_at [a; b; c; d] j2) as [z'|] eqn:G2; [|discriminate]. cbn [bind] in Fc. inversion Fc; subst x' y' z'.
      apply get_at_lt in G0 as [H0 G0], G1 as [H1 G1], G2 as [H2 G2]. simpl in H0, H1, H2.
      set (f := fun p : list R => _).
      destruct (mapM_ok f (fun p q => length q = 3%nat /\ map_x 3 (map X [a; b; c; d]) q = map_x 2 (map X [x; y; z]) p) points) as (ys & -> & F).
      { intros p Hin. specialize (Hp p Hin). destruct p as [|xi [|eta [|]]]; try discriminate. subst f. cbn beta iota.
        clear - H0 H1 H2 G0 G1 G2.
        destruct j0 as [|[|[|[|j0]]]], j1 as [|[|[|[|j1]]]], j2 as [|[|[|[|j2]]]]; try lia; simpl in G0, G1, G2; inversion G0; inversion G1; inversion G2; subst;
          (eexists; split; [reflexivity|]; split; [reflexivity|]); vcoords. }
      cbn [bind]. eexists. split; [reflexivity|exact F].
    + intros P _. rewrite (align_rejects _ _ _ _ T P). reflexivity.
Qed.
