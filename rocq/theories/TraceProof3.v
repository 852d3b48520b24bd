(** * Lemmas: traces of the families of elements *)
From Coq Require Import List Arith ZArith Bool Reals Lra Lia Permutation.
From Verif Require Import Base BaseProof MeshModel MeshSpec GraphModel OrientModel OrientSpec OrientProof VecBase VecProof MapModel MapSpec MapProof JacProof SpaceModel ShapeModel ElementModel ElementSpec ElementProof ElementProof2 ElementProof3 ElementProof7 TraceModel TraceSpec TraceProof TraceProof2.
Import ListNotations.
Local Open Scope R_scope.

Lemma barycentric_weight nodes p l x : NoDup nodes -> length nodes = length (linear_shapes p) -> barycentric nodes p l -> In x nodes -> l x = weight_of nodes (linear_shapes p) x.
Proof.
  intros N L B Hx. apply In_nth_error in Hx as (k & Hk). rewrite (weight_in nodes (linear_shapes p) k x N) by (auto; lia).
  assert (Hk' : (k < length nodes)%nat) by (apply nth_error_Some; congruence). rewrite <- (B k Hk'). rewrite (nth_of_error _ _ _ _ Hk). reflexivity.
Qed.
Lemma map_weights nodes p l f : NoDup nodes -> length nodes = length (linear_shapes p) -> barycentric nodes p l -> Permutation f nodes ->
  map (weight_of nodes (linear_shapes p)) f = map l f.
Proof. intros N L B P. apply map_ext_in. intros x Hx. symmetry. apply barycentric_weight; auto. eapply Permutation_in; eauto. Qed.
Lemma reflected_perm f : Permutation (reflected f) f.
Proof. destruct f as [|x [|y [|z [|]]]]; auto. simpl. apply perm_skip, perm_swap. Qed.
Lemma stored_unique cs c1 el i e : facet_of c1 el i -> c_dim c1 = 1%nat -> cell_of cs (c_id c1) = Ok c1 -> stored_edge cs (el_cell el) i e -> e = c_nodes c1.
Proof.
  intros [(_ & _ & _ & _ & _ & subs & S1 & S2 & _) _] D E H. rewrite D in S1. destruct H as (subs' & j & ec & H1 & H2 & H3 & H4).
  rewrite S1 in H1. inversion H1; subst subs'. rewrite S2 in H2. inversion H2; subst j. unfold cell_of, get_at in E. rewrite H3 in E. cbn [bind] in E. congruence.
Qed.

Section Families.
  Variable qr : nat -> matrix -> matrix * matrix.
  Variable inv : nat -> matrix -> matrix.
  Hypothesis Hinv : is_inverse inv.
  Variable X : list vec.
  Variable pos : nat -> vec.
  Variable cs : cells.

  Lemma facet_dim c1 el i d : facet_of c1 el i -> c_dim (el_cell el) = S d -> c_dim c1 = d /\ (i <= S d)%nat.
  Proof. intros [(D0 & _ & _ & _ & Hi & _) _] D. lia. Qed.

  Lemma flux_3d_lemma el n m phi psi points c1 i : placed qr X cs el pos 3 -> hdiv_3d (el_generator el) n m phi psi ->
    facet_of c1 el i -> facet_points c1 points ->
    exists t all, trace qr inv X cs points c1 el false = Ok t /\ trace qr inv X cs points c1 el true = Ok all /\
      shape t 4 (length points) m 3 /\ shape all 4 (length points) n 3 /\
      forall k p, nth_error points k = Some p ->
        (forall r, (r < m)%nat -> value_at t k r = value_at all k (nth r (dofs (el_generator el) 2 i) 0%nat)) /\
        forall f l, increasing f -> Permutation f (c_nodes c1) -> barycentric (c_nodes c1) p l ->
          (forall r, (r < m)%nat -> dot (value_at t k r) (area pos f) =
             handedness pos (c_nodes (el_cell el)) * if flipped el i then - psi r (map l (reflected f)) else psi r (map l f)) /\
          (forall a, (a < n)%nat -> ~ In a (dofs (el_generator el) 2 i) -> dot (value_at all k a) (area pos f) = 0).
  Proof.
    intros P H F Fp. pose proof P as [[(D & _) _] _]. destruct (facet_dim _ _ _ _ F D) as [D1 Hi].
    destruct (mapped_points points c1 el i F Fp) as (mapped & E & Pm & Lm & Hm). rewrite D in Pm.
    destruct (normal_3d_lemma qr inv Hinv X pos cs el n m phi psi mapped P H Pm) as (t & Ev & St & Hf).
    destruct (trace_eq qr inv X cs points c1 el i mapped t F E Ev) as [T1 T2].
    pose proof H as (_ & _ & _ & _ & _ & [(lo & Elo & Llo) Hlo] & _). rewrite D1 in T2.
    destruct (Hlo i ltac:(lia)) as (Ld & _ & Bd). pose proof St as (S1 & S2 & S3 & S4).
    exists (picked t (dofs (el_generator el) 2 i)), t. split; [apply (T2 lo); [auto|lia|rewrite S3; auto]|]. split; auto.
    rewrite Lm in *. split; [unfold shape, picked; cbn [tb_der tb_pts tb_dof tb_vs]; auto|]. split; auto.
    intros k p Hk. destruct (Hm k p Hk) as (q & Hq & Bq & Zq). split; [intros r Hr; reflexivity|].
    intros f l If Pf Bl. destruct Fp as [_ Fp]. rewrite Forall_forall in Fp. specialize (Fp p (nth_error_In _ _ Hk)).
    destruct (facet_weights c1 el i p F Fp) as [Nw Lw]. rewrite D1 in Bq, Lw. cbn [weights] in Bq, Lw.
    destruct (Hf k q i f _ Hq ltac:(lia) (Zq ltac:(lia)) Bq) as [Q1 Q2].
    { split; auto. destruct F as [_ F]. rewrite D in F. cbn [facet_nodes] in F. eapply Permutation_trans; eauto. }
    split; auto. intros r Hr. change (value_at (picked t (dofs (el_generator el) 2 i)) k r) with (value_at t k (nth r (dofs (el_generator el) 2 i) 0%nat)).
    rewrite Q1 by auto. rewrite (map_weights _ _ l f) by auto.
    assert (Pr : Permutation (reflected f) (c_nodes c1)) by (eapply Permutation_trans; [apply reflected_perm|auto]).
    rewrite (map_weights _ _ l (reflected f)) by auto. reflexivity.
  Qed.
  Lemma flux_2d_lemma el n m phi psi points c1 i nu : placed qr X cs el pos 2 -> hdiv_2d (el_generator el) n m phi psi ->
    facet_of c1 el i -> cell_of cs (c_id c1) = Ok c1 -> facet_points c1 points ->
    exists t all, trace qr inv X cs points c1 el false = Ok t /\ trace qr inv X cs points c1 el true = Ok all /\
      shape t 3 (length points) m 3 /\ shape all 3 (length points) n 3 /\
      forall k p, nth_error points k = Some p ->
        (forall r, (r < m)%nat -> value_at t k r = value_at all k (nth r (dofs (el_generator el) 1 i) 0%nat)) /\
        (forall r, (r < m)%nat -> dot (value_at t k r) (cross (along pos (c_nodes c1)) nu) =
           facing nu pos (c_nodes (el_cell el)) * psi r (linear_shapes p)) /\
        (forall a, (a < n)%nat -> ~ In a (dofs (el_generator el) 1 i) -> dot (value_at all k a) (cross (along pos (c_nodes c1)) nu) = 0).
  Proof.
    intros P H F Ec Fp. pose proof P as [(D & _ & _ & Hst) _]. destruct (facet_dim _ _ _ _ F D) as [D1 Hi].
    destruct (mapped_points points c1 el i F Fp) as (mapped & E & Pm & Lm & Hm). rewrite D in Pm.
    destruct (normal_2d_lemma qr inv Hinv X pos cs el n m phi psi mapped P H Pm) as (t & Ev & St & Hf).
    destruct (trace_eq qr inv X cs points c1 el i mapped t F E Ev) as [T1 T2].
    pose proof H as (_ & _ & _ & [(lo & Elo & Llo) Hlo] & _). rewrite D1 in T2.
    destruct (Hlo i ltac:(lia)) as (Ld & _ & Bd). pose proof St as (S1 & S2 & S3 & S4).
    exists (picked t (dofs (el_generator el) 1 i)), t. split; [apply (T2 lo); [auto|lia|rewrite S3; auto]|]. split; auto.
    rewrite Lm in *. split; [unfold shape, picked; cbn [tb_der tb_pts tb_dof tb_vs]; auto|]. split; auto.
    intros k p Hk. destruct (Hm k p Hk) as (q & Hq & Bq & Zq). split; [intros r Hr; reflexivity|].
    destruct Fp as [_ Fp]. rewrite Forall_forall in Fp. specialize (Fp p (nth_error_In _ _ Hk)).
    destruct (facet_weights c1 el i p F Fp) as [Nw Lw]. rewrite D1 in Bq, Lw. cbn [weights] in Bq, Lw.
    destruct (Hst i ltac:(lia)) as (e & He & _). pose proof (stored_unique cs c1 el i e F D1 Ec He) as Ee. subst e.
    destruct (Hf k q i (c_nodes c1) _ nu Hq ltac:(lia) (Zq ltac:(lia)) Bq He) as [Q1 Q2].
    split; auto. intros r Hr. change (value_at (picked t (dofs (el_generator el) 1 i)) k r) with (value_at t k (nth r (dofs (el_generator el) 1 i) 0%nat)).
    rewrite Q1 by auto. rewrite weights_map by auto. reflexivity.
  Qed.
  Lemma on_edge_2 el i q : (i < 3)%nat -> length q = 2%nat -> nth i (linear_shapes q) 0 = 0 -> c_dim (el_cell el) = 2%nat -> on_edge 2 i q.
  Proof.
    intros Hi Lq Z D. split; auto. intros k Hk Hn. destruct i as [|[|[|i]]]; try lia; simpl in Hn; destruct k as [|[|[|k]]]; try lia; auto; exfalso; apply Hn; auto.
  Qed.
  Lemma tangential_2d_lemma el n m phi psi points c1 i : placed qr X cs el pos 2 -> hcurl_2d (el_generator el) n m phi psi ->
    facet_of c1 el i -> cell_of cs (c_id c1) = Ok c1 -> facet_points c1 points ->
    exists t all, trace qr inv X cs points c1 el false = Ok t /\ trace qr inv X cs points c1 el true = Ok all /\
      shape t 3 (length points) m 3 /\ shape all 3 (length points) n 3 /\
      forall k p, nth_error points k = Some p ->
        (forall r, (r < m)%nat -> value_at t k r = value_at all k (nth r (dofs (el_generator el) 1 i) 0%nat)) /\
        (forall r, (r < m)%nat -> dot (value_at t k r) (along pos (c_nodes c1)) = psi r (linear_shapes p)) /\
        (forall a, (a < n)%nat -> ~ In a (dofs (el_generator el) 1 i) -> dot (value_at all k a) (along pos (c_nodes c1)) = 0).
  Proof.
    intros P H F Ec Fp. pose proof P as [(D & _ & _ & Hst) _]. destruct (facet_dim _ _ _ _ F D) as [D1 Hi].
    destruct (mapped_points points c1 el i F Fp) as (mapped & E & Pm & Lm & Hm). rewrite D in Pm.
    destruct (tangent_2d_lemma qr inv Hinv X pos cs el n m phi psi mapped P H Pm) as (t & Ev & St & Hf).
    destruct (trace_eq qr inv X cs points c1 el i mapped t F E Ev) as [T1 T2].
    pose proof H as (_ & _ & _ & [(lo & Elo & Llo) Hlo] & _). rewrite D1 in T2.
    destruct (Hlo i ltac:(lia)) as (Ld & _ & Bd). pose proof St as (S1 & S2 & S3 & S4).
    exists (picked t (dofs (el_generator el) 1 i)), t. split; [apply (T2 lo); [auto|lia|rewrite S3; auto]|]. split; auto.
    rewrite Lm in *. split; [unfold shape, picked; cbn [tb_der tb_pts tb_dof tb_vs]; auto|]. split; auto.
    intros k p Hk. destruct (Hm k p Hk) as (q & Hq & Bq & Zq). split; [intros r Hr; reflexivity|].
    destruct Fp as [_ Fp]. rewrite Forall_forall in Fp. specialize (Fp p (nth_error_In _ _ Hk)).
    destruct (facet_weights c1 el i p F Fp) as [Nw Lw]. rewrite D1 in Bq, Lw. cbn [weights] in Bq, Lw.
    destruct (Hst i ltac:(lia)) as (e & He & _). pose proof (stored_unique cs c1 el i e F D1 Ec He) as Ee. subst e.
    destruct Pm as [_ Pm]. rewrite Forall_forall in Pm.
    destruct (Hf k q i (c_nodes c1) _ Hq ltac:(lia) (on_edge_2 el i q ltac:(lia) (Pm q (nth_error_In _ _ Hq)) (Zq ltac:(lia)) D) Bq He) as [Q1 Q2].
    split; auto. intros r Hr. change (value_at (picked t (dofs (el_generator el) 1 i)) k r) with (value_at t k (nth r (dofs (el_generator el) 1 i) 0%nat)).
    rewrite Q1 by auto. rewrite weights_map by auto. reflexivity.
  Qed.

  (** Scalar functions *)
  Lemma mapping_exists el d points : c_dim (el_cell el) = S d -> length (c_nodes (el_cell el)) = (S d + 1)%nat -> located X (el_cell el) pos -> points_of (S d) points ->
    exists mp, element_mapping qr inv X (el_cell el) points = Ok mp.
  Proof.
    intros D L Lo [Hne Fp]. unfold element_mapping.
    destruct (mapM_ok (get_at X) (fun x v => v = pos x) (c_nodes (el_cell el))) as (xs & Ex & Hx).
    { intros x Hx. exists (pos x). split; auto. unfold get_at. rewrite (Lo x Hx). reflexivity. }
    rewrite Ex. cbn [bind]. rewrite D.
    assert (B : forallb (fun p => length p =? S d)%nat points = true) by (apply forallb_forall; intros p Hp; apply Nat.eqb_eq; rewrite Forall_forall in Fp; auto).
    rewrite B. cbn [negb]. apply mapM_length in Ex. rewrite Ex, L, Nat.eqb_refl. cbn [negb]. destruct points; [congruence|]. eexists. reflexivity.
  Qed.
  Lemma values_3d_trace_lemma el n me mf phi psi_e psi_f points c1 i : tetrahedron cs (el_cell el) -> length (el_bc_entities el) = 4%nat ->
    located X (el_cell el) pos -> h1_3d (el_generator el) n me mf phi psi_e psi_f -> facet_of c1 el i -> facet_points c1 points ->
    exists t all, trace qr inv X cs points c1 el false = Ok t /\ trace qr inv X cs points c1 el true = Ok all /\
      shape t 4 (length points) mf 1 /\ shape all 4 (length points) n 1 /\
      forall k p, nth_error points k = Some p ->
        (forall r, (r < mf)%nat -> tb_val t 0 k r 0 = tb_val all 0 k (nth r (dofs (el_generator el) 2 i) 0%nat) 0) /\
        forall f l r, increasing f -> Permutation f (c_nodes c1) -> barycentric (c_nodes c1) p l -> (r < mf)%nat ->
          tb_val t 0 k r 0 = psi_f r (map l (if flipped el i then reflected f else f)).
  Proof.
    intros T B Lo H F Fp. pose proof T as (D & L & _). destruct (facet_dim _ _ _ _ F D) as [D1 Hi].
    destruct (mapped_points points c1 el i F Fp) as (mapped & E & Pm & Lm & Hm). rewrite D in Pm.
    destruct (mapping_exists el 2 mapped D L Lo Pm) as (mp & Emp).
    destruct (values_3d_lemma cs el mp n me mf phi psi_e psi_f mapped T B H (proj2 Pm)) as (t & Et & St & Hf).
    destruct (trace_eq qr inv X cs points c1 el i mapped t F E) as [T1 T2]; [exists mp; auto|].
    pose proof H as (_ & _ & _ & _ & [(lo & Elo & Llo) Hlo] & _). rewrite D1 in T2.
    destruct (Hlo i ltac:(lia)) as (Ld & _ & Bd). pose proof St as (S1 & S2 & S3 & S4).
    exists (picked t (dofs (el_generator el) 2 i)), t. split; [apply (T2 lo); [auto|lia|rewrite S3; auto]|]. split; auto.
    rewrite Lm in *. split; [unfold shape, picked; cbn [tb_der tb_pts tb_dof tb_vs]; auto|]. split; auto.
    intros k p Hk. destruct (Hm k p Hk) as (q & Hq & Bq & Zq). split; [intros r Hr; reflexivity|].
    intros f l r If Pf Bl Hr. destruct Fp as [_ Fp]. rewrite Forall_forall in Fp. specialize (Fp p (nth_error_In _ _ Hk)).
    destruct (facet_weights c1 el i p F Fp) as [Nw Lw]. rewrite D1 in Bq, Lw. cbn [weights] in Bq, Lw.
    destruct (Hf k q _ Hq Bq) as (_ & Q & _). cbn [picked tb_val].
    rewrite (Q i f r ltac:(lia) (Zq ltac:(lia))); auto.
    - assert (Pr : Permutation (reflected f) (c_nodes c1)) by (eapply Permutation_trans; [apply reflected_perm|auto]).
      destruct (flipped el i); rewrite (map_weights _ _ l) by auto; reflexivity.
    - split; auto. destruct F as [_ F]. rewrite D in F. cbn [facet_nodes] in F. eapply Permutation_trans; eauto.
  Qed.
  Lemma values_2d_trace_lemma el n m phi psi points c1 i : triangle cs (el_cell el) ->
    located X (el_cell el) pos -> h1_2d (el_generator el) n m phi psi -> facet_of c1 el i -> cell_of cs (c_id c1) = Ok c1 -> facet_points c1 points ->
    exists t all, trace qr inv X cs points c1 el false = Ok t /\ trace qr inv X cs points c1 el true = Ok all /\
      shape t 3 (length points) m 1 /\ shape all 3 (length points) n 1 /\
      forall k p, nth_error points k = Some p ->
        (forall r, (r < m)%nat -> tb_val t 0 k r 0 = tb_val all 0 k (nth r (dofs (el_generator el) 1 i) 0%nat) 0) /\
        (forall r, (r < m)%nat -> tb_val t 0 k r 0 = psi r (linear_shapes p)).
  Proof.
    intros T Lo H F Ec Fp. pose proof T as (D & L & _ & Hst). destruct (facet_dim _ _ _ _ F D) as [D1 Hi].
    destruct (mapped_points points c1 el i F Fp) as (mapped & E & Pm & Lm & Hm). rewrite D in Pm.
    destruct (mapping_exists el 1 mapped D L Lo Pm) as (mp & Emp).
    destruct (values_2d_lemma cs el mp n m phi psi mapped T H (proj2 Pm)) as (t & Et & St & Hf).
    destruct (trace_eq qr inv X cs points c1 el i mapped t F E) as [T1 T2]; [exists mp; auto|].
    pose proof H as (_ & _ & _ & [(lo & Elo & Llo) Hlo] & _). rewrite D1 in T2.
    destruct (Hlo i ltac:(lia)) as (Ld & _ & Bd). pose proof St as (S1 & S2 & S3 & S4).
    exists (picked t (dofs (el_generator el) 1 i)), t. split; [apply (T2 lo); [auto|lia|rewrite S3; auto]|]. split; auto.
    rewrite Lm in *. split; [unfold shape, picked; cbn [tb_der tb_pts tb_dof tb_vs]; auto|]. split; auto.
    intros k p Hk. destruct (Hm k p Hk) as (q & Hq & Bq & Zq). split; [intros r Hr; reflexivity|].
    intros r Hr. destruct Fp as [_ Fp]. rewrite Forall_forall in Fp. specialize (Fp p (nth_error_In _ _ Hk)).
    destruct (facet_weights c1 el i p F Fp) as [Nw Lw]. rewrite D1 in Bq, Lw. cbn [weights] in Bq, Lw.
    destruct (Hst i ltac:(lia)) as (e & He & _). pose proof (stored_unique cs c1 el i e F D1 Ec He) as Ee. subst e.
    destruct Pm as [_ Pm]. rewrite Forall_forall in Pm.
    destruct (Hf k q _ Hq Bq) as (Q & _). cbn [picked tb_val].
    rewrite (Q i (c_nodes c1) r ltac:(lia) (on_edge_2 el i q ltac:(lia) (Pm q (nth_error_In _ _ Hq)) (Zq ltac:(lia)) D) He Hr).
    rewrite weights_map by auto. reflexivity.
  Qed.
  (** Whatever the element: the trace is the table at the mapped points, and its columns *)
  Lemma trace_table_lemma el points c1 i : facet_of c1 el i -> facet_points c1 points ->
    exists mapped, points_of (c_dim (el_cell el)) mapped /\
      Forall2 (fun p q => same_point (c_nodes (el_cell el)) q (c_dim c1) (c_nodes c1) p) points mapped /\
      forall t, evaluated qr inv X cs el mapped t ->
        trace qr inv X cs points c1 el true = Ok t /\
        forall l, nth_error (gen_entity_dofs (el_generator el)) (c_dim c1) = Some l -> (i < length l)%nat ->
          let own := nth i l [] in
          (forall a, In a own -> (a < tb_dof t)%nat) ->
          exists u, trace qr inv X cs points c1 el false = Ok u /\ shape u (tb_der t) (tb_pts t) (length own) (tb_vs t) /\
            forall q k r b, (r < length own)%nat -> tb_val u q k r b = tb_val t q k (nth r own 0%nat) b.
  Proof.
    intros F Fp. destruct (mapped_lemma points c1 el i F (proj2 Fp)) as (mapped & E & H). exists mapped. split; [|split].
    - split; [intros ->; inversion H; subst; destruct Fp; auto|]. clear - H. induction H; constructor; tauto.
    - clear - H. induction H; constructor; tauto.
    - intros t Ev. destruct (trace_eq qr inv X cs points c1 el i mapped t F E Ev) as [T1 T2]. split; auto.
      intros l Hl Hi own Ho. assert (Eo : own = dofs (el_generator el) (c_dim c1) i) by (unfold own, dofs; rewrite (nth_of_error _ _ _ _ Hl); reflexivity).
      rewrite Eo in *. exists (picked t (dofs (el_generator el) (c_dim c1) i)). split; [apply (T2 l); auto|]. split; [unfold shape; cbn; auto|]. intros; reflexivity.
  Qed.
End Families.
