(** * Concrete boxes with lines *)
From Coq Require Import List Arith ZArith Bool Reals Lra Lia Permutation Sorted.
From Verif Require Import Base BaseProof VecBase VecProof GeoModel GeoSpec GeoProof GeoExamples ShapeModel ShapeSpec ShapeExamples VertexModel VertexSpec VertexExamples EmbedModel EmbedSpec EmbedProof EmbedProof2 EmbedProof3 EmbedExamples IntersectModel IntersectSpec IntersectProof IntersectProof2 IntersectProof3 IntersectProof4 IntersectExamples QuerySpec LinesModel LinesSpec LinesProof LinesProof2 LinesProof4 LinesProof5 LinesProof6.
Import ListNotations.
Local Open Scope R_scope.

(** The square of side 2 with a line from (-1,1) to (3,1), which crosses it, and with a line
    from (1,1) to (3,1), which begins in it. *)
Definition square : list vec := [P 0 0 0; P 2 0 0; P 2 2 0; P 0 2 0].
Notation framed := (network 4 1).
Lemma framed_at i a b : edge_at framed i a b -> (i = 0 /\ a = 0 /\ b = 1)%nat \/ (i = 1 /\ a = 1 /\ b = 2)%nat \/ (i = 2 /\ a = 2 /\ b = 3)%nat \/ (i = 3 /\ a = 0 /\ b = 3)%nat \/ (i = 5 /\ a = 4 /\ b = 5)%nat.
Proof.
  unfold edge_at, network, side. destruct i as [|[|[|[|[|[|i]]]]]]; cbn; intros H; try discriminate H; try (injection H as <- <-; intuition lia). destruct i; discriminate.
Qed.
Ltac measure s K d l := apply (K d l); [apply norm_is; [lra|unfold pt, s, dot, vsub, P; cbn [nth snd vx vy vz]; lra]|apply norm_is; [lra|unfold pt, s, dot, vsub, P; cbn [nth snd vx vy vz]; lra]|lia|lia].

Definition through : heap := [(0%Z, P 0 0 0); (1%Z, P 2 0 0); (2%Z, P 2 2 0); (3%Z, P 0 2 0); (4%Z, P (-1) 1 0); (5%Z, P 3 1 0)].
Definition through_lines : list (vec * vec) := [(P (-1) 1 0, P 3 1 0)].
Lemma through_given : given square through_lines = through.
Proof. reflexivity. Qed.
Lemma through_meet i j x : meet through framed i j x ->
  ((i = 0 /\ j = 1 \/ i = 1 /\ j = 0)%nat /\ x = P 2 0 0) \/ ((i = 1 /\ j = 2 \/ i = 2 /\ j = 1)%nat /\ x = P 2 2 0) \/
  ((i = 2 /\ j = 3 \/ i = 3 /\ j = 2)%nat /\ x = P 0 2 0) \/ ((i = 0 /\ j = 3 \/ i = 3 /\ j = 0)%nat /\ x = P 0 0 0) \/
  ((i = 1 /\ j = 5 \/ i = 5 /\ j = 1)%nat /\ x = P 2 1 0) \/ ((i = 3 /\ j = 5 \/ i = 5 /\ j = 3)%nat /\ x = P 0 1 0).
Proof.
  intros (D & a & b & p & q & Hi & Hj & (t & T & ->) & (r & R & E)).
  assert (Ex := f_equal vx E). assert (Ey := f_equal vy E). clear E.
  apply framed_at in Hi, Hj. repeat match goal with H : _ \/ _ |- _ => destruct H end; repeat match goal with H : _ /\ _ |- _ => destruct H end; subst; try congruence;
    unfold between, pt, through, vadd, vscale, vsub, P in Ex, Ey |- *; cbn in Ex, Ey |- *; try (exfalso; lra).
  all: first [left; split; [lia|]; f_equal; lra | right; left; split; [lia|]; f_equal; lra | right; right; left; split; [lia|]; f_equal; lra | right; right; right; left; split; [lia|]; f_equal; lra | right; right; right; right; left; split; [lia|]; f_equal; lra | right; right; right; right; right; split; [lia|]; f_equal; lra].
Qed.
Lemma through_grid v : (v < 6)%nat -> grid (pt through v).
Proof.
  intros L. destruct v as [|[|[|[|[|[|v]]]]]]; try lia; unfold pt, through; cbn [nth snd]; [exists 0%Z, 0%Z|exists 2%Z, 0%Z|exists 2%Z, 2%Z|exists 0%Z, 2%Z|exists ((-1))%Z, 1%Z|exists 3%Z, 1%Z]; (split; [reflexivity|lia]).
Qed.
Lemma through_meet_grid i j x : meet through framed i j x -> grid x.
Proof.
  intros M. apply through_meet in M. repeat destruct M as [M|M]; destruct M as (_ & ->); first [exists 2%Z, 0%Z; (split; [reflexivity|lia])|exists 2%Z, 2%Z; (split; [reflexivity|lia])|exists 0%Z, 2%Z; (split; [reflexivity|lia])|exists 0%Z, 0%Z; (split; [reflexivity|lia])|exists 2%Z, 1%Z; (split; [reflexivity|lia])|exists 0%Z, 1%Z; (split; [reflexivity|lia])].
Qed.
Lemma through_clear : clear_network through framed tiny 2.
Proof.
  split.
  - unfold tiny. lra.
  - intros e H. cbn in H. repeat destruct H as [H|H]; try contradiction; try discriminate; injection H as <-; eexists _, _; (split; [reflexivity|]); intros v Hv; cbn in Hv; cbn; lia.
  - cbn. repeat constructor; cbn; intuition discriminate.
  - intros i a b j p q x y Hi Hj Ix Iy.
    assert (Z : forall v, coord 2 (pt through v) = 0). { intros v. unfold pt, through. destruct v as [|[|[|[|[|[|[|v]]]]]]]; reflexivity. } rewrite !Z. auto.
  - intros i j a b p q L Hi Hj. apply framed_at in Hi, Hj. cbv zeta.
    repeat match goal with H : _ \/ _ |- _ => destruct H end; repeat match goal with H : _ /\ _ |- _ => destruct H end; subst; try lia;
      unfold area2, coord, cross, vsub, pt, through, tiny, P; cbn [nth snd vx vy vz].
    all: first [left; match goal with |- context [Rabs ?x] => first [rewrite (Rabs_right x) by lra | rewrite (Rabs_left x) by lra] end; lra
      | right; split; [lra|]; match goal with |- context [Rabs ?x] => first [rewrite (Rabs_right x) by lra | rewrite (Rabs_left x) by lra] end; lra].
  - intros i j x a b v M Hi Hv H. apply near_grid in H; auto; [exact (through_meet_grid _ _ _ M)|]. apply through_grid. apply framed_at in Hi. cbn in Hv. lia.
  - intros i j x a b v M Hi D Iv. pose proof (framed_at _ _ _ Hi) as Hc.
    assert (K : forall d l, norm (vsub x (pt through a)) = IZR d -> norm (vsub (pt through v) (pt through a)) = IZR l -> (-4 <= l <= 4)%Z -> d <> l -> ~ near (norm (vsub x (pt through a))) (norm (vsub (pt through v) (pt through a)))).
    { intros d l -> -> B Q H. apply near_integer in H; auto. }
    assert (Da := D a ltac:(cbn; auto)). assert (Db := D b ltac:(cbn; auto)).
    apply through_meet in M. repeat destruct M as [M|M]; destruct M as (O & ->); (destruct O as [(-> & ->)|(-> & ->)]);
      (destruct Hc as [(E & -> & ->)|[(E & -> & ->)|[(E & -> & ->)|[(E & -> & ->)|(E & -> & ->)]]]]; try discriminate E); try (exfalso; first [apply Da; reflexivity|apply Db; reflexivity]);
      (destruct Iv as [<-|[<-|[]]]);
      first [measure through K 1%Z 0%Z|measure through K 1%Z 2%Z|measure through K 1%Z 4%Z|measure through K 3%Z 0%Z|measure through K 3%Z 4%Z].
  - intros i j x k l y M M' H. apply near_grid; eauto using through_meet_grid.
Qed.

Definition halfway : heap := [(0%Z, P 0 0 0); (1%Z, P 2 0 0); (2%Z, P 2 2 0); (3%Z, P 0 2 0); (4%Z, P 1 1 0); (5%Z, P 3 1 0)].
Definition halfway_lines : list (vec * vec) := [(P 1 1 0, P 3 1 0)].
Lemma halfway_given : given square halfway_lines = halfway.
Proof. reflexivity. Qed.
Lemma halfway_meet i j x : meet halfway framed i j x ->
  ((i = 0 /\ j = 1 \/ i = 1 /\ j = 0)%nat /\ x = P 2 0 0) \/ ((i = 1 /\ j = 2 \/ i = 2 /\ j = 1)%nat /\ x = P 2 2 0) \/
  ((i = 2 /\ j = 3 \/ i = 3 /\ j = 2)%nat /\ x = P 0 2 0) \/ ((i = 0 /\ j = 3 \/ i = 3 /\ j = 0)%nat /\ x = P 0 0 0) \/
  ((i = 1 /\ j = 5 \/ i = 5 /\ j = 1)%nat /\ x = P 2 1 0).
Proof.
  intros (D & a & b & p & q & Hi & Hj & (t & T & ->) & (r & R & E)).
  assert (Ex := f_equal vx E). assert (Ey := f_equal vy E). clear E.
  apply framed_at in Hi, Hj. repeat match goal with H : _ \/ _ |- _ => destruct H end; repeat match goal with H : _ /\ _ |- _ => destruct H end; subst; try congruence;
    unfold between, pt, halfway, vadd, vscale, vsub, P in Ex, Ey |- *; cbn in Ex, Ey |- *; try (exfalso; lra).
  all: first [left; split; [lia|]; f_equal; lra | right; left; split; [lia|]; f_equal; lra | right; right; left; split; [lia|]; f_equal; lra | right; right; right; left; split; [lia|]; f_equal; lra | right; right; right; right; split; [lia|]; f_equal; lra].
Qed.
Lemma halfway_grid v : (v < 6)%nat -> grid (pt halfway v).
Proof.
  intros L. destruct v as [|[|[|[|[|[|v]]]]]]; try lia; unfold pt, halfway; cbn [nth snd]; [exists 0%Z, 0%Z|exists 2%Z, 0%Z|exists 2%Z, 2%Z|exists 0%Z, 2%Z|exists (1)%Z, 1%Z|exists 3%Z, 1%Z]; (split; [reflexivity|lia]).
Qed.
Lemma halfway_meet_grid i j x : meet halfway framed i j x -> grid x.
Proof.
  intros M. apply halfway_meet in M. repeat destruct M as [M|M]; destruct M as (_ & ->); first [exists 2%Z, 0%Z; (split; [reflexivity|lia])|exists 2%Z, 2%Z; (split; [reflexivity|lia])|exists 0%Z, 2%Z; (split; [reflexivity|lia])|exists 0%Z, 0%Z; (split; [reflexivity|lia])|exists 2%Z, 1%Z; (split; [reflexivity|lia])|exists 0%Z, 1%Z; (split; [reflexivity|lia])].
Qed.
Lemma halfway_clear : clear_network halfway framed tiny 2.
Proof.
  split.
  - unfold tiny. lra.
  - intros e H. cbn in H. repeat destruct H as [H|H]; try contradiction; try discriminate; injection H as <-; eexists _, _; (split; [reflexivity|]); intros v Hv; cbn in Hv; cbn; lia.
  - cbn. repeat constructor; cbn; intuition discriminate.
  - intros i a b j p q x y Hi Hj Ix Iy.
    assert (Z : forall v, coord 2 (pt halfway v) = 0). { intros v. unfold pt, halfway. destruct v as [|[|[|[|[|[|[|v]]]]]]]; reflexivity. } rewrite !Z. auto.
  - intros i j a b p q L Hi Hj. apply framed_at in Hi, Hj. cbv zeta.
    repeat match goal with H : _ \/ _ |- _ => destruct H end; repeat match goal with H : _ /\ _ |- _ => destruct H end; subst; try lia;
      unfold area2, coord, cross, vsub, pt, halfway, tiny, P; cbn [nth snd vx vy vz].
    all: first [left; match goal with |- context [Rabs ?x] => first [rewrite (Rabs_right x) by lra | rewrite (Rabs_left x) by lra] end; lra
      | right; split; [lra|]; match goal with |- context [Rabs ?x] => first [rewrite (Rabs_right x) by lra | rewrite (Rabs_left x) by lra] end; lra].
  - intros i j x a b v M Hi Hv H. apply near_grid in H; auto; [exact (halfway_meet_grid _ _ _ M)|]. apply halfway_grid. apply framed_at in Hi. cbn in Hv. lia.
  - intros i j x a b v M Hi D Iv. pose proof (framed_at _ _ _ Hi) as Hc.
    assert (K : forall d l, norm (vsub x (pt halfway a)) = IZR d -> norm (vsub (pt halfway v) (pt halfway a)) = IZR l -> (-4 <= l <= 4)%Z -> d <> l -> ~ near (norm (vsub x (pt halfway a))) (norm (vsub (pt halfway v) (pt halfway a)))).
    { intros d l -> -> B Q H. apply near_integer in H; auto. }
    assert (Da := D a ltac:(cbn; auto)). assert (Db := D b ltac:(cbn; auto)).
    apply halfway_meet in M. repeat destruct M as [M|M]; destruct M as (O & ->); (destruct O as [(-> & ->)|(-> & ->)]);
      (destruct Hc as [(E & -> & ->)|[(E & -> & ->)|[(E & -> & ->)|[(E & -> & ->)|(E & -> & ->)]]]]; try discriminate E); try (exfalso; first [apply Da; reflexivity|apply Db; reflexivity]);
      (destruct Iv as [<-|[<-|[]]]);
      first [measure halfway K 1%Z 0%Z|measure halfway K 1%Z 2%Z|measure halfway K 1%Z 4%Z|measure halfway K 3%Z 0%Z|measure halfway K 3%Z 4%Z].
  - intros i j x k l y M M' H. apply near_grid; eauto using halfway_meet_grid.
Qed.

(** ** Where they are cut *)
Lemma shared (h : heap) (edges : list (option host)) i j x v a b p q : crossing h edges i j x -> edge_at edges i a b -> edge_at edges j p q -> In v [a; b] -> In v [p; q] -> pt h v = x -> False.
Proof. intros (_ & C) E E' I I' Q. apply (C v a b p q E E' I I'). auto. Qed.
Ltac corner C v a b p q := exfalso; apply (shared _ _ _ _ _ v a b p q C); [reflexivity|reflexivity|cbn; auto|cbn; auto|reflexivity].
Ltac corners C := first [corner C 1%nat 0%nat 1%nat 1%nat 2%nat|corner C 1%nat 1%nat 2%nat 0%nat 1%nat|corner C 2%nat 1%nat 2%nat 2%nat 3%nat|corner C 2%nat 2%nat 3%nat 1%nat 2%nat
  |corner C 3%nat 2%nat 3%nat 0%nat 3%nat|corner C 3%nat 0%nat 3%nat 2%nat 3%nat|corner C 0%nat 0%nat 1%nat 0%nat 3%nat|corner C 0%nat 0%nat 3%nat 0%nat 1%nat].
Lemma through_cut i x : cut_point through framed i x -> (i = 1 \/ i = 5)%nat /\ x = P 2 1 0 \/ (i = 3 \/ i = 5)%nat /\ x = P 0 1 0.
Proof.
  intros (j & C). pose proof C as (M & _). apply through_meet in M. repeat destruct M as [M|M]; destruct M as (O & ->); destruct O as [(-> & ->)|(-> & ->)]; first [left; split; [lia|reflexivity]|right; split; [lia|reflexivity]|corners C].
Qed.
Lemma halfway_cut i x : cut_point halfway framed i x -> (i = 1 \/ i = 5)%nat /\ x = P 2 1 0.
Proof.
  intros (j & C). pose proof C as (M & _). apply halfway_meet in M. repeat destruct M as [M|M]; destruct M as (O & ->); destruct O as [(-> & ->)|(-> & ->)]; first [split; [lia|reflexivity]|corners C].
Qed.
Ltac crossed s u v := split; [split; [lia|]|intros w a b p q Ha Hp; apply framed_at in Ha, Hp; intros Iv Iv'; repeat match goal with H : _ \/ _ |- _ => destruct H end; repeat match goal with H : _ /\ _ |- _ => destruct H end; subst; try congruence; cbn in Iv, Iv'; lia].
Lemma through_left : cut_point through framed 3 (P 0 1 0).
Proof.
  exists 5%nat. crossed through 0%nat 0%nat. exists 0%nat, 3%nat, 4%nat, 5%nat. split; [reflexivity|]. split; [reflexivity|]. unfold pt, through; cbn [nth snd]. split; [exists (1 / 2)|exists (1 / 4)]; (split; [lra|]); apply vec_ext; unfold between, vadd, vscale, vsub, P; cbn; lra.
Qed.
Lemma through_right : cut_point through framed 1 (P 2 1 0).
Proof.
  exists 5%nat. crossed through 0%nat 0%nat. exists 1%nat, 2%nat, 4%nat, 5%nat. split; [reflexivity|]. split; [reflexivity|]. unfold pt, through; cbn [nth snd]. split; [exists (1 / 2)|exists (3 / 4)]; (split; [lra|]); apply vec_ext; unfold between, vadd, vscale, vsub, P; cbn; lra.
Qed.
Lemma halfway_right : cut_point halfway framed 1 (P 2 1 0).
Proof.
  exists 5%nat. crossed halfway 0%nat 0%nat. exists 1%nat, 2%nat, 4%nat, 5%nat. split; [reflexivity|]. split; [reflexivity|]. unfold pt, halfway; cbn [nth snd]. split; [exists (1 / 2)|exists (1 / 2)]; (split; [lra|]); apply vec_ext; unfold between, vadd, vscale, vsub, P; cbn; lra.
Qed.
Lemma halfway_free : ~ cut_point halfway framed 0 (pt halfway 0).
Proof. intros C. apply halfway_cut in C as (C & _). lia. Qed.
Lemma halfway_last x : cut_point halfway framed 3 x -> x = pt halfway 0 \/ x = pt halfway 3.
Proof. intros C. apply halfway_cut in C as (C & _). lia. Qed.
Lemma through_free : ~ cut_point through framed 0 (pt through 0).
Proof. intros C. apply through_cut in C as [(C & _)|(C & _)]; lia. Qed.

(** A side without a cut point stays *)
Lemma stays h n (C : vec -> Prop) a b a' b' es : (forall x, ~ C x) -> cut h n C a b a' b' es -> a' = a /\ b' = b /\ es = [].
Proof.
  intros N (Ta & Tb & K). destruct Ta as (_ & [(Q & _)|(_ & ->)]); [destruct (N _ Q)|]. destruct Tb as (_ & [(Q & _)|(_ & ->)]); [destruct (N _ Q)|]. split; auto. split; auto.
  destruct K as [(-> & _)|(mid & s & Nm & Pm & _)]; auto. destruct mid as [|v mid]; [congruence|]. destruct (N (pt h v)). apply Pm. left. auto.
Qed.
Lemma round_adjacent l1 e e' l2 o l : round (l1 ++ e :: e' :: l2) o l -> exists v, In v e /\ In v e'.
Proof.
  intros (Le & _ & _ & H). rewrite app_length in Le. cbn in Le. set (k := length l1) in *.
  destruct (nth_error l k) as [x|] eqn:Ex; [|apply nth_error_None in Ex; lia]. destruct (nth_error l (S k)) as [y|] eqn:Ey; [|apply nth_error_None in Ey; lia]. destruct (nth_error l (S (S k))) as [z|] eqn:Ez; [|apply nth_error_None in Ez; lia].
  exists y. split.
  - destruct (H k e x y) as [(_ & ->)|(_ & ->)]; auto; [rewrite nth_error_app2, Nat.sub_diag by lia; reflexivity|cbn; auto|cbn; auto].
  - destruct (H (S k) e' y z) as [(_ & ->)|(_ & ->)]; auto; [rewrite nth_error_app2 by lia; replace (S k - length l1)%nat with 1%nat by lia; reflexivity|cbn; auto|cbn; auto].
Qed.

(** The tags of a default box *)
Definition bc_example (i : nat) : option Z := Some (Z.of_nat i + 2)%Z.
Lemma through_refuted : exists N kept t o D g, build_box_2D_with_lines argsort_R_example argsort_example tiny 5 square through_lines (Some 1%Z) bc_example = Ok (N, kept, t, o, (D, g)) /\
  (forall signs l, ~ round (ring 4 (n_hosts N)) signs l) /\ ~ NoDup (map s_tag (nth 1 D [])).
Proof.
  destruct (whole argsort_R_example argsort_example argsort_R_example_ok argsort_example_ok tiny 5 square through_lines (Some 1%Z) bc_example ltac:(cbn; lia) ltac:(lia) ltac:(left; discriminate) through_clear)
    as (top & new & hosts & es & kept & t & o & g & _ & EB & _ & SO & _ & AS & LN & AW & CU & AE & SK & _ & _ & TL & _ & _ & T1).
  rewrite through_given in *. change (length square) with 4%nat in *. change (length through_lines) with 1%nat in *. cbn [Nat.add] in LN.
  set (N := mk_net _ _ _ _ _ _ _ _) in *.
  destruct (CU 0%nat 0%nat 1%nat eq_refl) as (a0 & b0 & e0 & E0 & C0). apply stays in C0 as (-> & -> & ->). 2:{ intros x C. apply through_cut in C as [(C & _)|(C & _)]; lia. }
  destruct (CU 2%nat 2%nat 3%nat eq_refl) as (a2 & b2 & e2 & E2 & C2). apply stays in C2 as (-> & -> & ->). 2:{ intros x C. apply through_cut in C as [(C & _)|(C & _)]; lia. }
  destruct (CU 1%nat 1%nat 2%nat eq_refl) as (a1 & b1 & e1 & E1 & C1). destruct (CU 3%nat 0%nat 3%nat eq_refl) as (a3 & b3 & e3 & E3 & C3).
  exists N, kept, t. eexists. exists (domain_tree N t kept), g. split; [exact EB|]. split.
  - intros signs l Rd. cbn [n_hosts N] in Rd.
    destruct hosts as [|h1 [|h2 [|h3 [|h4 rest]]]]; try discriminate. cbn in E0, E1, E2, E3. injection E0 as ->. injection E1 as ->. injection E2 as ->. injection E3 as ->.
    destruct C3 as (Ta & _ & K). assert (a3 = 0%nat) as ->. { destruct Ta as (_ & [(Q & _)|(_ & Q)]); auto. apply through_cut in Q as [(Q & _)|(_ & Q)]; [lia|]. apply (f_equal vy) in Q. cbn in Q. lra. }
    destruct K as [(_ & K)|(mid & s & Nm & _ & Lm & _ & J & _)].
    { destruct (K _ through_left) as [Q|Q]; apply (f_equal vy) in Q; cbn in Q; lra. }
    destruct mid as [|v mid]; [congruence|]. destruct J as (Lj & J). destruct (J 0%nat 0%nat v eq_refl eq_refl) as (ends & Ee & Pe & _). destruct e3 as [|e3' e3]; [discriminate|]. injection Ee as ->.
    unfold ring in Rd. cbn [firstn flat_map h_immersed h_ends map snd app] in Rd.
    assert (Q : exists l1, round (([0%nat; 1%nat] :: l1) ++ [2%nat; 3%nat] :: ends :: (map snd e3 ++ [])) signs l) by (destruct e1 as [|x1 e1]; [exists [[a1; b1]]; exact Rd|exists (map snd (x1 :: e1)); exact Rd]).
    clear Rd. destruct Q as (l1 & Rd).
    apply round_adjacent in Rd as (w & I1 & I2). apply (Permutation_in _ Pe) in I2. assert (B := Lm v (or_introl eq_refl)). cbn [length through] in B. destruct I1 as [<-|[<-|[]]]; destruct I2 as [I2|[I2|[]]]; lia.
  - assert (T : t (edge_id N 1) = 1%Z).
    { apply T1; unfold subs_of; cbn [n_hosts N].
      - rewrite (nth_error_nth _ _ None E0). reflexivity.
      - rewrite (nth_error_nth _ _ None E1). cbn [n_immersed h_immersed]. destruct C1 as (_ & _ & [(_ & K)|(mid & s & Nm & _ & _ & _ & (Lj & _) & _)]).
        + destruct (K _ through_right) as [Q|Q]; apply (f_equal vy) in Q; cbn in Q; lra.
        + destruct e1 as [|e1' e1]; [cbn in Lj; rewrite app_length in Lj; cbn in Lj; lia|]. discriminate. }
    assert (TL' : t (edge_id N 5) = 1%Z). { unfold line_positions in TL. cbn [n_sides n_hosts N] in TL. rewrite LN in TL. cbn in TL. injection TL as TL. exact TL. }
    intros ND. cbn [domain_tree nth] in ND. unfold line_positions in ND. cbn [n_sides n_hosts N] in ND. rewrite LN in ND. cbn [seq map app Nat.sub s_tag edge_tree wire_tree sub_tree n_sides] in ND.
    inversion ND as [|? ? _ ND1]; subst. inversion ND1 as [|? ? H _]; subst. apply H. cbn [In]. do 3 right. left. congruence.
Qed.
Lemma halfway_example : exists N kept t o D g l, build_box_2D_with_lines argsort_R_example argsort_example tiny 5 square halfway_lines (Some 1%Z) bc_example = Ok (N, kept, t, [o], (D, g)) /\
  round (ring 4 (n_hosts N)) o l /\ hd_error l = Some 0%nat.
Proof.
  apply (wire_theorem argsort_R_example argsort_example tiny 5 square halfway_lines (Some 1%Z) bc_example); auto using argsort_R_example_ok, argsort_example_ok.
  - cbn. lia.
  - left. discriminate.
  - exact halfway_clear.
  - exact halfway_free.
  - exact halfway_last.
Qed.
Lemma wire_refuted : ~ (forall argsort_R argsort eps fuel box lines area bc N kept t o D g, is_argsort_R argsort_R -> is_argsort argsort ->
  (2 <= length box)%nat -> (5 <= fuel)%nat -> clear_network (given box lines) (network (length box) (length lines)) eps 2 ->
  ~ cut_point (given box lines) (network (length box) (length lines)) 0 (pt (given box lines) 0) ->
  build_box_2D_with_lines argsort_R argsort eps fuel box lines area bc = Ok (N, kept, t, o, (D, g)) ->
  exists signs l, round (ring (length box) (n_hosts N)) signs l).
Proof.
  intros H. destruct through_refuted as (N & kept & t & o & D & g & E & R & _).
  destruct (H _ _ tiny 5%nat square through_lines (Some 1%Z) bc_example N kept t o D g argsort_R_example_ok argsort_example_ok ltac:(cbn; lia) ltac:(lia) through_clear through_free E) as (signs & l & K). apply (R signs l). exact K.
Qed.
Lemma tags_refuted : ~ (forall argsort_R argsort eps fuel box lines area bc N kept t o D g, is_argsort_R argsort_R -> is_argsort argsort ->
  (2 <= length box)%nat -> (5 <= fuel)%nat -> clear_network (given box lines) (network (length box) (length lines)) eps 2 ->
  build_box_2D_with_lines argsort_R argsort eps fuel box lines area bc = Ok (N, kept, t, o, (D, g)) -> NoDup (map s_tag (nth 1 D []))).
Proof.
  intros H. destruct through_refuted as (N & kept & t & o & D & g & E & _ & K).
  apply K, (H _ _ tiny 5%nat square through_lines (Some 1%Z) bc_example N kept t o D g argsort_R_example_ok argsort_example_ok ltac:(cbn; lia) ltac:(lia) through_clear E).
Qed.
