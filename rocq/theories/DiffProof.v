(** * Lemmas about the difference of an edge and vertices: C42 *)
From Coq Require Import List Arith ZArith Bool Reals Lia Lra Permutation Sorted.
From Verif Require Import Base BaseProof VecBase VecProof GeoModel GeoProof2 VertexModel ShapeSpec VertexSpec VertexProof.
Import ListNotations.

Section Diff.
  Variables ctol ptol : R.
  Variable unique_idx : list vec -> list nat.
  Variable argsort_R : list R -> list nat.
  Variable argsort : list Z -> list nat.
  Hypothesis Hsort : is_argsort argsort.
  Hypothesis HsortR : is_argsort_R argsort_R.

  Lemma make_edge_ok tag phys v0 v1 : exists ends, make_edge argsort tag phys v0 v1 = Ok (mk_edge tag phys ends) /\ Permutation ends [v0; v1] /\ StronglySorted Z.le (map v_tag ends).
  Proof.
    unfold make_edge. destruct (Hsort [v_tag v0; v_tag v1]) as [P S]. cbn [length seq] in P.
    apply Permutation_sym, Permutation_length_2_inv in P as [E|E]; rewrite E in *; cbn [mapM get_at nth_error bind]; eexists; (split; [reflexivity|]); split; auto; apply perm_swap.
  Qed.

  Section Chain.
    Variables (phys : option Z) (va vb : vertex) (on_a on_b : option vertex).
    Let vA := match on_a with Some v => v | None => va end.
    Let vB := match on_b with Some v => v | None => vb end.
    Definition away (q : vec) : Prop := same_geometry ptol q (v_point va) = false /\ same_geometry ptol q (v_point vb) = false.
    Let step := chain_step ptol argsort phys va vb on_a on_b.
    Definition link : Type := vertex * vertex * Z.
    Definition fits (l : link) (e : edge) : Prop :=
      e_tag e = snd l /\ e_phys e = phys /\ Permutation (e_ends e) [fst (fst l); snd (fst l)] /\ StronglySorted Z.le (map v_tag (e_ends e)).
    Definition ends_of (ls : list link) : list vertex := flat_map (fun l => [fst (fst l); snd (fst l)]) ls.
    Definition mk t x := mk_vertex t phys x.
    Fixpoint links (t : Z) (x : vec) (l : list vec) : list link :=
      match l with [] => [(mk t x, vB, t + 1)%Z] | y :: r => (mk t x, mk (t + 1) y, t + 2)%Z :: links (t + 3) y r end.
    Definition full (t : Z) (l : list vec) : list link :=
      match l with [] => [(vA, vB, t)] | y :: r => (vA, mk t y, t + 1)%Z :: links (t + 2) y r end.
    Hypothesis Hptol : (0 <= ptol)%R.
    Lemma same_refl q : same_geometry ptol q q = true.
    Proof. apply allclose_refl; auto. Qed.

    Lemma step_new t es vs x y : away x -> away y -> exists e, step (t, es, vs) (x, y) = Ok ((t + 3)%Z, es ++ [e], vs ++ [mk t x; mk (t + 1) y]) /\ fits (mk t x, mk (t + 1) y, t + 2)%Z e.
    Proof.
      intros [X1 X2] [Y1 Y2]. unfold step, chain_step. cbn [fst snd]. rewrite X1, Y2.
      destruct (make_edge_ok (t + 1 + 1) phys (mk t x) (mk (t + 1) y)) as (ends & E & P & S). unfold mk in E. rewrite E. cbn [bind].
      eexists. split; [replace (t + 1 + 1 + 1)%Z with (t + 3)%Z by lia; reflexivity|]. unfold fits. cbn [e_tag e_phys e_ends fst snd]. split; [lia|auto].
    Qed.
    Lemma step_last t es vs x : away x -> exists e, step (t, es, vs) (x, v_point vb) = Ok ((t + 2)%Z, es ++ [e], vs ++ [mk t x; vB]) /\ fits (mk t x, vB, t + 1)%Z e.
    Proof.
      intros [X1 X2]. unfold step, chain_step. cbn [fst snd]. rewrite X1, same_refl.
      destruct (make_edge_ok (t + 1) phys (mk t x) vB) as (ends & E & P & S). unfold mk, vB in E. rewrite E. cbn [bind].
      eexists. split; [replace (t + 1 + 1)%Z with (t + 2)%Z by lia; reflexivity|]. unfold fits. cbn [e_tag e_phys e_ends fst snd]. auto.
    Qed.
    Lemma run_links : forall l t es vs x, away x -> Forall away l -> exists t' es', foldM step (combine (x :: l) (l ++ [v_point vb])) (t, es, vs) = Ok (t', es ++ es', vs ++ ends_of (links t x l)) /\ Forall2 fits (links t x l) es'.
    Proof.
      induction l as [|y l IH]; intros t es vs x Hx Hl.
      - cbn [combine app foldM]. destruct (step_last t es vs x Hx) as (e & E & F). rewrite E. cbn [bind]. eexists. exists [e]. split; [reflexivity|]. constructor; auto.
      - inversion Hl as [|? ? Hy Hl']; subst. cbn [app combine foldM]. destruct (step_new t es vs x y Hx Hy) as (e & E & F). rewrite E. cbn [bind].
        destruct (IH (t + 3)%Z (es ++ [e]) (vs ++ [mk t x; mk (t + 1) y]) y Hy Hl') as (t' & es' & E' & F'). cbn [combine] in E'. exists t', (e :: es').
        rewrite E'. split; [rewrite <- !app_assoc; reflexivity|]. constructor; auto.
    Qed.
    Lemma run_full l t : Forall away l -> exists t' es, foldM step (combine (v_point va :: l) (l ++ [v_point vb])) (t, [], []) = Ok (t', es, ends_of (full t l)) /\ Forall2 fits (full t l) es.
    Proof.
      intros Hl. destruct l as [|y l]; cbn [app combine foldM].
      - unfold step, chain_step. cbn [fst snd]. rewrite !same_refl. destruct (make_edge_ok t phys vA vB) as (ends & E & P & S). unfold vA, vB in E. rewrite E. cbn [bind app].
        eexists. eexists. split; [reflexivity|]. constructor; auto. unfold fits. cbn [e_tag e_phys e_ends fst snd]. auto.
      - inversion Hl as [|? ? Hy Hl']; subst.
        destruct (make_edge_ok (t + 1) phys vA (mk t y)) as (ends & E & P & S).
        assert (E1 : step (t, [], []) (v_point va, y) = Ok ((t + 2)%Z, [mk_edge (t + 1) phys ends], [vA; mk t y])).
        { unfold step, chain_step. cbn [fst snd]. rewrite same_refl. destruct Hy as [_ Hy]. rewrite Hy. unfold vA, mk in E. rewrite E. cbn [bind app]. replace (t + 1 + 1)%Z with (t + 2)%Z by lia. reflexivity. }
        rewrite E1. cbn [bind]. destruct (run_links l (t + 2)%Z [mk_edge (t + 1) phys ends] [vA; mk t y] y Hy Hl') as (t' & es' & E' & F'). cbn [combine] in E'. rewrite E'.
        eexists. eexists. split; [reflexivity|]. constructor; auto. unfold fits. cbn [e_tag e_phys e_ends fst snd]. auto.
    Qed.

    (** *** the links form a chain *)
    Lemma links_nth : forall l t x k, nth_error (links t x l) k = if (k <=? length l)%nat then
        Some (match k with 0 => mk t x | S j => mk (t + 3 * Z.of_nat k)%Z (nth j l x) end,
              match nth_error l k with Some q => mk (t + 3 * Z.of_nat k + 1)%Z q | None => vB end,
              match nth_error l k with Some q => (t + 3 * Z.of_nat k + 2)%Z | None => (t + 3 * Z.of_nat k + 1)%Z end) else None.
    Proof.
      induction l as [|y l IH]; intros t x k.
      - destruct k as [|k]; cbn [links nth_error length Nat.leb]; [repeat f_equal; lia|]. destruct k; reflexivity.
      - cbn [links length]. destruct k as [|k]; cbn [nth_error Nat.leb]; [repeat f_equal; lia|]. rewrite IH. destruct (Nat.leb_spec k (length l)) as [H|H]; auto.
        f_equal. replace (t + 3 + 3 * Z.of_nat k)%Z with (t + 3 * Z.of_nat (S k))%Z by lia. f_equal. f_equal. destruct k as [|j]; cbn [nth].
        + unfold mk. try (f_equal; lia).
        + f_equal. apply nth_indep. lia.
    Qed.
    Lemma nth_ends : forall ls k l, nth_error ls k = Some l -> nth_error (ends_of ls) (2 * k) = Some (fst (fst l)) /\ nth_error (ends_of ls) (2 * k + 1) = Some (snd (fst l)).
    Proof.
      induction ls as [|l0 ls IH]; intros k l E; [destruct k; discriminate|]. destruct k as [|k].
      - injection E as ->. split; reflexivity.
      - cbn [nth_error] in E. destruct (IH k l E) as [A B]. replace (2 * S k) with (S (S (2 * k))) by lia. cbn [ends_of flat_map app nth_error Nat.add]. auto.
    Qed.
    Lemma length_links : forall l t x, length (links t x l) = S (length l).
    Proof. induction l; intros; simpl; auto. Qed.
    Lemma length_full l t : length (full t l) = S (length l).
    Proof. destruct l; simpl; auto. rewrite length_links. auto. Qed.
    Lemma length_ends ls : length (ends_of ls) = 2 * length ls.
    Proof. induction ls as [|a ls IH]; cbn [ends_of flat_map app length]; auto. unfold ends_of in IH. rewrite IH. lia. Qed.
    Lemma full_link l t k a : nth_error (full t l) k = Some a ->
      match k with 0 => fst (fst a) = vA | S j => exists q, nth_error l j = Some q /\ v_point (fst (fst a)) = q /\ v_phys (fst (fst a)) = phys end /\
      match nth_error l k with None => snd (fst a) = vB | Some q => v_point (snd (fst a)) = q /\ v_phys (snd (fst a)) = phys end.
    Proof.
      intros E. destruct l as [|y l].
      - destruct k as [|k]; cbn in E; [injection E as <-; split; reflexivity|destruct k; discriminate].
      - cbn [full] in E. destruct k as [|k]; cbn [nth_error] in *; [injection E as <-; split; [reflexivity|]; split; reflexivity|].
        rewrite links_nth in E. destruct (Nat.leb_spec k (length l)) as [H|H]; [|discriminate]. injection E as <-. cbn [fst snd]. split.
        + destruct k as [|j]; [exists y; auto|]. exists (nth j l y). split; auto. cbn [nth_error]. apply nth_error_nth'. lia.
        + destruct (nth_error l k); auto.
    Qed.

    (** *** tags *)
    Lemma tags_S t n : tags_from t (S n) = t :: tags_from (t + 1) n.
    Proof. exact (nums_S t n). Qed.
    Lemma perm_links : forall l t x, Permutation (map snd (links t x l) ++ map v_tag (removelast (ends_of (links t x l)))) (tags_from t (3 * length l + 2)).
    Proof.
      induction l as [|y l IH]; intros t x.
      - cbn. rewrite Z.add_0_r. apply perm_swap.
      - cbn [links length]. replace (3 * S (length l) + 2) with (S (S (S (3 * length l + 2)))) by lia. rewrite !tags_S.
        replace (t + 1 + 1 + 1)%Z with (t + 3)%Z by lia. replace (t + 1 + 1)%Z with (t + 2)%Z by lia.
        cbn [map snd ends_of flat_map app fst]. fold (ends_of (links (t + 3) y l)).
        assert (N : ends_of (links (t + 3) y l) <> []) by (destruct l; discriminate).
        rewrite !(removelast_app [_; _] N) || idtac.
        destruct (ends_of (links (t + 3) y l)) as [|w ws] eqn:Ew; [congruence|]. cbn [removelast map v_tag mk]. change (match ws with [] => [] | _ :: _ => w :: removelast ws end) with (removelast (w :: ws)).
        specialize (IH (t + 3)%Z y). rewrite Ew in IH.
        eapply perm_trans; [apply perm_skip; apply Permutation_sym, Permutation_middle|].
        eapply perm_trans; [apply perm_swap|]. cbn [app]. apply perm_skip.
        eapply perm_trans; [apply perm_skip; apply Permutation_sym, Permutation_middle|].
        eapply perm_trans; [apply perm_swap|]. apply perm_skip. apply perm_skip. exact IH.
    Qed.
    Lemma perm_full l t : Permutation (map snd (full t l) ++ map v_tag (removelast (tl (ends_of (full t l))))) (tags_from t (3 * length l + 1)).
    Proof.
      destruct l as [|y l].
      - cbn. rewrite Z.add_0_r. auto.
      - cbn [full length]. replace (3 * S (length l) + 1) with (S (S (3 * length l + 2))) by lia. rewrite !tags_S. replace (t + 1 + 1)%Z with (t + 2)%Z by lia.
        cbn [map snd ends_of flat_map app fst tl]. fold (ends_of (links (t + 2) y l)). assert (IH := perm_links l (t + 2)%Z y).
        destruct (ends_of (links (t + 2) y l)) as [|w ws] eqn:Ew; [destruct l; discriminate|].
        change (removelast (mk t y :: w :: ws)) with (mk t y :: removelast (w :: ws)). cbn [map v_tag mk].
        eapply perm_trans; [apply perm_skip; apply Permutation_sym, Permutation_middle|].
        eapply perm_trans; [apply perm_swap|]. apply perm_skip. apply perm_skip. exact IH.
    Qed.
    Lemma fits_tags : forall ls es, Forall2 fits ls es -> map e_tag es = map snd ls.
    Proof. induction 1 as [|l e ls es F _ IH]; simpl; auto. rewrite IH. f_equal. apply F. Qed.
    Lemma fits_nth : forall ls es, Forall2 fits ls es -> forall k e, nth_error es k = Some e -> exists l, nth_error ls k = Some l /\ fits l e.
    Proof. induction 1 as [|l e ls es F _ IH]; intros k e' E; destruct k as [|k]; try discriminate; simpl in E; [injection E as <-; exists l; auto|]. apply IH; auto. Qed.
    Lemma fits_len : forall ls es, Forall2 fits ls es -> length ls = length es.
    Proof. induction 1; simpl; auto. Qed.

    Lemma chain_run l t : Forall away l -> exists t' es vs, foldM step (combine (v_point va :: l) (l ++ [v_point vb])) (t, [], []) = Ok (t', es, vs) /\ chain phys t vA vB l es vs.
    Proof.
      intros H. destruct (run_full l t H) as (t' & es & E & F). exists t', es, (ends_of (full t l)). split; auto. assert (L := fits_len _ _ F). constructor.
      - rewrite <- L. apply length_full.
      - rewrite length_ends. lia.
      - intros k e Ek. destruct (fits_nth _ _ F k e Ek) as (a & Ea & Fa & Fb & Fc & Fd). destruct (nth_ends _ _ _ Ea) as [N0 N1]. exists (fst (fst a)), (snd (fst a)).
        destruct (full_link l t k a Ea) as [K0 K1]. repeat (split; [assumption|]). split; auto. destruct k as [|j]; auto. destruct K0 as (q & Q1 & Q2 & Q3). subst q. auto.
      - rewrite (fits_tags _ _ F). apply perm_full.
    Qed.
  End Chain.

  (** ** the touching tools *)
  Lemma points_touching eps a b ts : fst (points_line_intersection ctol (map v_point ts) a b eps) = map fst (touching ctol eps a b ts) /\
    mask ts (snd (points_line_intersection ctol (map v_point ts) a b eps)) = map snd (touching ctol eps a b ts).
  Proof.
    unfold points_line_intersection. cbn [fst snd]. induction ts as [|v ts [IH1 IH2]]; [split; reflexivity|]. cbn [map touching flat_map].
    unfold mask in *. cbn [map combine filter]. destruct (point_line_intersection ctol (v_point v) a b eps) as [q|] eqn:E; cbn [is_some app map fst snd].
    - split; f_equal; auto.
    - auto.
  Qed.
  Lemma pick {A} (l : list A) : forall idx, (forall i, In i idx -> i < length l) -> exists r, mapM (get_at l) idx = Ok r /\ length r = length idx /\
    (forall d, r = map (fun i => nth i l d) idx).
  Proof.
    induction idx as [|i idx IH]; intros H; [exists []; auto|]. destruct IH as (r & E & L & M); [intros; apply H; right; auto|].
    destruct (nth_error l i) as [x|] eqn:Ex; [|apply nth_error_None in Ex; specialize (H i (or_introl eq_refl)); lia].
    exists (x :: r). cbn [mapM]. unfold get_at at 1. rewrite Ex. cbn [bind]. rewrite E. cbn [bind]. split; auto. split; [simpl; auto|].
    intros d. cbn [map]. rewrite <- (M d). f_equal. symmetry. apply nth_error_nth. exact Ex.
  Qed.
  Lemma pick_map {A B} (f : A -> B) (l : list A) : forall idx r, mapM (get_at l) idx = Ok r -> mapM (get_at (map f l)) idx = Ok (map f r).
  Proof.
    induction idx as [|i idx IH]; intros r E; cbn [mapM] in *; [injection E as <-; reflexivity|]. apply bind_Ok in E as (x & Ex & E). apply bind_Ok in E as (xs & Exs & E). injection E as <-.
    unfold get_at in *. rewrite nth_error_map. destruct (nth_error l i); [|discriminate]. injection Ex as ->. cbn [option_map bind]. rewrite (IH xs Exs). reflexivity.
  Qed.
  Lemma SS_map {A B} (f : A -> B) (Q : B -> B -> Prop) l : StronglySorted Q (map f l) -> StronglySorted (fun x y => Q (f x) (f y)) l.
  Proof.
    induction l as [|x l IH]; intros H; [constructor|]. inversion H as [|? ? H1 H2]; subst. constructor; auto. apply Forall_forall. intros y Hy. rewrite Forall_forall in H2. apply H2. apply in_map. auto.
  Qed.
  Lemma sorted_pick a (found : list (vec * vertex)) : let idx := argsort_R (map (fun p => norm (vsub p a)) (map fst found)) in
    exists sorted, mapM (get_at (map fst found)) idx = Ok (map fst sorted) /\ mapM (get_at (map snd found)) idx = Ok (map snd sorted) /\
      Permutation sorted found /\ by_distance a (map fst sorted).
  Proof.
    intros idx. destruct (HsortR (map (fun p => norm (vsub p a)) (map fst found))) as [P S]. fold idx in P, S. rewrite !map_length in P.
    destruct (pick found idx) as (r & E & L & M). { intros i Hi. apply (Permutation_in _ P) in Hi. apply in_seq in Hi. lia. }
    exists r. split; [apply pick_map; auto|]. split; [apply pick_map; auto|].
    destruct found as [|d found]. { apply Permutation_sym, Permutation_nil in P. rewrite P in *. simpl in L. destruct r; [|discriminate]. split; auto. constructor. }
    split.
    - rewrite (M d). eapply perm_trans; [apply Permutation_map; exact P|]. assert (Q : map (fun i => nth i (d :: found) d) (seq 0 (length (d :: found))) = d :: found).
      { clear. generalize (d :: found) as l. intros l. apply (nth_ext _ _ d d); [rewrite map_length, seq_length; auto|]. intros n Hn. rewrite map_length, seq_length in Hn.
        rewrite (nth_indep _ d (nth 0 l d)) by (rewrite map_length, seq_length; auto). change (nth 0 l d) with ((fun i => nth i l d) 0). rewrite map_nth, seq_nth by auto. reflexivity. }
      rewrite Q. auto.
    - unfold by_distance. rewrite (M d). apply SS_map with (f := fun p => norm (vsub p a)) (Q := Rle). rewrite !map_map.
      assert (Q : map (fun i => nth i (map (fun p => norm (vsub p a)) (map fst (d :: found))) 0%R) idx = map (fun i => norm (vsub (fst (nth i (d :: found) d)) a)) idx).
      { apply map_ext_in. intros i Hi. apply (Permutation_in _ P) in Hi. apply in_seq in Hi. rewrite map_map.
        rewrite (nth_indep _ 0%R ((fun x => norm (vsub (fst x) a)) d)) by (rewrite map_length; lia). rewrite (map_nth (fun x => norm (vsub (fst x) a))). reflexivity. }
      rewrite <- Q. exact S.
  Qed.

  (** ** the whole operation *)
  Lemma removelast_snoc {A} (l : list A) x : removelast (l ++ [x]) = l.
  Proof. apply removelast_last. Qed.
  Lemma get_last {A} (l : list A) x : get_at (l ++ [x]) (length (l ++ [x]) - 1) = Ok x.
  Proof. unfold get_at. rewrite app_length. simpl. rewrite Nat.add_sub, nth_error_app2, Nat.sub_diag by lia. reflexivity. Qed.
  Lemma combine_longer {A B} : forall (l1 : list A) (l2 : list B) l3, length l2 = length l1 -> combine l1 l2 = combine (l1 ++ l3) l2.
  Proof.
    induction l1 as [|x l1 IH]; intros l2 l3 L; destruct l2 as [|y l2]; try discriminate; [destruct l3; reflexivity|].
    cbn [combine app]. f_equal. apply IH. injection L as L. exact L.
  Qed.
  Lemma difference_lemma tools ts e va vb tag eps : (0 <= ptol)%R -> e_ends e = [va; vb] ->
    mapM (get_at tools) (unique_idx (map v_point tools)) = Ok ts ->
    let run := vertices_edge_difference ctol ptol unique_idx argsort_R argsort tools e tag eps in
    let found := touching ctol eps (v_point va) (v_point vb) ts in
    (found = [] -> run = Ok ([], [])) /\
    (found <> [] -> exists sorted, Permutation sorted found /\ by_distance (v_point va) (map fst sorted) /\
      ((exists p v, sorted = [(p, v)] /\ allclose_default p (v_point va) = true /\ allclose_default p (v_point vb) = true /\ run = Err IndexError) \/
       exists start finish pts, splits va vb sorted start finish pts /\
         (clear ptol va vb pts -> exists es vs, run = Ok (es, vs) /\ chain (e_phys e) tag start finish pts es vs))).
  Proof.
    intros Hp He Ht run found.
    assert (R : run = let (points, intx_q) := points_line_intersection ctol (map v_point ts) (v_point va) (v_point vb) eps in
      match points with [] => Ok ([], []) | _ =>
        let idx := argsort_R (map (fun p => norm (vsub p (v_point va))) points) in
        do points <- mapM (get_at points) idx;
        do hits <- mapM (get_at (mask ts intx_q)) idx;
        do first <- get_at points 0;
        do last <- get_at points (length points - 1);
        do hit_first <- get_at hits 0;
        do hit_last <- get_at hits (length hits - 1);
        let on_a := allclose_default first (v_point va) in
        let on_b := allclose_default last (v_point vb) in
        do internal <- (if on_a then delete_first points else Ok points);
        do internal <- (if on_b then delete_last internal else Ok internal);
        let expanded := v_point va :: internal ++ [v_point vb] in
        do r <- foldM (chain_step ptol argsort (e_phys e) va vb (if on_a then Some hit_first else None) (if on_b then Some hit_last else None))
                      (combine expanded (internal ++ [v_point vb])) (tag, [], []);
        let '(_, es, vs) := r in
        Ok (es, vs) end).
    { unfold run, vertices_edge_difference. rewrite Ht. cbn [bind]. rewrite He. reflexivity. }
    clearbody run. destruct (points_touching eps (v_point va) (v_point vb) ts) as [P1 P2]. fold found in P1, P2.
    destruct (points_line_intersection ctol (map v_point ts) (v_point va) (v_point vb) eps) as [points intx_q]. cbn [fst snd] in P1, P2. subst points. rewrite P2 in R.
    split; [intros F; rewrite F in R; exact R|]. intros F.
    assert (R' := R). clear R. destruct (map fst found) as [|x0 xs0] eqn:Ef; [destruct found; [congruence|discriminate]|]. rewrite <- Ef in R'. clear x0 xs0 Ef. cbv zeta in R'.
    destruct (sorted_pick (v_point va) found) as (sorted & E1 & E2 & PS & BS). exists sorted. split; auto. split; auto.
    rewrite E1 in R'. cbn [bind] in R'. rewrite E2 in R'. cbn [bind] in R'.
    assert (Ns : sorted <> []). { intros Q. subst sorted. apply Permutation_nil in PS. congruence. }
    clear E1 E2 PS BS F P2 found.
    destruct sorted as [|[p0 v0] rest]; [congruence|]. clear Ns.
    destruct (exists_last (l := (p0, v0) :: rest) ltac:(discriminate)) as (body & [pn vn] & El).
    assert (G0 : get_at (map fst ((p0, v0) :: rest)) 0 = Ok p0) by reflexivity.
    assert (G1 : get_at (map snd ((p0, v0) :: rest)) 0 = Ok v0) by reflexivity.
    assert (G2 : get_at (map fst ((p0, v0) :: rest)) (length (map fst ((p0, v0) :: rest)) - 1) = Ok pn) by (rewrite El, map_app; apply get_last).
    assert (G3 : get_at (map snd ((p0, v0) :: rest)) (length (map snd ((p0, v0) :: rest)) - 1) = Ok vn) by (rewrite El, map_app; apply get_last).
    rewrite G0 in R'. cbn [bind] in R'. rewrite G2 in R'. cbn [bind] in R'. rewrite G1 in R'. cbn [bind] in R'. rewrite G3 in R'. cbn [bind] in R'.
    set (sorted := (p0, v0) :: rest) in *.
    assert (Fin : forall start finish pts on_a on_b, start = match on_a with Some v => v | None => va end -> finish = match on_b with Some v => v | None => vb end ->
      run = (do r <- foldM (chain_step ptol argsort (e_phys e) va vb on_a on_b) (combine (v_point va :: pts ++ [v_point vb]) (pts ++ [v_point vb])) (tag, [], []); let '(_, es, vs) := r in Ok (es, vs)) ->
      clear ptol va vb pts -> exists es vs, run = Ok (es, vs) /\ chain (e_phys e) tag start finish pts es vs).
    { intros start finish pts oa ob -> -> Er Cl. destruct (chain_run (e_phys e) va vb oa ob Hp pts tag) as (t' & es & vs & Ec & Ch).
      { apply Forall_forall. intros q Hq. exact (Cl q Hq). }
      exists es, vs. split; auto. rewrite Er.
      replace (combine (v_point va :: pts ++ [v_point vb]) (pts ++ [v_point vb])) with (combine (v_point va :: pts) (pts ++ [v_point vb])).
      - rewrite Ec. reflexivity.
      - change (v_point va :: pts ++ [v_point vb]) with ((v_point va :: pts) ++ [v_point vb]). assert (L : length (pts ++ [v_point vb]) = length (v_point va :: pts)) by (rewrite app_length; simpl; lia).
        apply combine_longer; auto. }
    assert (NF : forall p v r, sorted = (p, v) :: r -> p = p0) by (intros p v r Q; unfold sorted in Q; congruence).
    assert (NL : forall p v r, sorted = r ++ [(p, v)] -> p = pn) by (intros p v r Q; rewrite El in Q; apply app_inj_tail in Q as [_ Q]; congruence).
    destruct (allclose_default p0 (v_point va)) eqn:OA; destruct (allclose_default pn (v_point vb)) eqn:OB.
    - unfold sorted in R' at 1. cbn [map delete_first bind fst] in R'. destruct rest as [|r1 rest].
      + left. exists p0, v0. destruct body; [|destruct body; discriminate]. injection El as <- <-. cbn [map delete_last bind] in R'. auto.
      + right. destruct body as [|b0 body]; [discriminate|]. injection El as <- El. exists v0, vn, (map fst body). split.
        * exists [(p0, v0)], body, [(pn, vn)]. unfold sorted. rewrite El. auto.
        * apply (Fin _ _ _ (Some v0) (Some vn)); auto. rewrite R', El, map_app. cbn [map fst]. unfold delete_last.
          destruct (map fst body ++ [pn]) as [|z zs] eqn:Ez; [destruct (map fst body); discriminate|]. rewrite <- Ez, removelast_snoc. reflexivity.
    - right. unfold sorted in R' at 1. cbn [map delete_first bind fst] in R'. exists v0, vb, (map fst rest). split.
      + exists [(p0, v0)], rest, []. rewrite app_nil_r. split; auto. split; auto. split; auto. split; auto. intros p v r Q. rewrite (NL p v r Q). auto.
      + apply (Fin _ _ _ (Some v0) None); auto.
    - right. cbn [bind] in R'. exists va, vn, (map fst body). split.
      + exists [], body, [(pn, vn)]. split; [exact El|]. split; auto. split; auto. split; auto. intros p v r Q. rewrite (NF p v r Q). auto.
      + apply (Fin _ _ _ None (Some vn)); auto. rewrite R', El, map_app. cbn [map fst]. unfold delete_last.
        destruct (map fst body ++ [pn]) as [|z zs] eqn:Ez; [destruct (map fst body); discriminate|]. rewrite <- Ez, removelast_snoc. reflexivity.
    - right. cbn [bind] in R'. exists va, vb, (map fst sorted). split.
      + exists [], sorted, []. rewrite app_nil_r. split; auto. split; auto. split; split; auto; intros p v r Q; [rewrite (NF p v r Q)|rewrite (NL p v r Q)]; auto.
      + apply (Fin _ _ _ None None); auto.
  Qed.

  (** ** several edges *)
  Definition in_order (t t' : Z) (es : list edge) : Prop := StronglySorted Z.lt (map e_tag es) /\ Forall (fun e => (t <= e_tag e < t')%Z) es.
  Lemma SS_app l1 l2 t : StronglySorted Z.lt l1 -> StronglySorted Z.lt l2 -> Forall (fun x => (x < t)%Z) l1 -> Forall (fun x => (t <= x)%Z) l2 -> StronglySorted Z.lt (l1 ++ l2).
  Proof.
    intros S1 S2 B1 B2. induction S1 as [|x l1 S1 IH F]; auto. inversion B1; subst. cbn [app]. constructor; auto. apply Forall_app. split; auto. eapply Forall_impl; [|exact B2]. cbn. intros. lia.
  Qed.
  Lemma in_order_app t t1 t2 es1 es2 : in_order t t1 es1 -> in_order t1 t2 es2 -> (t <= t1 <= t2)%Z -> in_order t t2 (es1 ++ es2).
  Proof.
    intros [S1 B1] [S2 B2] L. split.
    - rewrite map_app. apply SS_app with t1; auto; apply Forall_map; [eapply Forall_impl; [|exact B1]|eapply Forall_impl; [|exact B2]]; cbn; intros; lia.
    - apply Forall_app. split; [eapply Forall_impl; [|exact B1]|eapply Forall_impl; [|exact B2]]; cbn; intros; lia.
  Qed.
  Lemma step_tags phys va vb oa ob t0 : forall chains t es vs t' es' vs', foldM (chain_step ptol argsort phys va vb oa ob) chains (t, es, vs) = Ok (t', es', vs') ->
    (t0 <= t)%Z -> in_order t0 t es -> (es <> [] -> vs <> []) -> (t0 <= t')%Z /\ in_order t0 t' es' /\ (es' <> [] -> vs' <> []).
  Proof.
    induction chains as [|c chains IH]; intros t es vs t' es' vs' E T S B.
    - simpl in E. injection E as <- <- <-. auto.
    - cbn [foldM] in E. apply bind_Ok in E as ([[t1 es1] vs1] & E1 & E).
      assert (Q : exists e v0 v1, (t <= e_tag e)%Z /\ (e_tag e < t1)%Z /\ es1 = es ++ [e] /\ vs1 = vs ++ [v0; v1]).
      { unfold chain_step in E1. destruct (same_geometry ptol (fst c) (v_point va)); destruct (same_geometry ptol (snd c) (v_point vb));
          (apply bind_Ok in E1 as (e & Ee & E1); injection E1 as <- <- <-; unfold make_edge in Ee; apply bind_Ok in Ee as (en & _ & Ee); injection Ee as <-;
           eexists; eexists; eexists; split; [|split; [|split; reflexivity]]; cbn [e_tag]; lia). }
      destruct Q as (e & v0 & v1 & L1 & L2 & -> & ->). apply IH in E; auto; [lia| |].
      + apply in_order_app with t; auto; [|lia]. split; [constructor; constructor|]. constructor; auto. 
      + intros _. destruct vs; discriminate.
  Qed.
  Lemma one_tags tools e tag eps es vs : vertices_edge_difference ctol ptol unique_idx argsort_R argsort tools e tag eps = Ok (es, vs) ->
    exists t', (tag <= t')%Z /\ in_order tag t' es /\ (es <> [] -> vs <> []).
  Proof.
    intros E. unfold vertices_edge_difference in E. apply bind_Ok in E as (ts & _ & E). apply bind_Ok in E as (va & _ & E). apply bind_Ok in E as (vb & _ & E).
    destruct (points_line_intersection _ _ _ _ _) as [points q]. destruct points as [|p0 ps].
    - injection E as <- <-. exists tag. split; [lia|]. split; [split; constructor|]. congruence.
    - apply bind_Ok in E as (pts & _ & E). apply bind_Ok in E as (hits & _ & E). apply bind_Ok in E as (f & _ & E). apply bind_Ok in E as (l & _ & E).
      apply bind_Ok in E as (hf & _ & E). apply bind_Ok in E as (hl & _ & E). apply bind_Ok in E as (i1 & _ & E). apply bind_Ok in E as (i2 & _ & E).
      apply bind_Ok in E as ([[t' es'] vs'] & E & E'). injection E' as <- <-. exists t'. eapply step_tags; [exact E|lia|split; constructor|congruence].
  Qed.
  Lemma np_max_ge l m : np_max l = Ok m -> forall x, In x l -> (x <= m)%Z.
  Proof.
    destruct l as [|y l]; [discriminate|]. intros E. injection E as E. assert (G : forall l y, (y <= fold_left Z.max l y)%Z /\ forall x, In x l -> (x <= fold_left Z.max l y)%Z).
    { clear. induction l as [|z l IH]; intros y; cbn [fold_left]; [split; [lia|intros x []]|]. destruct (IH (Z.max y z)) as [A B]. split; [lia|]. intros x [<-|H]; [lia|auto]. }
    destruct (G l y) as [A B]. rewrite E in A, B. intros x [<-|H]; auto.
  Qed.
  Lemma several_lemma tools edges tag eps out : vertices_edges_difference ctol ptol unique_idx argsort_R argsort tools edges tag eps = Ok out ->
    map (fun r => fst (fst r)) out = edges /\
    StronglySorted Z.lt (map e_tag (flat_map (fun r => snd (fst r)) out)) /\ Forall (fun e => (tag <= e_tag e)%Z) (flat_map (fun r => snd (fst r)) out).
  Proof.
    intros E. unfold vertices_edges_difference in E. apply bind_Ok in E as ([tf out'] & E & E'). injection E' as <-.
    assert (G : forall edges t done tf out, foldM (fun st e =>
              let '(tag, out) := st in
              do r <- vertices_edge_difference ctol ptol unique_idx argsort_R argsort tools e tag eps;
              let '(es, vs) := r in
              do tag <- (if negb (length vs =? 0)%nat && negb (length es =? 0)%nat
                         then do m <- np_max (map v_tag vs ++ map e_tag es); Ok (m + 1)%Z else Ok tag);
              Ok (tag, out ++ [(e, es, vs)]))
            edges (t, done) = Ok (tf, out) -> (tag <= t)%Z -> in_order tag t (flat_map (fun r => snd (fst r)) done) ->
      map (fun r => fst (fst r)) out = map (fun r => fst (fst r)) done ++ edges /\ in_order tag tf (flat_map (fun r => snd (fst r)) out)).
    { clear E. induction edges0 as [|e es0 IH]; intros t done tf1 out E T S.
      - simpl in E. injection E as <- <-. rewrite app_nil_r. auto.
      - cbn [foldM] in E. apply bind_Ok in E as ([t1 d1] & E1 & E). apply bind_Ok in E1 as ([es vs] & Er & E1). apply bind_Ok in E1 as (t2 & Et & E1). injection E1 as -> <-.
        destruct (one_tags _ _ _ _ _ _ Er) as (t' & Lt & O & N).
        assert (Q : (t <= t1)%Z /\ in_order t t1 es).
        { destruct es as [|e0 es].
          - rewrite andb_false_r in Et. injection Et as <-. split; [lia|split; constructor].
          - destruct vs as [|v0 vs]; [exfalso; apply N; [discriminate|reflexivity]|]. cbn [length Nat.eqb negb andb] in Et. apply bind_Ok in Et as (m & Em & Et). injection Et as <-.
            assert (B : forall e', In e' (e0 :: es) -> (t <= e_tag e' <= m)%Z).
            { intros e' He. split; [destruct O as [_ O]; rewrite Forall_forall in O; apply O; auto|]. apply (np_max_ge _ _ Em). apply in_or_app. right. apply in_map. auto. }
            split; [specialize (B e0 (or_introl eq_refl)); lia|]. split; [apply O|]. apply Forall_forall. intros e' He. specialize (B e' He). lia. }
        apply IH in E; [|lia|].
        + destruct E as [E1 E2]. split; auto. rewrite E1, map_app, <- app_assoc. reflexivity.
        + rewrite flat_map_app. cbn [flat_map fst snd]. rewrite app_nil_r. apply in_order_app with t; [auto|apply Q|lia]. }
    apply G in E; [|lia|split; constructor]. destruct E as [E1 [E2 E3]]. split; auto. split; auto. eapply Forall_impl; [|exact E3]. cbn. intros. lia.
  Qed.
End Diff.

(** ** consequences of being a chain *)
Lemma NoDup_tags t n : NoDup (tags_from t n).
Proof. unfold tags_from. apply FinFun.Injective_map_NoDup; [intros x y E; lia|apply seq_NoDup]. Qed.
Lemma nth_removelast {A} (l : list A) k : S k < length l -> nth_error (removelast l) k = nth_error l k.
Proof.
  revert k. induction l as [|x l IH]; intros k H; [simpl in H; lia|]. destruct l as [|y l]; [simpl in H; lia|]. change (removelast (x :: y :: l)) with (x :: removelast (y :: l)).
  destruct k as [|k]; auto. cbn [nth_error]. apply IH. simpl in *. lia.
Qed.
Lemma NoDup_tail {A} (l1 l2 : list A) : NoDup (l1 ++ l2) -> NoDup l2.
Proof. induction l1 as [|x l1 IH]; intros H; auto. inversion H. auto. Qed.
Lemma doubled_lemma phys tag start finish pts es vs : chain phys tag start finish pts es vs ->
  forall k, k < length pts -> exists v w, nth_error vs (2 * k + 1) = Some v /\ nth_error vs (2 * k + 2) = Some w /\
    v_point v = v_point w /\ v_tag v <> v_tag w.
Proof.
  intros [L1 L2 K T] k Hk.
  destruct (nth_error es k) as [e|] eqn:Ee; [|apply nth_error_None in Ee; lia]. destruct (nth_error es (S k)) as [e'|] eqn:Ee'; [|apply nth_error_None in Ee'; lia].
  destruct (K k e Ee) as (v0 & v1 & _ & N1 & _ & _ & _ & _ & P1). destruct (K (S k) e' Ee') as (w0 & w1 & N0 & _ & _ & _ & _ & P0 & _).
  replace (2 * S k) with (2 * k + 2) in N0 by lia. destruct P0 as [P0 _]. rewrite P0 in P1. destruct P1 as [P1 _]. exists v1, w0. split; auto. split; auto. split; auto.
  intros Q. assert (N := NoDup_tags tag (3 * length pts + 1)). apply (Permutation_NoDup (Permutation_sym T)) in N. apply NoDup_tail in N.
  assert (A : nth_error (map v_tag (removelast (tl vs))) (2 * k) = Some (v_tag v1) /\ nth_error (map v_tag (removelast (tl vs))) (2 * k + 1) = Some (v_tag w0)).
  { rewrite !nth_error_map. destruct vs as [|z vs]; [simpl in L2; lia|]. cbn [tl]. simpl in L2. rewrite !nth_removelast by lia.
    replace (2 * k + 1) with (S (2 * k)) in * by lia. replace (2 * k + 2) with (S (S (2 * k))) in N0 by lia.
    change (nth_error (z :: vs) (S (2 * k))) with (nth_error vs (2 * k)) in N1. change (nth_error (z :: vs) (S (S (2 * k)))) with (nth_error vs (S (2 * k))) in N0. rewrite N1, N0. auto. }
  destruct A as [A1 A2]. rewrite Q in A1. rewrite <- A2 in A1. rewrite NoDup_nth_error in N. assert (B : 2 * k = 2 * k + 1); [|lia]. apply N; auto. apply nth_error_Some. rewrite A1, A2. discriminate.
Qed.
