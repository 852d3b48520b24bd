(** * Lemmas about intersections and differences of edges by vertices: C42, C43 *)
From Coq Require Import List Arith ZArith Bool Reals Lia Permutation Sorted.
From Verif Require Import Base BaseProof VecBase VecProof GeoModel VertexModel VertexSpec.
Import ListNotations.

(** ** intersection with one edge *)
Lemma vtag_set h x v y : x < length h -> vtag (set_at h x v) y = if (y =? x)%nat then Ok (fst v) else vtag h y.
Proof.
  intros H. unfold vtag, get_at. rewrite nth_error_set_at. destruct (Nat.eqb_spec y x) as [->|N].
  - destruct (Nat.eq_dec x x); [|congruence]. destruct (Nat.ltb_spec x (length h)); [reflexivity|lia].
  - destruct (Nat.eq_dec x y); [congruence|]. reflexivity.
Qed.
Definition numbered (t0 : Z) (h : heap) (tag : Z) (intx : list nat) : Prop :=
  (forall x, In x intx -> exists t, vtag h x = Ok t /\ (t0 <= t < tag)%Z) /\
  (forall x y, In x intx -> In y intx -> x <> y -> vtag h x <> vtag h y) /\ (t0 <= tag)%Z /\
  tag = (t0 + Z.of_nat (length intx))%Z.
Lemma number_inv t0 : forall l h tag intx used h' tag' intx' used', numbered t0 h tag intx -> length intx = length used ->
  foldM number l (h, tag, intx, used) = Ok (h', tag', intx', used') ->
  numbered t0 h' tag' intx' /\ length h' = length h /\ length intx' = length used' /\ exists r u, intx' = intx ++ r /\ used' = used ++ u /\ r = flat_map (fun p => match fst p with Some x => [x] | None => [] end) l.
Proof.
  induction l as [|[o v] l IH]; intros h tag intx used h' tag' intx' used' I L E.
  - simpl in E. inversion E; subst. repeat split; try apply I; auto. exists [], []. rewrite !app_nil_r. auto.
  - cbn [foldM number fst snd] in E. destruct o as [x|].
    + cbn [fst snd number] in E. unfold number at 1 in E. cbn [fst snd] in E. destruct (get_at h x) as [w|] eqn:Ex; [|discriminate]. cbn [bind] in E.
      assert (Hx : x < length h) by (unfold get_at in Ex; destruct (nth_error h x) eqn:Q; [|discriminate]; apply nth_error_Some; congruence).
      apply IH in E.
      * destruct E as (A & B & C & r & u & -> & -> & ->). split; auto. split; [rewrite B; apply length_set_at|]. split; auto.
        eexists. eexists. rewrite <- !app_assoc. split; [reflexivity|]. split; reflexivity.
      * destruct I as (I1 & I2 & I3 & I4). unfold numbered. split; [|split; [|split]].
        -- intros y Hy. rewrite vtag_set by auto. cbn [fst]. destruct (Nat.eqb_spec y x) as [->|N]; [exists tag; split; [auto|lia]|].
           apply in_app_or in Hy as [Hy|[Hy|[]]]; [|congruence]. destruct (I1 y Hy) as (t & Et & Rt). exists t. split; auto. lia.
        -- intros y z Hy Hz N. rewrite !vtag_set by auto. cbn [fst].
           assert (In' : forall w', In w' (intx ++ [x]) -> w' <> x -> In w' intx) by (intros w' Hw Nw; apply in_app_or in Hw as [Hw|[Hw|[]]]; auto; congruence).
           destruct (Nat.eqb_spec y x) as [->|Ny]; destruct (Nat.eqb_spec z x) as [->|Nz]; try congruence.
           ++ destruct (I1 z (In' z Hz Nz)) as (t & Et & Rt). rewrite Et. intros Q. inversion Q. lia.
           ++ destruct (I1 y (In' y Hy Ny)) as (t & Et & Rt). rewrite Et. intros Q. inversion Q. lia.
           ++ apply I2; auto.
        -- lia.
        -- rewrite app_length. cbn [length]. lia.
      * rewrite !app_length. cbn [length]. lia.
    + cbn [number fst] in E. unfold number at 1 in E. cbn [fst bind] in E. apply IH in E; auto.
Qed.

Section Ops.
  Variables ctol ptol ltol : R.

  Lemma single_lemma tag_min h tools e tag eps h' intx used : vertices_edge_intersection ctol ptol ltol tag_min h tools e tag eps = Ok (h', intx, used) ->
    length intx = length used /\
    (forall x, In x intx -> exists t, vtag h' x = Ok t /\ (tag <= t < tag + Z.of_nat (length intx))%Z) /\
    (forall x y, In x intx -> In y intx -> x <> y -> vtag h' x <> vtag h' y).
  Proof.
    intros E. unfold vertices_edge_intersection in E. apply bind_Ok in E as (hits & Eh & E).
    destruct (fold_left (create tag_min) hits (h, [])) as [h1 results]. apply bind_Ok in E as ([[[h2 tg] ix] us] & Es & E). inversion E; subst.
    apply (number_inv tag) in Es; auto.
    - destruct Es as ((N1 & N2 & N3 & N4) & _ & L & _). subst tg. auto.
    - split; [intros x []|]. split; [intros x y []|]. split; [lia|]. simpl. lia.
  Qed.

  (** *** without strong equality only new vertices are made *)
  Definition somes {A} (l : list (option A)) : list A := flat_map (fun o => match o with Some x => [x] | None => [] end) l.
  Definition only_new (o : option hit) : Prop := match o with Some (Existing _) => False | _ => True end.
  Lemma create_new tag_min : forall hits h acc, Forall only_new hits ->
    exists ps results, fold_left (create tag_min) hits (h, acc) = (h ++ map (fun p => (tag_min, p)) ps, acc ++ results) /\
      length results = length hits /\ somes results = seq (length h) (length ps).
  Proof.
    induction hits as [|o hits IH]; intros h acc F.
    - exists [], []. simpl. rewrite !app_nil_r. auto.
    - inversion F as [|? ? Ho F']; subst. cbn [fold_left]. destruct o as [[x|p]|].
      + destruct Ho.
      + cbn [create fst snd]. destruct (IH (h ++ [(tag_min, p)]) (acc ++ [Some (length h)]) F') as (ps & rs & E & L & S). exists (p :: ps), (Some (length h) :: rs).
        split; [|split; [simpl; auto|]].
        * etransitivity; [exact E|]. rewrite <- !app_assoc. reflexivity.
        * unfold somes in *. cbn [flat_map app length seq]. rewrite S. rewrite app_length. cbn [length]. rewrite Nat.add_1_r. reflexivity.
      + cbn [create fst snd]. destruct (IH h (acc ++ [None]) F') as (ps & rs & E & L & S). exists ps, (None :: rs). split; [etransitivity; [exact E|]; rewrite <- app_assoc; reflexivity|]. split; [simpl; auto|]. exact S.
  Qed.

  Definition nums (t : Z) (m : nat) : list Z := map (fun i => (t + Z.of_nat i)%Z) (seq 0 m).
  Lemma nums_S t m : nums t (S m) = t :: nums (t + 1) m.
  Proof. unfold nums. cbn [seq map]. f_equal; [lia|]. rewrite <- seq_shift, map_map. apply map_ext. intros. lia. Qed.
  Lemma number_new : forall results tools (pre : heap) tag_min ps tag intx used, length results = length tools -> somes results = seq (length pre) (length ps) ->
    exists u, foldM number (combine results tools) (pre ++ map (fun p => (tag_min, p)) ps, tag, intx, used) =
      Ok (pre ++ combine (nums tag (length ps)) ps, (tag + Z.of_nat (length ps))%Z, intx ++ seq (length pre) (length ps), used ++ u).
  Proof.
    induction results as [|o results IH]; intros tools pre tag_min ps tag intx used L S.
    - destruct tools; [|discriminate]. simpl in S. destruct ps; [|discriminate]. exists []. simpl. rewrite !app_nil_r, Z.add_0_r. reflexivity.
    - destruct tools as [|v tools]; [discriminate|]. injection L as L. cbn [combine foldM]. unfold number at 1. cbn [fst snd]. destruct o as [x|].
      + unfold somes in S. cbn [flat_map app] in S. destruct ps as [|p ps]; [discriminate|]. cbn [length seq] in S. injection S as Sx S. subst x.
        cbn [map]. assert (G : get_at (pre ++ (tag_min, p) :: map (fun p0 => (tag_min, p0)) ps) (length pre) = Ok (tag_min, p)).
        { unfold get_at. rewrite nth_error_app2 by lia. rewrite Nat.sub_diag. reflexivity. }
        rewrite G. cbn [bind snd].
        assert (G2 : set_at (pre ++ (tag_min, p) :: map (fun p0 => (tag_min, p0)) ps) (length pre) (tag, p) = (pre ++ [(tag, p)]) ++ map (fun p0 => (tag_min, p0)) ps).
        { rewrite <- app_assoc. clear. induction pre as [|y pre IH]; simpl; auto. f_equal. exact IH. }
        rewrite G2. destruct (IH tools (pre ++ [(tag, p)]) tag_min ps (tag + 1)%Z (intx ++ [length pre]) (used ++ [v]) L) as (u & E).
        { rewrite app_length. cbn [length]. rewrite Nat.add_1_r. exact S. }
        exists (v :: u). rewrite E. cbn [length seq]. rewrite nums_S. cbn [combine]. rewrite <- !app_assoc. cbn [app]. rewrite app_length. cbn [length]. rewrite Nat.add_1_r.
        replace (tag + 1 + Z.of_nat (length ps))%Z with (tag + Z.of_nat (Datatypes.S (length ps)))%Z by lia. reflexivity.
      + cbn [bind]. apply IH; auto.
  Qed.

  (** tags of the tools differ from those of the ends of the edge *)
  Lemma edge_hit_new h v e eps o : apart h v e -> edge_hit ctol ptol ltol h v e eps = Ok o -> only_new o.
  Proof.
    intros (A1 & A2) E. unfold edge_hit, boundary_hit, strong_equality in E.
    apply bind_Ok in E as (bo & Eb & E). apply bind_Ok in Eb as (s0 & E0 & Eb). apply bind_Ok in Eb as (s1 & E1 & Eb).
    apply bind_Ok in E0 as (x & Ex & E0). apply bind_Ok in E0 as (y & Ey & E0). apply bind_Ok in E1 as (x' & Ex' & E1). apply bind_Ok in E1 as (z & Ez & E1).
    rewrite Ex in Ex'. inversion Ex'; subst x'. clear Ex'.
    assert (T0 : (fst x =? fst y)%Z = false) by (apply Z.eqb_neq; intros Q; apply A1; unfold vtag; rewrite Ex, Ey; cbn [bind]; congruence).
    assert (T1 : (fst x =? fst z)%Z = false) by (apply Z.eqb_neq; intros Q; apply A2; unfold vtag; rewrite Ex, Ez; cbn [bind]; congruence).
    rewrite T0 in E0. rewrite T1 in E1. cbn [andb] in E0, E1. inversion E0; subst s0. inversion E1; subst s1.
    apply bind_Ok in Eb as (p & _ & Eb). apply bind_Ok in Eb as (a & _ & Eb). apply bind_Ok in Eb as (b & _ & Eb). injection Eb as <-.
    destruct (same_geometry eps p a); [inversion E; exact I|]. destruct (same_geometry eps p b); [inversion E; exact I|].
    apply bind_Ok in E as (p' & _ & E). apply bind_Ok in E as (a' & _ & E). apply bind_Ok in E as (b' & _ & E). injection E as <-.
    destruct (point_line_intersection _ _ _ _ _); exact I.
  Qed.
  Lemma mapM_Forall {A B} (f : A -> res B) (Q : B -> Prop) l r : mapM f l = Ok r -> (forall x y, In x l -> f x = Ok y -> Q y) -> Forall Q r.
  Proof.
    revert r. induction l as [|x l IH]; intros r E H; simpl in E; [inversion E; constructor|].
    apply bind_Ok in E as (y & Ey & E). apply bind_Ok in E as (ys & Eys & E). inversion E; subst. constructor; [eapply H; eauto; left; auto|].
    apply IH; auto. intros. eapply H; eauto. right; auto.
  Qed.
  Lemma one_edge_new tag_min h tools e tag eps h' intx used : (forall v, In v tools -> apart h v e) ->
    vertices_edge_intersection ctol ptol ltol tag_min h tools e tag eps = Ok (h', intx, used) ->
    exists ps, h' = h ++ combine (nums tag (length ps)) ps /\ intx = seq (length h) (length ps).
  Proof.
    intros A E. unfold vertices_edge_intersection in E. apply bind_Ok in E as (hits & Eh & E).
    assert (F : Forall only_new hits).
    { eapply mapM_Forall; [exact Eh|]. intros v o Hv Eo. eapply edge_hit_new; [apply A; exact Hv|exact Eo]. }
    assert (Lh := mapM_length _ _ _ Eh).
    destruct (create_new tag_min hits h [] F) as (ps & rs & Ec & L & S). cbn [app] in Ec. rewrite Ec in E.
    destruct (number_new rs tools h tag_min ps tag [] []) as (u & En); [congruence|auto|]. unfold heap in *; rewrite En in E. cbn [bind] in E. inversion E; subst. exists ps. auto.
  Qed.

  Lemma fold_max_nums t m : fold_left Z.max (nums (t + 1) m) t = (t + Z.of_nat m)%Z.
  Proof.
    revert t. induction m as [|m IH]; intros t; [unfold nums; simpl; lia|]. rewrite nums_S. cbn [fold_left]. replace (Z.max t (t + 1)) with (t + 1)%Z by lia. rewrite IH. lia.
  Qed.
  Lemma vtag_new h t ps x : x < length ps -> vtag (h ++ combine (nums t (length ps)) ps) (length h + x) = Ok (t + Z.of_nat x)%Z.
  Proof.
    intros H. unfold vtag, get_at. rewrite nth_error_app2 by lia. replace (length h + x - length h) with x by lia.
    revert t x H. induction ps as [|p ps IH]; intros t x H; [simpl in H; lia|]. cbn [length]. rewrite nums_S. cbn [combine]. destruct x as [|x]; cbn [nth_error bind fst].
    - f_equal. lia.
    - simpl in H. rewrite IH by lia. f_equal. lia.
  Qed.
  Lemma vtag_app h l x : x < length h -> vtag (h ++ l) x = vtag h x.
  Proof. intros H. unfold vtag, get_at. rewrite nth_error_app1 by auto. reflexivity. Qed.

  Fixpoint glued (h : heap) (s : nat) (t : Z) (blocks : list (list nat * list nat)) : Prop :=
    match blocks with
    | [] => True
    | (intx, _) :: r => exists m, intx = seq s (S m) /\ s + S m <= length h /\ (forall i, i < S m -> vtag h (s + i) = Ok (t + Z.of_nat i)%Z) /\ glued h (s + S m) (t + Z.of_nat m) r
    end.
  Lemma glued_app h l : forall blocks s t, glued h s t blocks -> glued (h ++ l) s t blocks.
  Proof.
    induction blocks as [|[intx u] r IH]; intros s t H; auto. destruct H as (m & E & B & T & G). exists m. split; auto. split; [rewrite app_length; lia|]. split; auto.
    intros i Hi. rewrite vtag_app by lia. auto.
  Qed.
  Lemma apart_app h l v e : v < length h -> fst e < length h -> snd e < length h -> apart h v e -> apart (h ++ l) v e.
  Proof. intros H1 H2 H3 [A B]. split; rewrite !vtag_app by auto; auto. Qed.

  Lemma run_glued tag_min tools eps : forall edges h tag out hf tagf outf,
    (forall e v, In e edges -> In v tools -> apart h v e /\ v < length h /\ fst e < length h /\ snd e < length h) ->
    foldM (fun st e =>
              let '(h, tag, out) := st in
              do r <- vertices_edge_intersection ctol ptol ltol tag_min h tools e tag eps;
              let '(h', intx, used) := r in
              do ts <- mapM (vtag h') intx;
              do tag' <- np_max ts;
              Ok (h', tag', out ++ [(intx, used)]))
            edges (h, tag, out) = Ok (hf, tagf, outf) ->
    exists blocks l, outf = out ++ blocks /\ length blocks = length edges /\ hf = h ++ l /\ glued hf (length h) tag blocks.
  Proof.
    induction edges as [|e edges IH]; intros h tag out hf tagf outf A E.
    - simpl in E. inversion E; subst. exists [], []. rewrite !app_nil_r. simpl. auto.
    - cbn [foldM] in E. apply bind_Ok in E as ([[h1 tag1] out1] & E1 & E). apply bind_Ok in E1 as ([[h' intx] used] & Er & E1).
      apply bind_Ok in E1 as (ts & Ets & E1). apply bind_Ok in E1 as (t' & Et & E1). injection E1 as -> -> <-.
      destruct tools as [|v0 tools0].
      { unfold vertices_edge_intersection in Er. simpl in Er. injection Er as <- <- <-. simpl in Ets. injection Ets as <-. discriminate. }
      set (tools := v0 :: tools0) in *.
      destruct (one_edge_new tag_min h tools e tag eps h1 intx used) as (ps & Eh & Ei); auto.
      { intros v Hv. apply (A e v (or_introl eq_refl) Hv). }
      assert (Lp : exists m, length ps = S m).
      { destruct ps as [|p ps]; [|exists (length ps); reflexivity]. subst intx. simpl in Ets. injection Ets as <-. discriminate. }
      destruct Lp as (m & Lp).
      assert (Lh1 : length h1 = length h + S m) by (rewrite Eh, app_length, combine_length; unfold nums; rewrite map_length, seq_length; lia).
      assert (T1 : tag1 = (tag + Z.of_nat m)%Z).
      { assert (Q : mapM (vtag h1) (seq (length h) (S m)) = Ok (nums tag (S m))).
        { rewrite Eh, Lp. clear -Lp. 
          assert (G : forall k j, j + k = S m -> mapM (vtag (h ++ combine (nums tag (S m)) ps)) (seq (length h + j) k) = Ok (nums (tag + Z.of_nat j) k)).
          { induction k as [|k IHk]; intros j Hj; auto. cbn [seq mapM]. rewrite <- Lp at 1. rewrite vtag_new by lia. cbn [bind]. rewrite <- Nat.add_succ_r. rewrite IHk by lia. cbn [bind].
            rewrite nums_S. f_equal. f_equal. f_equal. lia. }
          specialize (G (S m) 0 eq_refl). rewrite Nat.add_0_r, Z.add_0_r in G. exact G. }
        rewrite Ei, Lp in Ets. rewrite Q in Ets. injection Ets as <-. rewrite nums_S in Et. cbn [np_max] in Et. rewrite fold_max_nums in Et. congruence. }
      apply IH in E.
      + destruct E as (blocks & l & Eo & Lb & Ef & G). exists ((intx, used) :: blocks), (combine (nums tag (length ps)) ps ++ l).
        split; [rewrite Eo, <- app_assoc; reflexivity|]. split; [simpl; auto|]. split; [rewrite Ef, Eh, app_assoc; reflexivity|].
        cbn [glued]. exists m. split; [rewrite Ei, Lp; reflexivity|]. split; [rewrite Ef, app_length; lia|]. split.
        * intros i Hi. rewrite Ef, vtag_app by lia. rewrite Eh. apply vtag_new. lia.
        * rewrite Lh1 in G. rewrite T1 in G. exact G.
      + intros e' v He Hv. destruct (A e' v (or_intror He) Hv) as (A1 & A2 & A3 & A4). rewrite Lh1. rewrite Eh. split; [apply apart_app; auto|]. lia.
  Qed.

  Lemma collision_always tag_min h tools edges tag eps hf out :
    (forall e v, In e edges -> In v tools -> apart h v e /\ v < length h /\ fst e < length h /\ snd e < length h) ->
    vertices_edges_intersection ctol ptol ltol tag_min h tools edges tag eps = Ok (hf, out) ->
    length out = length edges /\
    forall k, S k < length edges -> exists i1 u1 i2 u2 x y t, nth_error out k = Some (i1, u1) /\ nth_error out (S k) = Some (i2, u2) /\
      In x i1 /\ In y i2 /\ x <> y /\ vtag hf x = Ok t /\ vtag hf y = Ok t.
  Proof.
    intros A E. unfold vertices_edges_intersection in E. apply bind_Ok in E as ([[h1 t1] o1] & E & E'). injection E' as -> ->.
    apply run_glued in E; auto. destruct E as (blocks & l & Eo & Lb & _ & G). cbn [app] in Eo. subst blocks. split; auto. rewrite <- Lb. clear -G.
    revert G. generalize (length h) as s, tag as t. induction out as [|[i1 u1] out IH]; intros s t G k Hk; [simpl in Hk; lia|].
    destruct G as (m & E & B & T & G). destruct k as [|k].
    - destruct out as [|[i2 u2] out]; [simpl in Hk; lia|]. destruct G as (m2 & E2 & B2 & T2 & _). exists i1, u1, i2, u2, (s + m), (s + S m), (t + Z.of_nat m)%Z.
      split; auto. split; auto. subst. split; [apply in_seq; lia|]. split; [apply in_seq; lia|]. split; [lia|]. split; [apply T; lia|].
      specialize (T2 0 ltac:(lia)). rewrite Nat.add_0_r in T2. rewrite T2. f_equal. lia.
    - simpl in Hk. cbn [nth_error]. eapply IH; [exact G|lia].
  Qed.
End Ops.
