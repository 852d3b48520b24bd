(** * Lemmas about the intersection of domains: C84 *)
From Coq Require Import List Arith ZArith Bool Reals Lia Permutation.
From Verif Require Import Base BaseProof VecBase GeoModel VertexModel VertexSpec VertexProof DiffProof DomainModel DomainSpec DomainProof DomainProof2 DomainProof3.
Import ListNotations.

Section Keyed.
  Variable hash : nat -> Z -> Z.
  Variable h : heap.
  Notation key := (fun x => do t <- vtag h x; Ok (hash 0 t, x)).
  Lemma keyed_In l : forall keyed, mapM key l = Ok keyed -> forall k x, In (k, x) keyed <-> In x l /\ exists t, vtag h x = Ok t /\ k = hash 0 t.
  Proof.
    induction l as [|y l IH]; intros keyed E k x; cbn [mapM] in E.
    - injection E as <-. simpl. tauto.
    - apply bind_Ok in E as ([k0 y0] & E0 & E). apply bind_Ok in E as (ks & E1 & E). injection E as <-. apply bind_Ok in E0 as (t0 & Et & E0). injection E0 as <- <-.
      specialize (IH ks E1 k x). split.
      + intros [Q|I]; [injection Q as <- <-; split; [left; reflexivity|exists t0; auto]|]. apply IH in I as [I J]. split; [right; exact I|exact J].
      + intros [[->|I] (t & Ht & ->)]; [left; congruence|right; apply IH; split; [exact I|exists t; auto]].
  Qed.
  Lemma keyed_ex l : (forall x, In x l -> exists t, vtag h x = Ok t) -> exists keyed, mapM key l = Ok keyed.
  Proof.
    induction l as [|y l IH]; intros H; [exists []; reflexivity|]. destruct (H y (or_introl eq_refl)) as (t & Et). destruct IH as (ks & Ek); [intros x I; apply H; right; exact I|].
    exists ((hash 0 t, y) :: ks). cbn [mapM]. rewrite Et. cbn [bind]. rewrite Ek. reflexivity.
  Qed.
  Lemma vals_In (keyed : list (Z * nat)) x : In x (dvals (dict_of keyed)) -> exists k, In (k, x) keyed /\ dget (dict_of keyed) k = Some x.
  Proof.
    intros I. unfold dvals in I. apply in_map_iff in I as ([k y] & Q & I). simpl in Q. subst y. exists k.
    assert (G : dget (dict_of keyed) k = Some x) by (apply dget_NoDup; [apply NoDup_dict_of|exact I]). split; [|exact G].
    rewrite dget_dict_of in G. apply dget_Some_In in G. apply in_rev. exact G.
  Qed.
End Keyed.

Section Intersection.
  Variable hash : nat -> Z -> Z.
  Variables ctol ptol ltol : R.
  Lemma intersection_one tag_min h tools e tag eps h' intx used : vertices_edge_intersection ctol ptol ltol tag_min h tools e tag eps = Ok (h', intx, used) ->
    (intx = [] -> domain_intersection hash ctol ptol ltol tag_min h tools [e] tag eps = Err ValueError) /\
    (intx <> [] -> no_collision hash 0 (tags_from tag (length intx)) -> exists vs, domain_intersection hash ctol ptol ltol tag_min h tools [e] tag eps = Ok (h', Some vs) /\
       NoDup vs /\ forall x, In x vs <-> In x intx).
  Proof.
    intros E. destruct (single_lemma ctol ptol ltol _ _ _ _ _ _ _ _ _ E) as (_ & B & D). unfold domain_intersection, vertices_edges_intersection. cbn [foldM]. rewrite E. cbn [bind]. split.
    - intros ->. reflexivity.
    - intros N NC. assert (Tg : forall x, In x intx -> exists t, vtag h' x = Ok t) by (intros x I; destruct (B x I) as (t & Q & _); exists t; exact Q).
      assert (Tx : exists ts, mapM (vtag h') intx = Ok ts /\ ts <> []).
      { destruct (mapM (vtag h') intx) as [ts|er] eqn:Q.
        - exists ts. split; [reflexivity|]. intros ->. apply mapM_length in Q. destruct intx; [congruence|discriminate].
        - exfalso. clear - Tg Q. induction intx as [|x l IH]; [discriminate|]. cbn [mapM] in Q. destruct (Tg x (or_introl eq_refl)) as (t & Et). rewrite Et in Q. cbn [bind] in Q.
          destruct (mapM (vtag h') l) as [ts|er'] eqn:Ql; [discriminate|]. apply IH; [intros y I; apply Tg; right; exact I|]. injection Q as ->. reflexivity. }
      destruct Tx as (ts & Ets & Nts). rewrite Ets. cbn [bind]. destruct (np_max_ok ts Nts) as (mx & Em). rewrite Em. cbn [bind app length Nat.eqb map fst concat]. rewrite app_nil_r.
      destruct (keyed_ex hash h' intx Tg) as (keyed & Ek). rewrite Ek. cbn [bind]. eexists. split; [reflexivity|].
      pose proof (keyed_In hash h' intx keyed Ek) as KI.
      assert (Un : forall x y k, In (k, x) keyed -> In (k, y) keyed -> x = y).
      { intros x y k Ix Iy. apply KI in Ix as [Ix (t & Ht & Q)]. apply KI in Iy as [Iy (t' & Ht' & Q')]. destruct (Nat.eq_dec x y) as [->|Ne]; [reflexivity|]. exfalso. apply (D x y Ix Iy Ne).
        rewrite Ht, Ht'. f_equal. destruct (B x Ix) as (z & Qz & Rz). destruct (B y Iy) as (z' & Qz' & Rz'). rewrite Ht in Qz. injection Qz as <-. rewrite Ht' in Qz'. injection Qz' as <-.
        apply NC; [apply in_tags_from; lia|apply in_tags_from; lia|congruence]. }
      split.
      + assert (ND : NoDup (map (fun x => match vtag h' x with Ok t => hash 0 t | Err _ => 0%Z end) (dvals (dict_of keyed)))); [|exact (NoDup_map_inv _ _ ND)].
        replace (map _ (dvals (dict_of keyed))) with (dkeys (dict_of keyed)); [apply NoDup_dict_of|]. unfold dvals, dkeys. rewrite map_map. apply map_ext_in. intros [k x] I. cbn [fst snd].
        assert (G : dget (dict_of keyed) k = Some x) by (apply dget_NoDup; [apply NoDup_dict_of|exact I]). rewrite dget_dict_of in G. apply dget_Some_In, in_rev in G. apply KI in G as [_ (t & Ht & ->)]. rewrite Ht. reflexivity.
      + intros x. split.
        * intros I. apply vals_In in I as (k & I & _). apply KI in I. apply I.
        * intros I. destruct (Tg x I) as (t & Ht). assert (Ik : In (hash 0 t, x) keyed) by (apply KI; split; [exact I|exists t; auto]).
          assert (G : dget (dict_of keyed) (hash 0 t) = Some x) by (apply dget_consistent; [intros k v v' I1 I2; exact (Un v v' k I1 I2)|exact Ik]).
          apply dget_Some_In in G. unfold dvals. apply in_map_iff. exists (hash 0 t, x). auto.
  Qed.
  Lemma hits_all tag_min tools eps : forall edges h tag done hf tf out,
    foldM (fun st e =>
              let '(h, tag, out) := st in
              do r <- vertices_edge_intersection ctol ptol ltol tag_min h tools e tag eps;
              let '(h', intx, used) := r in
              do ts <- mapM (vtag h') intx;
              do tag' <- np_max ts;
              Ok (h', tag', out ++ [(intx, used)]))
            edges (h, tag, done) = Ok (hf, tf, out) -> (forall r, In r done -> fst r <> []) -> length out = length done + length edges /\ forall r, In r out -> fst r <> [].
  Proof.
    induction edges as [|e edges IH]; intros h tag done hf tf out E D; cbn [foldM] in E.
    - injection E as -> -> ->. split; [simpl; lia|exact D].
    - apply bind_Ok in E as ([[h1 t1] d1] & E1 & E). apply bind_Ok in E1 as ([[h2 intx] used] & Er & E1). apply bind_Ok in E1 as (ts & Et & E1). apply bind_Ok in E1 as (mx & Em & E1). injection E1 as -> -> <-.
      apply IH in E.
      + destruct E as [L R]. split; [|exact R]. rewrite L, app_length. simpl. lia.
      + intros r I. apply in_app_or in I as [I|[<-|[]]]; [exact (D r I)|]. cbn [fst]. intros ->. injection Et as <-. discriminate.
  Qed.
  Lemma intersection_hits tag_min h tools edges tag eps hf vs : domain_intersection hash ctol ptol ltol tag_min h tools edges tag eps = Ok (hf, vs) ->
    exists out, vertices_edges_intersection ctol ptol ltol tag_min h tools edges tag eps = Ok (hf, out) /\ length out = length edges /\ (forall r, In r out -> fst r <> []) /\
      (vs = None <-> edges = []).
  Proof.
    intros E. unfold domain_intersection in E. apply bind_Ok in E as ([h1 out] & Er & E). assert (Er' := Er). unfold vertices_edges_intersection in Er'. apply bind_Ok in Er' as ([[h2 t2] o2] & Ef & Q). injection Q as -> ->.
    destruct (hits_all _ _ _ _ _ _ _ _ _ _ Ef) as [L H]; [intros r []|]. simpl in L. exists out. destruct (length out =? 0) eqn:Z.
    - injection E as <- <-. apply Nat.eqb_eq in Z. split; [exact Er|]. split; [exact L|]. split; [exact H|]. split; [intros _; destruct edges; [reflexivity|simpl in L; lia]|reflexivity].
    - apply bind_Ok in E as (ks & _ & E). injection E as <- <-. apply Nat.eqb_neq in Z. split; [exact Er|]. split; [exact L|]. split; [exact H|]. split; [discriminate|]. intros ->. simpl in L. lia.
  Qed.
  Lemma intersection_lost tag_min h tools edges tag eps hf vs :
    (forall e v, In e edges -> In v tools -> apart h v e /\ v < length h /\ fst e < length h /\ snd e < length h) -> 2 <= length edges ->
    domain_intersection hash ctol ptol ltol tag_min h tools edges tag eps = Ok (hf, vs) ->
    exists out found, vertices_edges_intersection ctol ptol ltol tag_min h tools edges tag eps = Ok (hf, out) /\ vs = Some found /\
      exists r x, In r out /\ In x (fst r) /\ ~ In x found.
  Proof.
    intros A L E. destruct (intersection_hits _ _ _ _ _ _ _ _ E) as (out & Er & _ & _ & NN). destruct vs as [found|]; [|rewrite (proj1 NN eq_refl) in L; simpl in L; lia].
    exists out, found. split; [exact Er|]. split; [reflexivity|]. destruct (collision_always ctol ptol ltol _ _ _ _ _ _ _ _ A Er) as [_ K]. destruct (K 0 ltac:(lia)) as (i1 & u1 & i2 & u2 & x & y & t & O1 & O2 & Ix & Iy & Ne & Tx & Ty).
    unfold domain_intersection in E. rewrite Er in E. cbn [bind] in E. destruct (length out =? 0); [discriminate|]. apply bind_Ok in E as (keyed & Ek & E). injection E as <-.
    destruct (in_dec Nat.eq_dec x (dvals (dict_of keyed))) as [Jx|Jx]; [|exists (i1, u1), x; split; [exact (nth_error_In _ _ O1)|split; [exact Ix|exact Jx]]].
    exists (i2, u2), y. split; [exact (nth_error_In _ _ O2)|]. split; [exact Iy|]. intros Jy.
    apply vals_In in Jx as (k & I1 & G1). apply vals_In in Jy as (k' & I2 & G2). pose proof (keyed_In hash hf _ keyed Ek) as KI. apply KI in I1 as [_ (s & Hs & ->)]. apply KI in I2 as [_ (s' & Hs' & ->)].
    rewrite Tx in Hs. injection Hs as <-. rewrite Ty in Hs'. injection Hs' as <-. rewrite G1 in G2. injection G2 as Q. exact (Ne Q).
  Qed.
End Intersection.
