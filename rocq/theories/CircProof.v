(** * Lemmas about circulating an internal boundary: C57 *)
From Coq Require Import List Arith ZArith Bool Lia Sorted.
From Verif Require Import Base BaseProof MeshModel MeshSpec GraphModel GraphProof GraphProof2 CutModel CutProof LoopModel LoopSpec LoopProof.
Import ListNotations.

(** ** lists with one or two elements *)
Lemma one_elt {A} (l : list A) a : NoDup l -> (forall x, In x l <-> x = a) -> l = [a].
Proof.
  intros N H. destruct l as [|x l]; [exfalso; apply (proj2 (H a) eq_refl)|]. assert (x = a) by (apply H; left; auto). subst x. f_equal.
  destruct l as [|y l]; auto. exfalso. assert (y = a) by (apply H; right; left; auto). subst y. inversion N as [|? ? N1 _]. apply N1. left. auto.
Qed.
Lemma two_elts {A} (l : list A) a b : a <> b -> NoDup l -> (forall x, In x l <-> x = a \/ x = b) -> length l = 2.
Proof.
  intros AB N H. assert (L : length l <= 2). { apply (NoDup_incl_length (l' := [a; b])) in N; [exact N|]. intros x Hx. apply H in Hx as [->| ->]; simpl; auto. }
  assert (L2 : 2 <= length l). { apply (NoDup_incl_length (l := [a; b])); [constructor; [intros [Q|[]]; auto|constructor; [intros []|constructor]]|]. intros x [<-|[<-|[]]]; apply H; auto. }
  lia.
Qed.
Lemma filterM_pure {A} (f : A -> res bool) (s : A -> bool) l : (forall x, In x l -> f x = Ok (s x)) -> filterM f l = Ok (filter s l).
Proof.
  induction l as [|x l IH]; intros H; auto. cbn [filterM filter]. rewrite (H x (or_introl eq_refl)). cbn [bind]. rewrite IH by (intros; apply H; right; auto). reflexivity.
Qed.
Lemma pick_one {A} (q : A -> bool) l (a d : A) : In a l -> q a = true -> (forall b, In b l -> q b = true -> b = a) -> match filter q l with x :: _ => x | [] => d end = a.
Proof.
  intros I Q U. assert (F : In a (filter q l)) by (apply filter_In; auto). destruct (filter q l) as [|x r] eqn:E; [destruct F|].
  assert (X : In x (filter q l)) by (rewrite E; left; auto). apply filter_In in X as [X1 X2]. apply U; auto.
Qed.

Section Walk.
  Variable cs : cells.
  Variable tags : list Z.
  Variable g : digraph vid.
  Definition skin_q (u : vid) : bool := match nth_error cs (snd u) with Some (Some c) => negb (memb (c_mat c) (map Some tags)) | _ => false end.
  Definition dart (d : vid * vid) : Prop := In d (g_edges g) /\ skin_q (fst d) = true.
  Hypothesis Hdup : NoDup (g_edges g).
  Hypothesis Hnodes : forall u v, In (u, v) (g_edges g) -> In u (g_nodes g) /\ In v (g_nodes g).
  Hypothesis Hcells : forall u v, In (u, v) (g_edges g) -> exists c, cell_of cs (snd u) = Ok c.
  Hypothesis HA : forall d, dart d -> exists a, a <> d /\ forall b, (dart b /\ snd b = snd d) <-> b = d \/ b = a.
  Hypothesis HT : forall d, dart d -> exists a, a <> d /\ forall b, (In b (g_edges g) /\ fst b = fst d) <-> b = d \/ b = a.
  Definition alpha (d : vid * vid) : vid * vid :=
    match filter (fun a => eqb (snd a) (snd d) && skin_q (fst a) && negb (eqb (fst a) (fst d))) (g_edges g) with x :: _ => x | [] => d end.
  Definition tau (d : vid * vid) : vid * vid :=
    match filter (fun a => eqb (fst a) (fst d) && negb (eqb (snd a) (snd d))) (g_edges g) with x :: _ => x | [] => d end.

  Lemma alpha_spec d : dart d -> dart (alpha d) /\ snd (alpha d) = snd d /\ alpha d <> d /\ forall b, dart b -> snd b = snd d -> b = d \/ b = alpha d.
  Proof.
    intros D. destruct (HA d D) as (a & N & U). destruct (proj2 (U a) (or_intror eq_refl)) as [Da Sa].
    assert (E : alpha d = a).
    { unfold alpha. apply pick_one; [apply Da| |].
      - rewrite !andb_true_iff, negb_true_iff, eqb_true, eqb_false. split; [split; auto; apply Da|]. intros Q. apply N. destruct a, d; cbn in *; congruence.
      - intros b Ib Qb. rewrite !andb_true_iff, negb_true_iff, eqb_true, eqb_false in Qb. destruct Qb as [[Q1 Q2] Q3]. destruct (proj1 (U b) (conj (conj Ib Q2) Q1)) as [-> |]; [congruence|auto]. }
    rewrite E. split; auto. split; auto. split; auto. intros b Db Sb. apply U. auto.
  Qed.
  Lemma tau_spec d : dart d -> dart (tau d) /\ fst (tau d) = fst d /\ tau d <> d /\ forall b, In b (g_edges g) -> fst b = fst d -> b = d \/ b = tau d.
  Proof.
    intros D. destruct (HT d D) as (a & N & U). destruct (proj2 (U a) (or_intror eq_refl)) as [Da Sa].
    assert (E : tau d = a).
    { unfold tau. apply pick_one; auto.
      - rewrite !andb_true_iff, negb_true_iff, eqb_true, eqb_false. split; auto. intros Q. apply N. destruct a, d; cbn in *; congruence.
      - intros b Ib Qb. rewrite !andb_true_iff, negb_true_iff, eqb_true, eqb_false in Qb. destruct Qb as [Q1 Q3]. destruct (proj1 (U b) (conj Ib Q1)) as [-> |]; [congruence|auto]. }
    rewrite E. split; [split; auto; rewrite Sa; apply D|]. split; auto. split; auto. intros b Db Sb. apply U. auto.
  Qed.
  Lemma alpha_inv d : dart d -> dart (alpha d) /\ alpha (alpha d) = d /\ alpha d <> d /\ snd (alpha d) = snd d.
  Proof.
    intros D. destruct (alpha_spec d D) as (A1 & A2 & A3 & A4). split; auto. split; auto. destruct (alpha_spec _ A1) as (_ & _ & _ & B4). destruct (B4 d D (eq_sym A2)) as [Q|Q]; [congruence|auto].
  Qed.
  Lemma tau_inv d : dart d -> dart (tau d) /\ tau (tau d) = d /\ tau d <> d /\ fst (tau d) = fst d.
  Proof.
    intros D. destruct (tau_spec d D) as (A1 & A2 & A3 & A4). split; auto. split; auto. destruct (tau_spec _ A1) as (_ & _ & _ & B4). destruct (B4 d (proj1 D) (eq_sym A2)) as [Q|Q]; [congruence|auto].
  Qed.
  Definition step : vid * vid -> vid * vid := sigma _ alpha tau.
  Definition walk : nat -> vid * vid -> vid * vid := after _ alpha tau.

  Lemma on_skin_q u v : In (u, v) (g_edges g) -> on_skin cs tags u = Ok (skin_q u).
  Proof.
    intros I. destruct (Hcells u v I) as (c & E). unfold on_skin. rewrite E. cbn [bind]. f_equal. unfold cell_of, get_at in E. unfold skin_q.
    destruct (nth_error cs (snd u)) as [[c'|]|]; try discriminate. injection E as ->. reflexivity.
  Qed.
  Lemma preds v : In v (g_nodes g) -> exists l, predecessors g v = Ok l /\ NoDup l /\ forall u, In u l <-> In (u, v) (g_edges g).
  Proof.
    intros I. unfold predecessors. rewrite (proj2 (memb_In v (g_nodes g)) I). eexists. split; [reflexivity|]. split.
    - apply NoDup_map_inj_in; [|apply NoDup_filter; auto]. intros [a b] [c d]; rewrite !filter_In; simpl; rewrite !eqb_true; intuition congruence.
    - intros u. rewrite in_map_iff. split; [intros ([a b] & E1 & E2); rewrite filter_In in E2; simpl in *; rewrite eqb_true in E2; destruct E2; subst; auto|].
      intros H. exists (u, v). split; auto. rewrite filter_In. simpl. rewrite eqb_refl. auto.
  Qed.
  Lemma succs u : In u (g_nodes g) -> exists l, successors g u = Ok l /\ NoDup l /\ forall v, In v l <-> In (u, v) (g_edges g).
  Proof.
    intros I. unfold successors. rewrite (proj2 (memb_In u (g_nodes g)) I). eexists. split; [reflexivity|]. split.
    - apply NoDup_map_inj_in; [|apply NoDup_filter; auto]. intros [a b] [c d]; rewrite !filter_In; simpl; rewrite !eqb_true; intuition congruence.
    - intros v. rewrite in_map_iff. split; [intros ([a b] & E1 & E2); rewrite filter_In in E2; simpl in *; rewrite eqb_true in E2; destruct E2; subst; auto|].
      intros H. exists (u, v). split; auto. rewrite filter_In. simpl. rewrite eqb_refl. auto.
  Qed.
  Lemma next_step fuel seed d : dart d ->
    next_d_m_1 (S fuel) cs tags seed (fst d) (snd d) g = if eqb seed (snd (step d)) then Ok true else next_d_m_1 fuel cs tags seed (fst (step d)) (snd (step d)) g.
  Proof.
    intros D. destruct d as [e v]. cbn [fst snd]. cbn [next_d_m_1].
    destruct (preds v) as (pc & Ep & Np & Ip); [apply (Hnodes e v (proj1 D))|]. rewrite Ep. cbn [bind].
    rewrite (filterM_pure _ skin_q) by (intros u Hu; apply Ip in Hu; eapply on_skin_q; eauto). cbn [bind].
    destruct (alpha_spec _ D) as (A1 & A2 & A3 & A4). remember (alpha (e, v)) as a eqn:Ea. destruct a as [e' v']. cbn [fst snd] in A2. subst v'.
    assert (Ne : e' <> e) by congruence.
    assert (In_n : forall u, In u (filter skin_q pc) <-> u = e \/ u = e').
    { intros u. rewrite filter_In, Ip. split.
      - intros [I S]. destruct (A4 (u, v) (conj I S) eq_refl) as [Q|Q]; [left|right]; congruence.
      - intros [-> | ->]; [exact D|exact A1]. }
    rewrite (two_elts (filter skin_q pc) e e'); auto; [|apply NoDup_filter; auto]. cbn [Nat.eqb negb].
    rewrite (one_elt (filter (fun u => negb (eqb u e)) (filter skin_q pc)) e').
    2: { apply NoDup_filter, NoDup_filter; auto. }
    2: { intros u. rewrite filter_In, In_n, negb_true_iff, eqb_false. split; [intros [[-> |] Q]; congruence|intros ->; auto]. }
    destruct (succs e') as (sc & Es & Ns & Is); [apply (Hnodes e' v (proj1 A1))|]. rewrite Es. cbn [bind].
    destruct (tau_spec _ A1) as (T1 & T2 & T3 & T4). assert (St : step (e, v) = tau (e', v)) by (unfold step, sigma; rewrite <- Ea; reflexivity). rewrite St.
    remember (tau (e', v)) as t eqn:Et. destruct t as [e2 w]. cbn [fst snd] in *. subst e2. assert (Nw : w <> v) by congruence.
    rewrite (one_elt (filter (fun u => negb (eqb u v)) sc) w); [reflexivity|apply NoDup_filter; auto|].
    intros u. rewrite filter_In, Is, negb_true_iff, eqb_false. split.
    - intros [I Q]. destruct (T4 (e', u) I eq_refl) as [Q'|Q']; congruence.
    - intros ->. split; auto. apply T1.
  Qed.
  Lemma next_run n : forall fuel seed d, dart d -> 0 < n -> snd (walk n d) = seed -> (forall k, 0 < k < n -> snd (walk k d) <> seed) ->
    next_d_m_1 fuel cs tags seed (fst d) (snd d) g = if n <=? fuel then Ok true else Err RecursionError.
  Proof.
    induction n as [|n IH]; intros fuel seed d D P E F; [lia|]. destruct fuel as [|fuel]; [reflexivity|]. rewrite (next_step fuel seed d D).
    destruct n as [|n].
    - change (walk 1 d) with (step d) in E. rewrite E, eqb_refl. reflexivity.
    - replace (eqb seed (snd (step d))) with false.
      2: { symmetry. apply eqb_false. intros Q. apply (F 1); [lia|]. symmetry. exact Q. }
      assert (Ds : dart (step d)) by exact (proj1 (tau_inv _ (proj1 (alpha_inv _ D)))).
      rewrite (IH fuel seed (step d) Ds); [reflexivity|lia| |].
      + unfold walk in *. rewrite <- E. rewrite <- shift. reflexivity.
      + intros k Lk. unfold walk. unfold step. rewrite <- shift. apply (F (S k)). lia.
  Qed.
End Walk.

Section Mesh.
  Variable cs : cells.
  Variable tags : list Z.
  Hypothesis CL : closed_mesh cs.
  Hypothesis SK : closed_skin cs tags.
  Variable g : digraph vid.
  Hypothesis Hdup : NoDup (g_edges g).
  Hypothesis Hnodes : forall w, In w (g_nodes g) <-> exists u v, In (u, v) (g_edges g) /\ (w = u \/ w = v).
  Hypothesis Hedges : forall u w, In (u, w) (g_edges g) <-> exists i c j, cell_at cs i c /\ c_dim c = 1 /\ In j (nth 0 (c_sub c) []) /\ c_mat c <> None /\ u = (1, i) /\ w = (0, j).

  Lemma at_fun i c c' : cell_at cs i c -> cell_at cs i c' -> c = c'.
  Proof. unfold cell_at. congruence. Qed.
  Lemma cell_of_at i c : cell_at cs i c -> cell_of cs i = Ok c.
  Proof. unfold cell_at, cell_of, get_at. intros ->. reflexivity. Qed.
  Lemma skin_q_iff i c : cell_at cs i c -> c_dim c = 1 -> c_mat c <> None -> (skin_q cs tags (1, i) = true <-> skin_edge cs tags i).
  Proof.
    intros C D M. unfold skin_q. cbn [snd]. unfold cell_at in C. rewrite C. rewrite negb_true_iff, memb_notIn. split.
    - intros N. destruct (c_mat c) as [t|] eqn:Em; [|congruence]. exists c, t. repeat split; auto. intros I. apply N. apply in_map. auto.
    - intros (c' & t & C' & _ & Em & N) I. assert (c' = c) by (unfold cell_at in C'; congruence). subst c'. rewrite Em in I. apply in_map_iff in I as (t' & Q & I). injection Q as ->. auto.
  Qed.
  Lemma dart_iff d : dart cs tags g d <-> exists i j, d = ((1, i), (0, j)) /\ skin_edge cs tags i /\ touches cs i j.
  Proof.
    destruct d as [u w]. unfold dart. rewrite Hedges. cbn [fst]. split.
    - intros [(i & c & j & C & D & I & M & -> & ->) S]. exists i, j. split; auto. split; [apply (skin_q_iff i c C D M); auto|]. exists c. auto.
    - intros (i & j & E & (c & t & C & D & M & N) & (c' & C' & I)). injection E as -> ->. rewrite (at_fun _ _ _ C' C) in I.
      split; [exists i, c, j; repeat split; auto; congruence|]. apply (skin_q_iff i c C D); [congruence|]. exists c, t. auto.
  Qed.
  Lemma HA_mesh d : dart cs tags g d -> exists a, a <> d /\ forall b, (dart cs tags g b /\ snd b = snd d) <-> b = d \/ b = a.
  Proof.
    intros D. apply dart_iff in D as (i & j & -> & S & T). destruct (SK i j S T) as [_ (f & Nf & U)]. exists ((1, f), (0, j)). split; [congruence|]. intros b. split.
    - intros [Db E]. apply dart_iff in Db as (i' & j' & -> & S' & T'). cbn [snd] in E. injection E as ->. destruct (proj1 (U i') (conj S' T')) as [-> | ->]; auto.
    - intros [-> | ->]; split; auto; apply dart_iff; [exists i, j; auto|]. destruct (proj2 (U f) (or_intror eq_refl)). exists f, j. auto.
  Qed.
  Lemma HT_mesh d : dart cs tags g d -> exists a, a <> d /\ forall b, (In b (g_edges g) /\ fst b = fst d) <-> b = d \/ b = a.
  Proof.
    intros D. apply dart_iff in D as (i & j & -> & S & T). destruct (SK i j S T) as [(w & Nw & U) _]. exists ((1, i), (0, w)). split; [congruence|]. intros b. split.
    - intros [Ib E]. destruct b as [u x]. cbn [fst] in E. subst u. apply Hedges in Ib as (i' & c & j' & C & _ & I & _ & E & ->). injection E as <-. destruct (proj1 (U j')) as [-> | ->]; auto. exists c. auto.
    - intros Q. assert (B : dart cs tags g b). { apply dart_iff. destruct Q as [-> | ->]; [exists i, j; auto|exists i, w]. split; auto. split; auto. apply U. auto. }
      split; [apply B|]. destruct Q as [-> | ->]; reflexivity.
  Qed.
  Lemma nodes_mesh u v : In (u, v) (g_edges g) -> In u (g_nodes g) /\ In v (g_nodes g).
  Proof. intros I. split; apply Hnodes; exists u, v; auto. Qed.
  Lemma cells_mesh u v : In (u, v) (g_edges g) -> exists c, cell_of cs (snd u) = Ok c.
  Proof. intros I. apply Hedges in I as (i & c & j & C & _ & _ & _ & -> & _). exists c. cbn [snd]. apply cell_of_at. auto. Qed.

  Let al := alpha cs tags g.
  Let ta := tau g.
  Let wk := walk cs tags g.
  Definition pairs_of (d : vid * vid) : nat * nat := (snd (fst d), snd (snd d)).
  Lemma Ha_mesh d : dart cs tags g d -> dart cs tags g (al d) /\ al (al d) = d /\ al d <> d /\ snd (al d) = snd d.
  Proof. apply alpha_inv, HA_mesh. Qed.
  Lemma Ht_mesh d : dart cs tags g d -> dart cs tags g (ta d) /\ ta (ta d) = d /\ ta d <> d /\ fst (ta d) = fst d.
  Proof. apply tau_inv, HT_mesh. Qed.
  Lemma walk_dart n d : dart cs tags g d -> dart cs tags g (wk n d).
  Proof. apply ok_after with (edge := fst) (vert := snd); [exact Ha_mesh|exact Ht_mesh]. Qed.

  Lemma pair_dec (x y : vid * vid) : {x = y} + {x <> y}.
  Proof. decide equality; apply eq_dec. Qed.
  Lemma loop_mesh e0 v : skin_edge cs tags e0 -> touches cs e0 v -> exists p, loop cs tags v p /\ (exists r, p = r ++ [(e0, v)]) /\
    forall fuel, next_d_m_1 fuel cs tags (0, v) (1, e0) (0, v) g = if length p <=? fuel then Ok true else Err RecursionError.
  Proof.
    intros Se T. set (d0 := ((1, e0), (0, v)) : vid * vid). assert (D0 : dart cs tags g d0) by (apply dart_iff; exists e0, v; auto).
    destruct (first_return (vid * vid) vid vid pair_dec eq_dec (dart cs tags g) (g_edges g) (fun d H => proj1 H) al ta fst snd Ha_mesh Ht_mesh d0 D0) as (n & R & _).
    assert (Hv : forall d d', dart cs tags g d -> dart cs tags g d' -> snd d = snd d' -> d' = d \/ d' = al d).
    { intros d d' Dd Dd' E. destruct (alpha_spec cs tags g HA_mesh d Dd) as (_ & _ & _ & U). apply U; auto. }
    assert (He : forall d d', dart cs tags g d -> dart cs tags g d' -> fst d = fst d' -> d' = d \/ d' = ta d).
    { intros d d' Dd Dd' E. destruct (tau_spec cs tags g HT_mesh d Dd) as (_ & _ & _ & U). apply U; auto. apply Dd'. }
    exists (map (fun k => pairs_of (wk k d0)) (seq 1 n)).
    assert (FL : wk n d0 = d0) by (apply (full_loop (vid * vid) vid vid (dart cs tags g) al ta fst snd Ha_mesh Ht_mesh Hv He d0 n D0 R)).
    assert (Form : forall k, exists i j, wk k d0 = ((1, i), (0, j)) /\ skin_edge cs tags i /\ touches cs i j) by (intros k; apply dart_iff, walk_dart; auto).
    assert (Inj1 : forall k k', fst (pairs_of (wk k d0)) = fst (pairs_of (wk k' d0)) -> fst (wk k d0) = fst (wk k' d0)).
    { intros k k' E. destruct (Form k) as (i & j & E1 & _). destruct (Form k') as (i' & j' & E2 & _). rewrite E1, E2 in *. cbn in *. congruence. }
    assert (Inj2 : forall k k', snd (pairs_of (wk k d0)) = snd (pairs_of (wk k' d0)) -> snd (wk k d0) = snd (wk k' d0)).
    { intros k k' E. destruct (Form k) as (i & j & E1 & _). destruct (Form k') as (i' & j' & E2 & _). rewrite E1, E2 in *. cbn in *. congruence. }
    assert (ND : forall f : nat -> nat, (forall i j, 0 < i < j -> j <= n -> f i <> f j) -> NoDup (map f (seq 1 n))).
    { intros f H. assert (G : forall k s, 0 < s -> s + k <= S n -> NoDup (map f (seq s k))).
      { induction k as [|k IH]; intros s P L; [constructor|]. cbn [seq map]. constructor; [|apply IH; lia]. intros I. apply in_map_iff in I as (j & E & I). apply in_seq in I. apply (H s j); [lia|lia|auto]. }
      apply G; lia. }
    assert (Rn : exists m, n = S m) by (destruct R as [P _]; exists (n - 1); lia). destruct Rn as (m & ->).
    assert (Last : map (fun k => pairs_of (wk k d0)) (seq 1 (S m)) = map (fun k => pairs_of (wk k d0)) (seq 1 m) ++ [(e0, v)]).
    { rewrite seq_S, map_app. cbn [map]. replace (1 + m) with (S m) by lia. rewrite FL. reflexivity. }
    split; [split; [|split; [|split]]|split].
    - assert (G : forall k s, path cs tags (snd (pairs_of (wk s d0))) (map (fun k => pairs_of (wk k d0)) (seq (S s) k))).
      { induction k as [|k IH]; intros s; [exact I|]. cbn [seq map path]. destruct (pairs_of (wk (S s) d0)) as [e w] eqn:Ep. split; [|split; [|split; [|split]]].
        - destruct (Form (S s)) as (i & j & E1 & E2 & _). rewrite E1 in Ep. injection Ep as <- <-. auto.
        - destruct (Form s) as (i0 & j0 & E0 & S0 & T0). assert (Ds := walk_dart s d0 D0). destruct (alpha_spec cs tags g HA_mesh _ Ds) as (A1 & A2 & _). destruct (tau_spec cs tags g HT_mesh _ A1) as (B1 & B2 & _).
          assert (W : wk (S s) d0 = tau g (alpha cs tags g (wk s d0))) by reflexivity. apply dart_iff in A1 as (i1 & j1 & E1 & S1 & T1).
          rewrite W in Ep. unfold pairs_of in Ep. injection Ep as <- _. unfold wk in E0. fold wk in E0. unfold pairs_of. cbn [snd]. change (walk cs tags g s d0) with (wk s d0) in *. rewrite B2, E1. cbn [fst snd].
          rewrite <- A2, E1. cbn [snd]. exact T1.
        - destruct (Form (S s)) as (i & j & E1 & _ & E2). rewrite E1 in Ep. injection Ep as <- <-. auto.
        - intros Q. destruct (Form s) as (i0 & j0 & E0 & S0 & T0). destruct (Form (S s)) as (i & j & E1 & _ & _). assert (Ds := walk_dart s d0 D0). destruct (alpha_spec cs tags g HA_mesh _ Ds) as (A1 & A2 & _). destruct (tau_spec cs tags g HT_mesh _ A1) as (B1 & B2 & B3 & _).
          assert (W : wk (S s) d0 = tau g (alpha cs tags g (wk s d0))) by reflexivity. rewrite E1 in Ep. injection Ep as <- <-. rewrite E0 in Q. cbn in Q. subst j.
          apply B3. change (walk cs tags g s d0) with (wk s d0) in *. rewrite <- W. rewrite <- W in B2. rewrite E1. rewrite E1 in B2. apply dart_iff in A1 as (i1 & j1 & E3 & _ & _). rewrite E3. rewrite E3 in A2, B2. rewrite E0 in A2. cbn in A2, B2. congruence.
        - replace w with (snd (pairs_of (wk (S s) d0))) by (rewrite Ep; reflexivity). apply IH. }
      apply (G (S m) 0).
    - exists e0. eexists. exact Last.
    - rewrite map_map. apply ND. intros i j L1 L2 Q. apply Inj1 in Q. revert Q. apply (edges_differ (vid * vid) vid vid (dart cs tags g) al ta fst snd Ha_mesh Ht_mesh He d0 (S m)); auto.
    - rewrite map_map. apply ND. intros i j L1 L2 Q. apply Inj2 in Q. revert Q. apply (verts_differ (vid * vid) vid vid (dart cs tags g) al ta fst snd Ha_mesh Ht_mesh Hv He d0 (S m)); auto.
    - eexists. exact Last.
    - intros fuel. rewrite map_length, seq_length. destruct R as (P & Q & F). apply (next_run cs tags g Hdup nodes_mesh cells_mesh HA_mesh HT_mesh (S m) fuel (0, v) d0 D0); auto.
  Qed.
End Mesh.

Lemma circulate_lemma gfuel cs t0 rest v : let tags := t0 :: rest in
  closed_mesh cs -> closed_skin cs tags -> fracture_end cs t0 v -> (forall w, fracture_end cs t0 w -> v <= w) ->
  (exists e, skin_edge cs tags e /\ touches cs e v) ->
  exists p, loop cs tags v p /\
    forall fuel, circulate_internal_bc (S gfuel) fuel cs tags = if length p <=? fuel then Ok true else Err RecursionError.
Proof.
  intros tags CL SK FE Least (e1 & S1 & T1).
  destruct (materials_lemma gfuel cs 1 0 CL) as (gg & g & Eg & Em & ND & Nodes & Edges); [lia|lia|].
  destruct (C09_lemma gfuel cs 1 0 CL) as (gg' & Eg' & _ & _ & Inc & _); [lia|lia|]. rewrite Eg in Eg'. injection Eg' as <-.
  assert (Hedges : forall u w, In (u, w) (g_edges g) <-> exists i c j, cell_at cs i c /\ c_dim c = 1 /\ In j (nth 0 (c_sub c) []) /\ c_mat c <> None /\ u = (1, i) /\ w = (0, j)).
  { intros u w. rewrite Edges, Inc. split.
    - intros ((i & c & j & C & D & I & -> & ->) & (c' & C' & M)). cbn [snd] in C'. rewrite (at_fun cs _ _ _ C' C) in M. exists i, c, j. auto 10.
    - intros (i & c & j & C & D & I & M & -> & ->). split; [exists i, c, j; auto|]. exists c. auto. }
  destruct (all_cells_closed cs CL) as (l & El & Ml).
  assert (Il : forall c, In c l <-> cell_at cs (c_id c) c).
  { intros c. rewrite (In_all_cells cs l c Ml). split; [intros (i & C); rewrite (proj1 (proj2 CL i c C)); auto|eauto]. }
  unfold circulate_internal_bc. cbn [first tags bind]. rewrite El. cbn [bind].
  set (own := filter (fun c => eqb (c_mat c) (Some t0)) l).
  assert (Mo : mapM (cell_of cs) (map c_id own) = Ok own).
  { assert (G : forall c, In c own -> cell_of cs (c_id c) = Ok c) by (intros c Hc; apply filter_In in Hc as [Hc _]; apply cell_of_at, Il; auto).
    clearbody own. induction own as [|c own IH]; auto. cbn [map mapM]. rewrite (G c (or_introl eq_refl)). cbn [bind]. rewrite IH by (intros; apply G; right; auto). reflexivity. }
  rewrite Mo. cbn [bind]. set (f_cells := filter (fun c => c_dim c =? 1) own).
  assert (If : forall c, In c f_cells <-> cell_at cs (c_id c) c /\ c_mat c = Some t0 /\ c_dim c = 1).
  { intros c. unfold f_cells, own. rewrite !filter_In, Il, eqb_true, Nat.eqb_eq. tauto. }
  assert (Ms : mapM (fun c => get_at (c_sub c) 0) f_cells = Ok (map (fun c => nth 0 (c_sub c) []) f_cells)).
  { assert (G : forall c, In c f_cells -> get_at (c_sub c) 0 = Ok (nth 0 (c_sub c) [])).
    { intros c Hc. apply If in Hc as (C & _ & _). destruct (proj2 CL _ _ C) as (_ & _ & L & _). destruct (c_sub c); [simpl in L; lia|reflexivity]. }
    clearbody f_cells. clear If. induction f_cells as [|c f IH]; auto. cbn [map mapM]. rewrite (G c (or_introl eq_refl)). cbn [bind]. rewrite IH by (intros; apply G; right; auto). reflexivity. }
  rewrite Ms. cbn [bind]. set (vs := np_unique (concat (map (fun c => nth 0 (c_sub c) []) f_cells))). destruct (np_unique_spec (concat (map (fun c => nth 0 (c_sub c) []) f_cells))) as [Sv Iv]. fold vs in Sv, Iv.
  assert (Jv : forall w, In w vs <-> exists e c, cell_at cs e c /\ c_dim c = 1 /\ c_mat c = Some t0 /\ touches cs e w).
  { intros w. rewrite Iv, in_concat. split.
    - intros (x & Hx & Hw). apply in_map_iff in Hx as (c & <- & Hc). apply If in Hc as (C & M & D). exists (c_id c), c. repeat split; auto. exists c. auto.
    - intros (e & c & C & D & M & (c' & C' & I)). rewrite (at_fun cs _ _ _ C' C) in I. exists (nth 0 (c_sub c) []). split; auto. apply in_map_iff. exists c. split; auto. apply If.
      rewrite (proj1 (proj2 CL e c C)). auto. }
  assert (Cv : forall w, In w vs -> exists c, cell_at cs w c /\ c_dim c = 0).
  { intros w Hw. apply Jv in Hw as (e & c & C & D & M & (c' & C' & I)). rewrite (at_fun cs _ _ _ C' C) in I. destruct (proj2 CL e c C) as (_ & _ & _ & Q). apply (Q 0 w); [lia|auto]. }
  set (q := fun w => match nth_error cs w with Some (Some c) => eqb (c_mat c) (Some t0) | _ => false end).
  rewrite (filterM_pure _ q).
  2: { intros w Hw. destruct (Cv w Hw) as (c & C & _). rewrite (proj2 (GraphProof.cell_of_at cs w c) C). cbn [bind]. unfold q. unfold cell_at in C. rewrite C. reflexivity. }
  cbn [bind].
  assert (Jq : forall w, In w (filter q vs) <-> fracture_end cs t0 w).
  { intros w. rewrite filter_In, Jv. unfold fracture_end. split.
    - intros [A B]. split; auto. unfold q in B. destruct (nth_error cs w) as [[c|]|] eqn:Ew; try discriminate. exists c. split; [exact Ew|]. apply eqb_true. auto.
    - intros [(c & C & M) A]. split; auto. unfold q. unfold cell_at in C. rewrite C, M. apply eqb_refl. }
  assert (Hd : exists r, filter q vs = v :: r).
  { assert (I := proj2 (Jq v) FE). assert (Sq : StronglySorted lt (filter q vs)).
    { clear -Sv. induction Sv as [|x l0 S IH F]; [constructor|]. simpl. destruct (q x); auto. constructor; auto. apply Forall_forall. intros y Hy. apply filter_In in Hy as [Hy _]. rewrite Forall_forall in F. auto. }
    destruct (filter q vs) as [|x r] eqn:Ef; [destruct I|]. exists r. f_equal. assert (Lx : v <= x) by (apply Least, Jq; left; auto). destruct I as [I|I]; auto. inversion Sq as [|? ? _ F]; subst. rewrite Forall_forall in F. apply F in I. lia. }
  destruct Hd as (r & Hd). rewrite Hd. change (build_graph_on_materials (S gfuel) cs 1 1) with (build_graph_on_materials (S gfuel) cs (Z.of_nat 1) (Z.of_nat 1 - Z.of_nat 0)). rewrite Em. cbn [bind first].
  assert (Iv0 : In v vs). { apply Jv. apply FE. } destruct (Cv v Iv0) as (c0 & C0 & D0). rewrite (proj2 (GraphProof.cell_of_at cs v c0) C0). cbn [bind]. rewrite D0.
  assert (NM := nodes_mesh g Nodes). assert (CM := cells_mesh cs g Hedges).
  assert (Dt : forall d, dart cs tags g d <-> exists i j, d = ((1, i), (0, j)) /\ skin_edge cs tags i /\ touches cs i j) by (apply dart_iff; auto).
  assert (D1 : dart cs tags g ((1, e1), (0, v))) by (apply Dt; exists e1, v; auto).
  destruct (preds g ND (0, v)) as (pc & Ep & Np & Ip); [apply (NM (1, e1)); apply D1|]. rewrite Ep. cbn [bind].
  rewrite (filterM_pure _ (skin_q cs tags)) by (intros u Hu; apply Ip in Hu; eapply on_skin_q; eauto). cbn [bind].
  destruct (filter (skin_q cs tags) pc) as [|s0 sr] eqn:Es.
  { exfalso. assert (Q : In (1, e1) (filter (skin_q cs tags) pc)) by (apply filter_In; split; [apply Ip; apply D1|apply D1]). rewrite Es in Q. destruct Q. }
  cbn [first bind].
  assert (Q : In s0 (filter (skin_q cs tags) pc)) by (rewrite Es; left; auto). apply filter_In in Q as [Q1 Q2]. apply Ip in Q1.
  assert (D2 : dart cs tags g (s0, (0, v))) by (split; auto). apply Dt in D2 as (e0 & j & E & S0 & T0). injection E as -> <-.
  destruct (loop_mesh cs tags SK g ND Nodes Hedges e0 v S0 T0) as (p & Lp & _ & Rp). exists p. split; auto.
Qed.
Lemma next_true fuel cs tags seed : forall c v g b, next_d_m_1 fuel cs tags seed c v g = Ok b -> b = true.
Proof.
  induction fuel as [|f IH]; intros c v g b E; [discriminate|]. cbn [next_d_m_1] in E. apply bind_Ok in E as (pc & _ & E). apply bind_Ok in E as (n & _ & E).
  destruct (negb _); [discriminate|]. destruct (filter _ n) as [|x [|y r]]; try discriminate. apply bind_Ok in E as (sc & _ & E). destruct (filter _ sc) as [|z [|y r]]; try discriminate.
  destruct (eqb seed z); [congruence|]. eapply IH; eauto.
Qed.
Lemma circulate_true gfuel fuel cs tags b : circulate_internal_bc gfuel fuel cs tags = Ok b -> b = true.
Proof.
  intros E. unfold circulate_internal_bc in E. repeat (apply bind_Ok in E as (? & _ & E)). eapply next_true; eauto.
Qed.
