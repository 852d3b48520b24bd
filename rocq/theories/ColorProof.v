(** * Lemmas about colouring: C58 *)
From Coq Require Import List Arith ZArith Bool Lia Sorted.
From Verif Require Import Base BaseProof MeshModel GraphModel CutModel CutProof ColorModel.
Import ListNotations.

Lemma position_nth x l : In x l -> nth_error l (position x l) = Some x.
Proof.
  induction l as [|y l IH]; intros H; [destruct H|]. simpl. destruct (Nat.eqb_spec x y) as [->|N]; auto. simpl. apply IH. destruct H; congruence.
Qed.
Lemma position_mono l : StronglySorted lt l -> forall x y, In x l -> In y l -> x < y -> position x l < position y l.
Proof.
  induction 1 as [|z l S IH F]; intros x y Hx Hy L; [destruct Hx|]. rewrite Forall_forall in F. simpl.
  destruct (Nat.eqb_spec x z) as [->|Nx]; destruct (Nat.eqb_spec y z) as [->|Ny]; try lia.
  - destruct Hx as [->|Hx]; [lia|]. apply F in Hx. lia.
  - destruct Hx as [->|Hx]; [congruence|]. destruct Hy as [->|Hy]; [congruence|]. specialize (IH x y Hx Hy L). lia.
Qed.
Lemma position_inj x y l : In x l -> In y l -> position x l = position y l -> x = y.
Proof. intros Hx Hy E. apply position_nth in Hx, Hy. rewrite E in Hx. congruence. Qed.

(** the collected lists *)
Lemma collect_spec : forall (e2c : list (nat * nat)) d, NoDup (map fst e2c) ->
  (forall c l, dget d c = Some l -> NoDup l /\ l <> [] /\ forall k, In k l -> ~ In k (map fst e2c)) ->
  let d' := fold_left collect e2c d in
  forall c, match dget d' c with
            | Some l => NoDup l /\ l <> [] /\ forall k, In k l <-> (exists l0, dget d c = Some l0 /\ In k l0) \/ In (k, c) e2c
            | None => dget d c = None /\ forall k, ~ In (k, c) e2c end.
Proof.
  induction e2c as [|[k0 c0] e2c IH]; intros d N H d' c.
  - unfold d'. simpl. destruct (dget d c) as [l|] eqn:E; [|auto]. destruct (H c l E) as (A & B & _). split; auto. split; auto. intros k. split; [left; eauto|intros [(l0 & Q & I)|[]]; congruence].
  - cbn [map fst] in N. apply NoDup_cons_iff in N as [N0 N]. unfold d'. cbn [fold_left].
    assert (G : exists l0, collect d (k0, c0) = dset d c0 (l0 ++ [k0]) /\ match dget d c0 with Some l => l0 = l | None => l0 = [] end).
    { unfold collect. cbn [fst snd]. destruct (dget d c0) as [l|] eqn:E; [exists l|exists []]; auto. }
    destruct G as (l0 & E0 & L0). rewrite E0.
    assert (ND : NoDup (l0 ++ [k0])).
    { destruct (dget d c0) as [l|] eqn:E; subst l0; [|repeat constructor; intros []]. destruct (H c0 l E) as (A & _ & B). apply NoDup_app_single; auto. intros Q. apply (B k0 Q). left. reflexivity. }
    specialize (IH (dset d c0 (l0 ++ [k0])) N). cbv zeta in IH. specialize (IH ltac:(
      intros c1 l1 E1; rewrite dget_dset in E1; destruct (eq_dec c1 c0) as [->|Nc];
      [injection E1 as <-; split; [exact ND|]; split; [destruct l0; discriminate|]; intros k Hk; apply in_app_or in Hk as [Hk|[<-|[]]]; [|exact N0];
        destruct (dget d c0) as [l|] eqn:E; subst l0; [|destruct Hk]; destruct (H c0 l E) as (_ & _ & B); intros Q; apply (B k Hk); right; exact Q
      |destruct (H c1 l1 E1) as (A & B & C); split; [exact A|]; split; [exact B|]; intros k Hk Q; apply (C k Hk); right; exact Q]) c).
    destruct (dget (fold_left collect e2c (dset d c0 (l0 ++ [k0]))) c) as [l|]; rewrite dget_dset in IH; destruct (eq_dec c c0) as [->|Nc].
    + destruct IH as (A & B & C). split; auto. split; auto. intros k. rewrite C. split.
      * intros [(l1 & Q & I)|I]; [|right; right; auto]. injection Q as <-. apply in_app_or in I as [I|[<-|[]]]; [|right; left; reflexivity].
        left. destruct (dget d c0) as [l1|]; subst l0; [eauto|destruct I].
      * intros [(l1 & Q & I)|[I|I]]; [left| |right; auto].
        -- exists (l0 ++ [k0]). split; auto. rewrite Q in L0. subst l0. apply in_or_app. auto.
        -- injection I as <-. left. exists (l0 ++ [k0]). split; auto. apply in_or_app. right. left. auto.
    + destruct IH as (A & B & C). split; auto. split; auto. intros k. rewrite C. split; [intros [I|I]; [left; auto|right; right; auto]|]. intros [I|[I|I]]; [left; auto|congruence|right; auto].
    + destruct IH as [Q _]. discriminate.
    + destruct IH as [Q1 Q2]. split; auto. intros k [I|I]; [congruence|apply (Q2 k I)].
Qed.

(** entries kept for the entities [c0] *)
Definition kept (c0 : list nat) (col : list (nat * nat)) (k x : nat) : Prop := In k c0 /\ In (k, x) col.

Lemma maps_lemma c0 (col : list (nat * nat)) : NoDup (map fst col) -> (exists k x, kept c0 col k x) ->
  exists e2c c2e, color_maps c0 (map (fun it => (Int (fst it), snd it)) col) = Ok (e2c, c2e) /\
    (forall k, (exists c, dget e2c k = Some c) <-> exists x, kept c0 col k x) /\
    (forall k x c k' x' c', kept c0 col k x -> dget e2c k = Some c -> kept c0 col k' x' -> dget e2c k' = Some c' -> (x < x' <-> c < c')) /\
    (forall c, dget c2e c = None <-> ~ exists k, dget e2c k = Some c) /\
    (forall c l, dget c2e c = Some l -> NoDup l /\ forall k, In k l <-> dget e2c k = Some c) /\
    (exists m, forall c, (exists k, dget e2c k = Some c) <-> c < m).
Proof.
  intros N (k1 & x1 & K1). unfold color_maps.
  set (rows := filter (fun r => memb (fst r) c0) col).
  assert (F : filter (fun it : key * nat => key_in (fst it) c0) (map (fun it => (Int (fst it), snd it)) col) = map (fun it => (Int (fst it), snd it)) rows).
  { unfold rows. clear. induction col as [|[k x] col IH]; auto. cbn [map filter fst key_in]. destruct (memb k c0); cbn [map]; rewrite IH; auto. }
  rewrite F. clear F.
  assert (Kr : forall k x, In (k, x) rows <-> kept c0 col k x).
  { intros k x. unfold rows, kept. rewrite filter_In. cbn [fst]. rewrite memb_In. tauto. }
  assert (Nr : NoDup (map fst rows)).
  { unfold rows. clear -N. induction col as [|[k x] col IH]; [constructor|]. cbn [map fst] in N. apply NoDup_cons_iff in N as [N0 N]. cbn [filter fst]. destruct (memb k c0); auto. cbn [map fst]. constructor; auto.
    intros Q. apply N0. apply in_map_iff in Q as (y & E & Q). apply filter_In in Q as [Q _]. apply in_map_iff. eauto. }
  assert (NE : (length (map (fun it : nat * nat => (Int (fst it), snd it)) rows) =? 0) = false).
  { apply Nat.eqb_neq. rewrite map_length. intros Q. apply length_zero_iff_nil in Q. assert (I := proj2 (Kr k1 x1) K1). rewrite Q in I. destruct I. }
  rewrite NE.
  assert (M : mapM row (map (fun it => (Int (fst it), snd it)) rows) = Ok rows).
  { clear. induction rows as [|[k x] rows IH]; auto. cbn [map mapM row fst snd bind]. rewrite IH. reflexivity. }
  rewrite M.
  cbn [bind]. set (base := np_unique (map snd rows)). destruct (np_unique_spec (map snd rows)) as [SB IB]. fold base in SB, IB.
  set (pairs := map (fun r => (fst r, position (snd r) base)) rows).
  assert (Np : NoDup (dkeys pairs)). { unfold dkeys, pairs. rewrite map_map. exact Nr. }
  rewrite (dict_of_id pairs Np). exists pairs, (fold_left collect pairs []). split; [reflexivity|].
  assert (B : forall k c, dget pairs k = Some c <-> exists x, kept c0 col k x /\ c = position x base).
  { intros k c. split.
    - intros E. apply dget_Some_In in E. unfold pairs in E. apply in_map_iff in E as ([k' x] & E & I). injection E as <- <-. exists x. split; auto. apply Kr. auto.
    - intros (x & K & ->). apply dget_NoDup; auto. unfold pairs. apply in_map_iff. exists (k, x). split; auto. apply Kr. auto. }
  assert (In_base : forall k x, kept c0 col k x -> In x base). { intros k x K. apply IB. apply in_map_iff. exists (k, x). split; auto. apply Kr. auto. }
  assert (Fun : forall k x x', kept c0 col k x -> kept c0 col k x' -> x = x').
  { intros k x x' [_ A] [_ A']. assert (Q := proj2 (dget_NoDup col k x N) A). assert (Q2 := proj2 (dget_NoDup col k x' N) A'). congruence. }
  split; [|split; [|split; [|split]]].
  - intros k. split; [intros (c & E); apply B in E as (x & K & _); eauto|intros (x & K); exists (position x base); apply B; eauto].
  - intros k x c k' x' c' K E K' E'. apply B in E as (y & Ky & ->). apply B in E' as (y' & Ky' & ->). rewrite (Fun k y x Ky K), (Fun k' y' x' Ky' K').
    apply In_base in K, K'. split; [apply position_mono; auto|]. intros L. destruct (lt_eq_lt_dec x x') as [[Q|Q]|Q]; auto; [subst; lia|]. apply (position_mono base SB) in Q; auto. lia.
  - intros c. assert (C := collect_spec pairs [] Np ltac:(intros ? ? Q; discriminate Q) c). cbv zeta in C. destruct (dget (fold_left collect pairs []) c) as [l|].
    + destruct C as (_ & NE2 & C). split; [discriminate|]. intros Q. exfalso. destruct l as [|k l]; [congruence|]. apply Q. exists k. apply dget_NoDup; auto.
      destruct (proj1 (C k) (or_introl eq_refl)) as [(l0 & Z & _)|I]; [discriminate|auto].
    + destruct C as [_ C]. split; auto. intros _ (k & E). apply dget_Some_In in E. apply (C k E).
  - intros c l E. assert (C := collect_spec pairs [] Np ltac:(intros ? ? Q; discriminate Q) c). cbv zeta in C. rewrite E in C. destruct C as (A & _ & C). split; auto.
    intros k. rewrite C. split; [intros [(l0 & Z & _)|I]; [discriminate|apply dget_NoDup; auto]|]. intros Q. right. apply dget_Some_In. auto.
  - exists (length base). intros c. split.
    + intros (k & E). apply B in E as (x & K & ->). apply nth_error_Some. rewrite position_nth; [discriminate|]. eapply In_base; eauto.
    + intros L. destruct (nth_error base c) as [x|] eqn:Ex; [|apply nth_error_None in Ex; lia]. assert (Ix := nth_error_In _ _ Ex). apply IB in Ix as Iy. apply in_map_iff in Iy as ([k y] & E & I). cbn [snd] in E. subst y.
      exists k. apply B. exists x. split; [apply Kr; auto|].
      assert (ND : NoDup base). { clear -SB. induction SB as [|z l S IH F]; constructor; auto. intros Q. rewrite Forall_forall in F. apply F in Q. lia. }
      rewrite NoDup_nth_error in ND. apply ND; auto. rewrite position_nth; auto.
Qed.

Lemma no_pair c0 (r : list (vid * nat)) : filter (fun it : key * nat => key_in (fst it) c0) (map (fun it => (Pair (fst it), snd it)) r) = [].
Proof. induction r as [|it r IH]; auto. Qed.
Lemma never_lemma ec fuel n cs mesh_dim dim co : (forall t, build_data fuel cs mesh_dim dim = Ok t -> exists g r, entity_map_by_codimension t co = Ok g /\ ec (reverse g) n = Ok r) ->
  (exists t, build_data fuel cs mesh_dim dim = Ok t) -> coloring_mesh ec fuel n cs mesh_dim dim co = Err ValueError.
Proof.
  intros H (t & Et). destruct (H t Et) as (g & r & Eg & Er). unfold coloring_mesh. rewrite Et. cbn [bind]. rewrite Eg. cbn [bind]. rewrite Er. cbn [bind].
  assert (Al : exists l, all_cells cs = Ok l).
  { unfold build_data in Et. destruct (mesh_dim <? dim); [discriminate|]. apply bind_Ok in Et as (maps & Em & _). destruct dim; cbn [Nat.add seq mapM] in Em; apply bind_Ok in Em as (m0 & E0 & _);
      unfold build_graph in E0; apply bind_Ok in E0 as (l & El & _); eauto. }
  destruct Al as (l & El). rewrite El. cbn [bind]. unfold color_maps.
  rewrite no_pair. reflexivity.
Qed.
Lemma never_returns ec fuel n cs mesh_dim dim co r : coloring_mesh ec fuel n cs mesh_dim dim co <> Ok r.
Proof.
  unfold coloring_mesh. intros E. apply bind_Ok in E as (t & _ & E). apply bind_Ok in E as (g & _ & E). apply bind_Ok in E as (rc & _ & E). apply bind_Ok in E as (l & _ & E).
  unfold color_maps in E. rewrite no_pair in E. discriminate.
Qed.
From Verif Require Import MeshSpec GraphProof2.
Lemma closed_raises ec fuel n cs mesh_dim dim co : closed_mesh cs -> dim <= mesh_dim -> co <= dim -> (forall g, exists r, ec g n = Ok r) ->
  coloring_mesh ec (S fuel) n cs mesh_dim dim co = Err ValueError.
Proof.
  intros CL Hd Hc He. apply never_lemma; [|apply build_data_success; auto]. intros t Et.
  assert (L : t_dim t = dim /\ length (t_maps t) = dim + 1).
  { unfold build_data in Et. destruct (mesh_dim <? dim); [discriminate|]. apply bind_Ok in Et as (maps & Em & Et). apply bind_Ok in Et as (ids & _ & Et). injection Et as <-. cbn [t_dim t_maps].
    apply mapM_length in Em. rewrite seq_length in Em. auto. }
  destruct L as [L1 L2]. unfold entity_map_by_codimension. rewrite L1. destruct (Z.ltb_spec (Z.of_nat dim - Z.of_nat co) 0) as [Q|Q]; [lia|].
  unfold get_at. destruct (nth_error (t_maps t) (Z.to_nat (Z.of_nat dim - Z.of_nat co))) as [g|] eqn:Eg; [|apply nth_error_None in Eg; lia].
  exists g. destruct (He (reverse g)) as (r & Er). exists r. auto.
Qed.
