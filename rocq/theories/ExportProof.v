(** * Export of solutions: values, loops, tables *)
From Coq Require Import String List Arith Bool ZArith Lia Ring Field.
From Verif Require Import Base BaseProof MeshModel MeshSpec GraphModel GraphProof CutModel FormModel FormSpec FormProof FormProof2 DualModel
  PostModel PostSpec PostProof ExportModel ExportSpec.
Import ListNotations.
Open Scope list_scope.
Open Scope nat_scope.

(** *** Lists *)
Lemma foldM_upd : forall {A S} (I : S -> Prop) (body : S -> A -> res S) upd l s,
  (forall s x, In x l -> I s -> body s x = Ok (upd s x) /\ I (upd s x)) -> I s -> foldM body l s = Ok (fold_left upd l s).
Proof.
  intros A S I body upd l. induction l as [|x l IH]; intros s H Hs; [reflexivity|]. simpl.
  destruct (H s x (or_introl eq_refl) Hs) as (E & Hu). rewrite E. simpl. apply IH; [|exact Hu]. intros s' y Hy. apply H. right. exact Hy.
Qed.
Lemma foldM_fails : forall {A S} (body : S -> A -> res S) l x s, In x l -> (forall s r, body s x <> Ok r) -> forall r, foldM body l s <> Ok r.
Proof.
  intros A S body l x s Hx H. revert s. induction l as [|y l IH]; intros s r; [destruct Hx|]. simpl. destruct (body s y) as [s'|e] eqn:E; [|discriminate].
  simpl. destruct Hx as [->|Hx]; [exfalso; exact (H _ _ E)|]. apply IH. exact Hx.
Qed.
Lemma foldM_fails_at : forall {A S} (I : S -> Prop) (body : S -> A -> res S) l x s, In x l -> I s ->
  (forall s y s', In y l -> I s -> body s y = Ok s' -> I s') -> (forall s r, I s -> body s x <> Ok r) -> forall r, foldM body l s <> Ok r.
Proof.
  intros A S I body l. induction l as [|y l IH]; intros x s Hx Hs HI H r; [destruct Hx|]. simpl. destruct (body s y) as [s'|e] eqn:E; [|discriminate].
  simpl. destruct Hx as [->|Hx]; [exfalso; exact (H _ _ Hs E)|].
  apply (IH x); [exact Hx|exact (HI _ _ _ (or_introl eq_refl) Hs E)|intros s0 z s1 Hz; apply HI; right; exact Hz|exact H].
Qed.
Lemma fold_pair : forall {A B C} (f : A -> C -> A) (g : B -> C -> B) l a b,
  fold_left (fun s x => (f (fst s) x, g (snd s) x)) l (a, b) = (fold_left f l a, fold_left g l b).
Proof. intros A B C f g l. induction l as [|x l IH]; intros a b; [reflexivity|]. simpl. apply IH. Qed.
Lemma set_at_length : forall {A} (l : list A) i v, length (set_at l i v) = length l.
Proof. intros A l. induction l as [|x l IH]; intros i v; [reflexivity|]. destruct i; simpl; [reflexivity|]. rewrite IH. reflexivity. Qed.
Lemma fold_set_length : forall {A B} (nd : B -> nat) (rw : B -> A) l z,
  length (fold_left (fun s v => set_at s (nd v) (rw v)) l z) = length z.
Proof. intros A B nd rw l. induction l as [|x l IH]; intros z; [reflexivity|]. simpl. rewrite IH. apply set_at_length. Qed.
Lemma fold_set_other : forall {A B} (nd : B -> nat) (rw : B -> A) l z n, ~ In n (map nd l) ->
  nth_error (fold_left (fun s v => set_at s (nd v) (rw v)) l z) n = nth_error z n.
Proof.
  intros A B nd rw l. induction l as [|x l IH]; intros z n H; [reflexivity|]. simpl. rewrite IH by (intros K; apply H; right; exact K).
  apply nth_error_set_at_other. intros E. apply H. left. congruence.
Qed.
Lemma fold_set_same : forall {A B} (nd : B -> nat) (rw : B -> A) l z v, NoDup (map nd l) -> In v l -> nd v < length z ->
  nth_error (fold_left (fun s v => set_at s (nd v) (rw v)) l z) (nd v) = Some (rw v).
Proof.
  intros A B nd rw l. induction l as [|x l IH]; intros z v ND H L; [destruct H|]. inversion ND as [|? ? N1 N2]; subst. simpl. destruct H as [->|H].
  - rewrite fold_set_other by exact N1. apply nth_error_set_at_same. exact L.
  - apply IH; [exact N2|exact H|]. rewrite set_at_length. exact L.
Qed.
Lemma NoDup_map : forall {A B} (f : A -> B) l, NoDup l -> (forall x y, In x l -> In y l -> f x = f y -> x = y) -> NoDup (map f l).
Proof.
  intros A B f l ND. induction ND as [|x l N1 N2 IH]; intros H; [constructor|]. simpl. constructor.
  - intros K. apply in_map_iff in K as (y & E & Hy). apply N1. rewrite (H x y); [exact Hy|left; reflexivity|right; exact Hy|congruence].
  - apply IH. intros a b Ha Hb. apply H; right; assumption.
Qed.
Lemma nth_error_repeat : forall {A} (x : A) k n, n < k -> nth_error (repeat x k) n = Some x.
Proof. intros A x k. induction k as [|k IH]; intros n H; [lia|]. destruct n; [reflexivity|]. simpl. apply IH. lia. Qed.
Lemma map_as_fold : forall {A B} (f : A -> B) l b,
  fold_left (fun s ic => set_at s (fst ic) (f (snd ic))) (combine (seq 0 (length l)) l) (repeat b (length l)) = map f l.
Proof.
  intros A B f l b.
  assert (X : forall l p, fold_left (fun s ic => set_at s (fst ic) (f (snd ic))) (combine (seq (length p) (length l)) l) (p ++ repeat b (length l)) = p ++ map f l).
  { clear l. induction l as [|x l IH]; intros p; [reflexivity|]. cbn [combine seq length fold_left fst snd repeat map].
    replace (set_at (p ++ b :: repeat b (length l)) (length p) (f x)) with ((p ++ [f x]) ++ repeat b (length l)).
    - specialize (IH (p ++ [f x])). rewrite app_length, Nat.add_1_r in IH. rewrite IH, <- app_assoc. reflexivity.
    - rewrite <- app_assoc. simpl. clear. induction p as [|y p IH]; [reflexivity|]. simpl. rewrite IH. reflexivity. }
  exact (X l []).
Qed.
Lemma positions_place : forall n nodes, NoDup nodes -> In n nodes -> positions n nodes = [place n nodes].
Proof.
  intros n nodes ND I. unfold positions.
  assert (X : forall nodes s, NoDup nodes -> map fst (filter (fun iv => Nat.eqb (snd iv) n) (combine (seq s (length nodes)) nodes)) =
    if in_dec Nat.eq_dec n nodes then [s + place n nodes] else []).
  { clear. induction nodes as [|x l IH]; intros s ND; [reflexivity|]. inversion ND as [|? ? N1 N2]; subst. cbn [length seq combine filter snd place].
    specialize (IH (S s) N2). destruct (Nat.eqb_spec x n) as [->|N].
    - cbn [map fst]. rewrite IH. destruct (in_dec Nat.eq_dec n l) as [K|_]; [destruct (N1 K)|].
      destruct (in_dec Nat.eq_dec n (n :: l)) as [_|K]; [rewrite Nat.add_0_r; reflexivity|exfalso; apply K; left; reflexivity].
    - rewrite IH. destruct (in_dec Nat.eq_dec n l) as [K|K]; destruct (in_dec Nat.eq_dec n (x :: l)) as [K'|K'].
      + f_equal. lia.
      + exfalso. apply K'. right. exact K.
      + exfalso. destruct K' as [K'|K']; [congruence|exact (K K')].
      + reflexivity. }
  rewrite X by exact ND. destruct (in_dec Nat.eq_dec n nodes); [reflexivity|contradiction].
Qed.

(** *** The vertices of a field *)
Section Vertices.
  Context {F : scalar} {P : Type}.
  Variables (m : mesh P) (fld : vtk_field F) (tags : list (option Z)).
  Hypothesis GP : good_points m.
  Hypothesis HT : exists fuel mesh_dim, build_data_on_physical_tags (S fuel) (m_cells P m) mesh_dim (vf_dim fld) tags = Ok (vf_topology fld).

  Definition vx_node (v : nat) : nat := match nth_error (m_cells P m) v with Some (Some cv) => nth 0 (c_nodes cv) 0 | _ => 0 end.
  Definition vx_preds (v : nat) : list vid :=
    match entity_map_by_dimension (vf_topology fld) 0 with
    | Ok g => match predecessors g (0, v) with Ok l => l | Err _ => [] end
    | Err _ => []
    end.
  Definition vx_adj (v : nat) : list cell :=
    match mapM (fun u : vid => cell_of (m_cells P m) (snd u)) (vx_preds v) with Ok l => l | Err _ => [] end.

  Record vx_ok (v : nat) : Prop := {
    vo_cell : exists cv, cell_at (m_cells P m) v cv /\ c_dim cv = 0 /\ c_nodes cv = [vx_node v];
    vo_lt : vx_node v < length (m_points P m);
    vo_adj : mapM (fun u : vid => cell_of (m_cells P m) (snd u)) (vx_preds v) = Ok (vx_adj v);
    vo_some : vx_adj v <> [];
    vo_around : around (m_cells P m) fld tags (vx_node v) (vx_adj v) }.

  Lemma vertices_ok : exists vs, NoDup (map vx_node vs) /\ (forall v, In v vs -> vx_ok v) /\
    (forall n c, carries (m_cells P m) fld tags c -> In n (c_nodes c) -> In n (map vx_node vs)) /\
    forall S (body : S -> nat -> list vid -> res S) s,
      over_vertices m fld body s = foldM (fun s v => body s (vx_node v) (vx_preds v)) vs s.
  Proof.
    destruct GP as (CL & SI & VM1 & VM2). destruct HT as (fuel & md & B).
    destruct (C11_lemma _ _ _ _ _ _ CL SI B) as (L1 & _). destruct (L1 0 (Nat.le_0_l _)) as (vs & E1 & ND & HV).
    assert (DIM0 : forall i c v cv, cell_at (m_cells P m) i c -> In v (nth 0 (c_sub c) []) -> cell_at (m_cells P m) v cv -> c_dim cv = 0).
    { intros i c v cv Hc Hv Hcv. destruct (proj2 CL i c Hc) as (_ & _ & _ & X). destruct (X 0 v (Nat.le_0_l _) Hv) as (c' & X1 & X2).
      unfold cell_at in X1, Hcv. congruence. }
    assert (V : forall v, In v vs -> exists i c cv n, cell_at (m_cells P m) i c /\ c_dim c = vf_dim fld /\ In (c_mat c) tags /\
      In v (nth 0 (c_sub c) []) /\ cell_at (m_cells P m) v cv /\ c_dim cv = 0 /\ c_nodes cv = [n] /\ vx_node v = n /\ n < length (m_points P m)).
    { intros v Hv. apply HV in Hv as (i & c & Hc & Hd & Hm & Hs). destruct (proj2 CL i c Hc) as (_ & _ & _ & X).
      destruct (X 0 v (Nat.le_0_l _) Hs) as (cv & X1 & X2). destruct (VM1 i c Hc) as (_ & Y & _). destruct (Y v cv Hs X1) as (n & Y1 & _ & Y2).
      exists i, c, cv, n. unfold vx_node. rewrite X1, Y1. repeat (split; [assumption|]). split; [reflexivity|]. split; [reflexivity|]. exact Y2. }
    destruct (entity_map_by_dimension (vf_topology fld) 0) as [g|e] eqn:EG.
    2:{ exfalso. unfold build_data_on_physical_tags in B. destruct (md <? vf_dim fld) eqn:?; [discriminate|].
        destruct (mapM _ (seq 0 (vf_dim fld + 1))) as [maps|] eqn:EM; [|discriminate]. simpl in B.
        destruct (entity_ids maps (vf_dim fld)) as [ids|]; [|discriminate]. simpl in B. injection B as B. rewrite <- B in EG.
        unfold entity_map_by_dimension, get_at in EG. simpl in EG. apply mapM_length in EM. rewrite seq_length in EM. destruct maps; simpl in *; [lia|discriminate]. }
    exists vs. split; [|split; [|split]].
    - apply NoDup_map; [exact ND|]. intros v w Hv Hw E. destruct (V v Hv) as (i & c & cv & n & _ & _ & _ & _ & C1 & D1 & N1 & M1 & _).
      destruct (V w Hw) as (i' & c' & cw & n' & _ & _ & _ & _ & C2 & D2 & N2 & M2 & _).
      apply (VM2 v w cv cw C1 C2 D1 D2). congruence.
    - intros v Hv. destruct (V v Hv) as (i & c & cv & n & Hc & Hd & Hm & Hs & C1 & D1 & N1 & M1 & LT).
      destruct (C12_lemma _ _ _ _ _ _ CL SI B v cv C1) as (Q & _); [rewrite D1; apply Nat.le_0_l|].
      destruct Q as (ps & E2 & NDp & HP); [exists i, c; rewrite D1; repeat split; assumption|].
      unfold find_higher_dimension_neighs in E2. rewrite D1, EG in E2. cbn [bind] in E2. unfold index in E2. rewrite D1, (proj1 (proj2 CL v cv C1)) in E2.
      assert (EP : vx_preds v = ps) by (unfold vx_preds; rewrite EG, E2; reflexivity).
      assert (U : forall u, In u ps -> exists c0, cell_at (m_cells P m) (snd u) c0 /\ c_dim c0 = vf_dim fld /\ In (c_mat c0) tags /\ In v (nth 0 (c_sub c0) [])).
      { intros u Hu. apply HP in Hu as (j & (c0 & X1 & X2 & X3 & X4) & ->). rewrite D1 in X4. exists c0. repeat split; assumption. }
      set (cl := fun u : vid => match nth_error (m_cells P m) (snd u) with Some (Some c0) => c0 | _ => c end).
      assert (EM : mapM (fun u : vid => cell_of (m_cells P m) (snd u)) ps = Ok (map cl ps)).
      { apply mapM_ok. intros u Hu. destruct (U u Hu) as (c0 & X1 & _). unfold cell_of, get_at, cl. rewrite X1. reflexivity. }
      assert (EA : vx_adj v = map cl ps) by (unfold vx_adj; rewrite EP, EM; reflexivity).
      assert (CLU : forall u, In u ps -> cell_at (m_cells P m) (snd u) (cl u)).
      { intros u Hu. destruct (U u Hu) as (c0 & X1 & _). unfold cl. rewrite X1. exact X1. }
      assert (IN : In (vf_dim fld, i) ps) by (apply HP; exists i; split; [exists c; rewrite D1; repeat split; assumption|reflexivity]).
      constructor.
      + exists cv. rewrite N1, M1. repeat split; assumption.
      + rewrite M1. exact LT.
      + rewrite EP, EA. exact EM.
      + rewrite EA. destruct ps; [destruct IN|discriminate].
      + rewrite EA, M1. split.
        * apply NoDup_map; [exact NDp|]. intros u w Hu Hw E. pose proof (CLU u Hu) as X1. pose proof (CLU w Hw) as X2.
          apply HP in Hu as (j & _ & ->). apply HP in Hw as (k & _ & ->). simpl in X1, X2.
          rewrite <- (proj1 (proj2 CL _ _ X1)), <- (proj1 (proj2 CL _ _ X2)), E. reflexivity.
        * intros c0. rewrite in_map_iff. split.
          -- intros (u & <- & Hu). destruct (U u Hu) as (c1 & X1 & X2 & X3 & X4). pose proof (CLU u Hu) as X5.
             assert (cl u = c1) by (unfold cell_at in *; congruence). rewrite H. split; [split; [exists (snd u); exact X1|split; assumption]|].
             destruct (VM1 _ _ X1) as (_ & Y & _). destruct (Y v cv X4 C1) as (n' & Y1 & Y2 & _). congruence.
          -- intros (((j & X1) & X2 & X3) & X4). destruct (VM1 _ _ X1) as (_ & _ & Y). destruct (Y n X4) as (w & cw & Y1 & Y2 & Y3).
             assert (w = v) by (apply (VM2 w v cw cv Y2 C1); [exact (DIM0 _ _ _ _ X1 Y1 Y2)|exact D1|congruence]). subst w.
             exists (vf_dim fld, j). split; [unfold cl; simpl; rewrite X1; reflexivity|]. apply HP. exists j. split; [|reflexivity].
             exists c0. rewrite D1. repeat split; assumption.
    - intros n c ((i & X1) & X2 & X3) X4. destruct (VM1 _ _ X1) as (_ & _ & Y). destruct (Y n X4) as (w & cw & Y1 & Y2 & Y3).
      apply in_map_iff. exists w. split; [unfold vx_node; rewrite Y2, Y3; reflexivity|]. apply HV. exists i, c. repeat split; assumption.
    - intros S body s. unfold over_vertices. rewrite E1. cbn [bind]. rewrite EG. cbn [bind].
      assert (Z : forall l s, incl l vs -> foldM (fun s v => if memb (0, v) (g_nodes g)
        then do c <- cell_of (m_cells P m) v; do node <- get_at (c_nodes c) 0; do ps <- predecessors g (0, v); body s node ps else Ok s) l s =
        foldM (fun s v => body s (vx_node v) (vx_preds v)) l s).
      { induction l as [|v l IH]; intros s0 Hl; [reflexivity|]. simpl.
        destruct (V v (Hl v (or_introl eq_refl))) as (i & c & cv & n & Hc & Hd & Hm & Hs & C1 & D1 & N1 & M1 & LT).
        destruct (C12_lemma _ _ _ _ _ _ CL SI B v cv C1) as (Q & _); [rewrite D1; apply Nat.le_0_l|].
        destruct Q as (ps & E2 & _ & _); [exists i, c; rewrite D1; repeat split; assumption|].
        unfold find_higher_dimension_neighs in E2. rewrite D1, EG in E2. cbn [bind] in E2. unfold index in E2. rewrite D1, (proj1 (proj2 CL v cv C1)) in E2.
        assert (EP : vx_preds v = ps) by (unfold vx_preds; rewrite EG, E2; reflexivity).
        assert (MB : memb (0, v) (g_nodes g) = true) by (unfold predecessors in E2; match type of E2 with (if ?b then _ else _) = _ => destruct b eqn:MB; [exact MB|discriminate E2] end).
        rewrite MB. unfold cell_of at 1. unfold get_at at 1. rewrite C1. cbn [bind]. rewrite N1. unfold get_at. cbn [nth_error bind]. rewrite E2. cbn [bind].
        rewrite EP, M1. destruct (body s0 n ps) as [s1|]; [|reflexivity]. simpl. apply IH. intros x Hx. apply Hl. right. exact Hx. }
      apply Z. apply incl_refl.
  Qed.

  (** a table filled along the vertices *)
  Lemma node_rows_fold : forall vs blank (row : nat -> list cell -> list (option F)),
    NoDup (map vx_node vs) -> (forall v, In v vs -> vx_ok v) ->
    (forall n c, carries (m_cells P m) fld tags c -> In n (c_nodes c) -> In n (map vx_node vs)) ->
    node_rows m fld tags blank row
      (fold_left (fun s v => set_at s (vx_node v) (row (vx_node v) (vx_adj v))) vs (repeat blank (length (m_points P m)))).
  Proof.
    intros vs blank row ND OK ALL. split; [rewrite fold_set_length; apply repeat_length|]. intros n Hn.
    destruct (in_dec Nat.eq_dec n (map vx_node vs)) as [I|I].
    - apply in_map_iff in I as (v & <- & Hv). exists (vx_adj v). destruct (OK v Hv). split; [assumption|].
      rewrite (fold_set_same vx_node (fun v => row (vx_node v) (vx_adj v))); [|exact ND|exact Hv|rewrite repeat_length; exact Hn].
      destruct (vx_adj v); [congruence|reflexivity].
    - exists []. split; [split; [constructor|]|].
      + intros c. split; [intros []|]. intros (C & K). destruct (I (ALL n c C K)).
      + rewrite fold_set_other by exact I. apply nth_error_repeat. exact Hn.
  Qed.
End Vertices.
