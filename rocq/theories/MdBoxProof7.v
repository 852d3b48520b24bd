(** * Lemmas about boxes with fractures: fractures that cross the last side, C101 *)
From Coq Require Import List Arith ZArith Bool Reals Lra Lia Permutation Sorted.
From Verif Require Import Base BaseProof VecBase VecProof GeoModel GeoSpec GeoProof GeoProof2 PolyModel PolySpec PolyProof3 LineModel LineSpec LineProof LineProof2 LineProof3 ShapeModel ShapeSpec ShapeProof DomProof BoxProof VertexModel VertexSpec DiffProof DomainModel DomainSpec DomainProof DomainProof2 DomainProof3 MdBoxModel MdBoxSpec MdBoxProof MdBoxProof2 MdBoxProof3 MdBoxProof4 MdBoxProof5 MdBoxProof6.
Import ListNotations.
Local Open Scope nat_scope.

Lemma walk_share w (l : list (shape vec * shape vec)) : walk w l -> forall k e1 e2, nth_error (map fst l) k = Some e1 -> nth_error (map fst l) (S k) = Some e2 -> exists v, In v (s_boundary e1) /\ In v (s_boundary e2).
Proof.
  revert w. induction l as [|[e v] l IH]; intros w W k e1 e2 H1 H2; [destruct k; discriminate|]. cbn [walk] in W. destruct W as (_ & _ & _ & Bd & W). destruct k as [|k]; [|exact (IH v W k e1 e2 H1 H2)].
  injection H1 as <-. destruct l as [|[e' v'] l]; [discriminate|]. injection H2 as <-. destruct W as (_ & _ & _ & Bd' & _). exists v. split; [destruct Bd as [-> | ->]|destruct Bd' as [-> | ->]]; simpl; auto.
Qed.
(** the value which is 0 on a line and positive to its left *)
Lemma side_between nrm a b x y t : side nrm a b (between x y t) = ((1 - t) * side nrm a b x + t * side nrm a b y)%R.
Proof. unfold side, between, dot, cross, vadd, vsub, vscale. cbn [vx vy vz]. ring. Qed.
Lemma side_ends nrm a b : side nrm a b a = 0%R /\ side nrm a b b = 0%R.
Proof. unfold side, dot, cross, vsub. cbn [vx vy vz]. split; ring. Qed.

Section Last.
  Variable lstsq : vec -> vec -> vec -> R * R.
  Variable argsort_R : list R -> list nat.
  Variable argsort : list Z -> list nat.
  Variable delaunay : list (R * R) -> res (list (nat * nat * nat)).
  Variable hash : nat -> Z -> Z.
  Variables tol scale : R.
  Hypothesis Hsort : is_argsort argsort.
  Hypothesis HsortR : is_argsort_R argsort_R.
  Hypothesis Ls : solves lstsq.
  Hypothesis T0 : (0 <= tol <= 1 / 100000000)%R.
  Hypothesis S0 : (0 < scale)%R.
  Variable fuel : nat.
  Hypothesis Hfuel : 4 <= fuel.
  Variables (nrm : vec) (box : list vec) (lines : list segment) (bc : nat -> option Z).
  Variables area line internal point : Z.
  Hypothesis Hbox : convex_polygon nrm box.
  Hypothesis Hq : convex_q box = Ok true.
  Hypothesis CN : clear_network box lines tol scale.
  Notation n := (length box).
  Hypothesis Hbc : forall i j, i < n -> j < n -> bc i = bc j -> i = j.
  Hypothesis Hline : forall i, i < n -> bc i <> Some line.
  Notation create := (create_md_box_2D lstsq argsort_R argsort delaunay hash tol scale fuel box (Some area) bc (Some lines) (Some line, Some internal, Some point)).
  Notation edges T := (network_edges box lines bc (Some line) (Some internal) T).
  Notation tag T := (next_tag box lines T).
  Notation c0 := (nth 0 box vzero).
  Notation cl := (nth (n - 1) box vzero).

  Lemma apart_side x : 3 <= n -> on_segment (nth (n - 2) box vzero) cl x -> on_segment c0 cl x -> x = cl.
  Proof.
    intros big (s & _ & Qs) (t & Ht & Qt). destruct Hbox as (_ & _ & Cv).
    assert (P0 : (0 < side nrm (nth (n - 2) box vzero) cl c0)%R).
    { specialize (Cv (n - 2) 0). unfold corner in Cv. replace (n - 2 + 1) with (n - 1) in Cv by lia. rewrite !Nat.mod_small in Cv by lia. apply Cv; lia. }
    destruct (side_ends nrm (nth (n - 2) box vzero) cl) as [Z1 Z2]. set (f := side nrm (nth (n - 2) box vzero) cl) in *.
    assert (F1 : f x = 0%R) by (rewrite Qs; unfold f; rewrite side_between; fold f; rewrite Z1, Z2; ring). assert (F2 : f x = ((1 - t) * f c0)%R) by (rewrite Qt; unfold f; rewrite side_between; fold f; rewrite Z2; ring).
    assert (t = 1)%R by nra. subst t. rewrite Qt. unfold between. vring.
  Qed.

  Lemma last_side_lemma z : crossing_point lines (side_lines box) z -> on_segment c0 cl z -> z <> c0 -> z <> cl ->
    exists B C, meeting_vertices box lines bc (Some point) B C /\
    let T := B ++ C in let N := Z.to_nat (tag T) + (n + length lines) * (3 * length T + 1) in
    no_collision hash 0 (tags_from 0 N) -> no_collision hash 1 (tags_from 0 N) ->
    exists D wire o, create = Ok (D, (wire, o)) /\ forall w l, map fst l = immersed wire -> ~ walk w l.
  Proof.
    intros Hz On N0 Nl.
    destruct (sides_lemma lstsq argsort_R argsort delaunay hash tol scale Hsort HsortR Ls T0 S0 fuel Hfuel nrm box lines bc area line internal point Hbox Hq CN Hbc Hline) as (B & C & MV & H).
    exists B, C. split; [exact MV|]. intros T N NC0 NC1. destruct (H NC0 NC1) as (D & wire & o & ess & e0 & v0 & Hc & _ & _ & F1 & QI & _). clear H. fold T in F1.
    exists D, wire, o. split; [exact Hc|]. intros w l Ql W.
    assert (big : 3 <= n) by (destruct Hbox; assumption). assert (big2 : 2 <= n) by lia.
    assert (L1 : length ess = n) by (rewrite <- (Forall2_len _ _ _ F1), map_length, seq_length; reflexivity).
    assert (Side : forall i, i < n -> exists es, nth_error ess i = Some es /\ refines tol tol T (side_edge box bc i) es).
    { intros i Li. apply (Forall2_nth _ _ _ F1 i). rewrite nth_error_map, (nth_error_nth' _ 0) by (rewrite seq_length; lia). rewrite seq_nth by lia. reflexivity. }
    assert (InE : forall i, i < n -> In (side_edge box bc i) (edges T)) by (intros i Li; apply in_or_app; left; apply in_map, in_seq; lia).
    assert (QA : side_edge box bc (n - 2) = mk_edge (Z.of_nat (n - 2)) (bc (n - 2)) [corner_at box (n - 2); corner_at box (n - 1)]).
    { rewrite (early_ends fuel Hfuel box bc) by lia. replace (S (n - 2)) with (n - 1) by lia. reflexivity. }
    assert (QB := proj1 (last_ends fuel Hfuel box bc big)).
    destruct (Side (n - 2) ltac:(lia)) as (es1 & E1 & R1). destruct (Side (n - 1) ltac:(lia)) as (es2 & E2 & R2).
    destruct (piece_facts tol scale box lines bc (Some line) (Some internal) (Some point) T0 CN big2 B C MV (side_edge box bc (n - 2)) es1 (corner_at box (n - 2)) (corner_at box (n - 1))) as [Ne1 G1];
      [apply InE; lia|rewrite QA; reflexivity|exact R1|].
    (* the first edge of the last side *)
    destruct (R2 (corner_at box 0) (corner_at box (n - 1))) as [_ R2']; [rewrite QB; reflexivity|].
    destruct R2' as (start & mid & finish & (Es & Ef & _ & Hm & _) & F).
    { assert (I : In z (map v_point B)) by (apply (proj2 (mv_sides _ _ _ _ _ _ MV)); exact Hz). apply in_map_iff in I as (t & Qt & I). exists t. assert (It : In t T) by (apply in_or_app; left; exact I). split; [exact It|].
      apply (touch_on tol scale box lines T0 CN); [|apply (tool_special box lines bc (Some point) B C MV); exact It|cbn [corner_at v_point]; rewrite Qt; exact On].
      apply in_or_app. left. cbn [corner_at v_point]. rewrite <- (proj2 (last_ends fuel Hfuel box bc big)). unfold side_lines. apply in_map, in_seq. lia. }
    assert (Hmz : exists t, In t mid /\ v_point t = z).
    { assert (I : In z (map v_point B)) by (apply (proj2 (mv_sides _ _ _ _ _ _ MV)); exact Hz). apply in_map_iff in I as (t & Qt & I). exists t. split; [|exact Qt]. assert (It : In t T) by (apply in_or_app; left; exact I).
      assert (St := tool_special box lines bc (Some point) B C MV t It).
      apply Hm. split; [exact It|]. split; [|split].
      - apply (touch_on tol scale box lines T0 CN); [|exact St|cbn [corner_at v_point]; rewrite Qt; exact On].
        apply in_or_app. left. cbn [corner_at v_point]. rewrite <- (proj2 (last_ends fuel Hfuel box bc big)). unfold side_lines. apply in_map, in_seq. lia.
      - intros A. apply (at_eq tol scale box lines T0 CN) in A; [|apply corner_special; lia|exact St]. cbn [corner_at v_point] in A. congruence.
      - intros A. apply (at_eq tol scale box lines T0 CN) in A; [|apply corner_special; lia|exact St]. cbn [corner_at v_point] in A. congruence. }
    destruct mid as [|m mid]; [destruct Hmz as (t & [] & _)|]. destruct es2 as [|x es2]; [inversion F|].
    change (steps (start :: (m :: mid) ++ [finish])) with ((start, m) :: steps (m :: mid ++ [finish])) in F. inversion F as [|? ? ? ? (_ & Px & _) _]; subst. cbn [fst snd] in Px.
    assert (Ps : v_point start = c0) by (rewrite (end_point_eq tol scale box lines bc (Some point) T0 CN B C MV (corner_at box 0) start (corner_special box lines 0 ltac:(lia)) Es); reflexivity).
    assert (Pm : on_segment c0 cl (v_point m) /\ v_point m <> cl).
    { destruct (proj1 (Hm m) (or_introl eq_refl)) as (Im & Th & _ & Nb). assert (St := tool_special box lines bc (Some point) B C MV m Im). split.
      - apply (touch_on tol scale box lines T0 CN) in Th; [exact Th| |exact St]. apply in_or_app. left. cbn [corner_at v_point]. rewrite <- (proj2 (last_ends fuel Hfuel box bc big)). unfold side_lines. apply in_map, in_seq. lia.
      - intros Q. apply Nb. apply (at_eq tol scale box lines T0 CN); [apply corner_special; lia|exact St|]. cbn [corner_at v_point]. congruence. }
    assert (N0l : c0 <> cl) by (intros Q; apply (NoDup_nth box vzero) in Q; [lia|exact (cn_box _ _ _ _ CN)|lia|lia]).
    (* the last edge of the side before it *)
    destruct (exists_last Ne1) as (es1' & y & ->). destruct (G1 y) as (_ & u & v & Py & Ou & Ov); [apply in_or_app; right; left; reflexivity|]. cbn [corner_at v_point] in Ou, Ov.
    assert (Qc : exists pre post, concat ess = pre ++ y :: x :: post).
    { assert (Qn : ess = firstn (n - 2) ess ++ [es1' ++ [y]; x :: es2]).
      { rewrite <- (firstn_skipn (n - 2) ess) at 1. f_equal. assert (Ls' : length (skipn (n - 2) ess) = 2) by (rewrite skipn_length; lia).
        assert (K : forall i, nth_error (skipn (n - 2) ess) i = nth_error ess (n - 2 + i)).
        { intros i. rewrite <- (firstn_skipn (n - 2) ess) at 2. rewrite nth_error_app2 by (rewrite firstn_length; lia). f_equal. rewrite firstn_length. lia. }
        destruct (skipn (n - 2) ess) as [|p [|q [|r rest]]]; try discriminate. assert (K0 := K 0). assert (K1 := K 1). cbn [nth_error] in K0, K1. rewrite Nat.add_0_r, E1 in K0. replace (n - 2 + 1) with (n - 1) in K1 by lia. rewrite E2 in K1. congruence. }
      exists (concat (firstn (n - 2) ess) ++ es1'), es2. rewrite Qn at 1. rewrite concat_app. cbn [concat]. rewrite app_nil_r, <- !app_assoc. reflexivity. }
    destruct Qc as (pre & post & Qc). destruct (walk_share w l W (length pre) (se y) (se x)) as (vv & I1 & I2).
    { rewrite Ql, QI, Qc, map_app, nth_error_app2, map_length, Nat.sub_diag by (rewrite map_length; lia). reflexivity. }
    { rewrite Ql, QI, Qc, map_app, nth_error_app2, map_length by (rewrite map_length; lia). replace (S (length pre) - length pre) with 1 by lia. reflexivity. }
    cbn [se s_boundary] in I1, I2. apply in_map_iff in I1 as (v1 & Q1 & I1). apply in_map_iff in I2 as (v2 & Q2 & I2).
    assert (Qp : v_point v1 = v_point v2) by (rewrite <- Q2 in Q1; injection Q1; auto).
    apply (Permutation_in _ Py) in I1. apply (Permutation_in _ Px) in I2.
    assert (O1 : on_segment (nth (n - 2) box vzero) cl (v_point v1)) by (destruct I1 as [<-|[<-|[]]]; assumption).
    assert (O2 : on_segment c0 cl (v_point v1) /\ v_point v1 <> cl).
    { rewrite Qp. destruct I2 as [<-|[<-|[]]]; [|exact Pm]. rewrite Ps. split; [apply segment_ends|exact N0l]. }
    apply (proj2 O2). exact (apart_side _ big O1 (proj1 O2)).
  Qed.
End Last.
