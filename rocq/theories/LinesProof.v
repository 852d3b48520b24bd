(** * Lemmas: a box with lines, up to the intersection *)
From Coq Require Import List Arith ZArith Bool Reals Lia Permutation Sorted.
From Verif Require Import Base BaseProof AdProof VecBase GeoModel ShapeModel ShapeSpec ShapeProof BoxProof VertexModel VertexSpec EmbedModel EmbedSpec EmbedProof EmbedProof2 IntersectModel IntersectSpec IntersectProof2 IntersectProof3 IntersectProof4 QueryModel QuerySpec QueryProof LinesModel LinesSpec.
Import ListNotations.

Lemma seq_combine {A} (d : A) (l : list A) s : combine (consecutive (Z.of_nat s) (length l)) l = map (fun i => (Z.of_nat (s + i), nth i l d)) (seq 0 (length l)).
Proof.
  unfold consecutive. replace l with (map (fun i => nth i l d) (seq 0 (length l))) at 2.
  - generalize (seq 0 (length l)) as q. induction q as [|i q IH]; cbn; auto. rewrite IH. do 2 f_equal. lia.
  - apply nth_ext with (d := d) (d' := d); [rewrite map_length, seq_length; auto|]. intros i Hi. rewrite map_length, seq_length in Hi. rewrite (nth_indep _ d (nth 0 l d)) by (rewrite map_length, seq_length; auto). rewrite (map_nth (fun i => nth i l d)). rewrite seq_nth; auto.
Qed.
Lemma combine_app' {A B} (l1 : list A) (l1' : list B) l2 l2' : length l1 = length l1' -> combine (l1 ++ l2) (l1' ++ l2') = combine l1 l1' ++ combine l2 l2'.
Proof. revert l1'. induction l1 as [|x l1 IH]; intros [|y l1'] E; try discriminate; auto. cbn. f_equal. auto. Qed.
Lemma length_given box lines : length (given box lines) = length box + 2 * length lines.
Proof.
  unfold given, consecutive. rewrite combine_length, map_length, seq_length, Nat.min_id, app_length. f_equal. induction lines; cbn; auto. rewrite IHlines. lia.
Qed.
Lemma given_snoc box lines l : given box (lines ++ [l]) = given box lines ++ [(Z.of_nat (length box + 2 * length lines), fst l); (Z.of_nat (length box + 2 * length lines) + 1, snd l)%Z].
Proof.
  pose proof (length_given box lines) as L. unfold given in *. unfold consecutive in L. rewrite combine_length, map_length, seq_length, Nat.min_id in L.
  rewrite flat_map_app, app_assoc. set (all := box ++ flat_map _ lines) in *. cbn [flat_map app]. rewrite app_length. cbn [length]. rewrite consecutive_app, combine_app' by (unfold consecutive; rewrite map_length, seq_length; auto). f_equal.
  unfold consecutive. cbn. rewrite L. repeat f_equal; lia.
Qed.
Lemma given_map box lines : exists all, length all = length (given box lines) /\ given box lines = map (fun i => (Z.of_nat i, nth i all vzero)) (seq 0 (length all)).
Proof.
  exists (box ++ flat_map (fun l => [fst l; snd l]) lines). unfold given, consecutive. split; [rewrite combine_length, map_length, seq_length; lia|]. exact (seq_combine vzero _ 0).
Qed.
Lemma given_tag box lines x : x < length (given box lines) -> tg (given box lines) x = Z.of_nat x.
Proof.
  destruct (given_map box lines) as (all & L & E). intros H. unfold tg. rewrite <- L in H. rewrite E.
  rewrite (nth_indep _ _ ((fun i => (Z.of_nat i, nth i all vzero)) 0)) by (rewrite map_length, seq_length; auto).
  rewrite (map_nth (fun i => (Z.of_nat i, nth i all vzero))). rewrite seq_nth by auto. reflexivity.
Qed.
Lemma given_nodup box lines : NoDup (map fst (given box lines)).
Proof.
  destruct (given_map box lines) as (all & L & E). rewrite E, map_map. cbn [fst]. apply FinFun.Injective_map_NoDup; [intros x y; lia|apply seq_NoDup].
Qed.

Section Setup.
  Variable argsort_R : list R -> list nat.
  Variable argsort : list Z -> list nat.
  Hypothesis AR : is_argsort_R argsort_R.
  Hypothesis AZ : is_argsort argsort.

  Definition line_edge (n : nat) (p : Z) (k : nat) : Z * list nat * Z := ((Z.of_nat (n + 1 + k), [n + 2 * k; n + 2 * k + 1]), (p + Z.of_nat k)%Z).

  Lemma lines_lemma box p : forall lines,
    build_disjoint_lines argsort (given box []) lines (Z.of_nat (length box + 1)) (Z.of_nat (length box)) p =
      Ok (given box lines, map (line_edge (length box) p) (seq 0 (length lines))).
  Proof.
    intros lines. unfold build_disjoint_lines.
    assert (G : foldM (line_step argsort) lines (given box [], (Z.of_nat (length box), Z.of_nat (length box + 1), p), []) =
      Ok (given box lines, (Z.of_nat (length box + 2 * length lines), Z.of_nat (length box + 1 + length lines), p + Z.of_nat (length lines))%Z, map (line_edge (length box) p) (seq 0 (length lines)))).
    { induction lines as [|l lines IH] using rev_ind; [cbn [foldM length seq map]; rewrite !Nat.mul_0_r, !Nat.add_0_r, Z.add_0_r; reflexivity|].
      rewrite AdProof.foldM_app_res, IH. cbn [bind foldM]. unfold line_step. rewrite <- given_snoc.
      set (h := given box (lines ++ [l])). assert (Lh : length h = length box + 2 * length lines + 2) by (unfold h; rewrite length_given, app_length; cbn; lia).
      set (x := length (given box lines)). assert (Lx : x = length box + 2 * length lines) by (unfold x; rewrite length_given; lia).
      destruct (sub_edge_spec argsort AZ h (Z.of_nat (length box + 1 + length lines)) x (x + 1)) as (ends & E & Pe & Se); [lia|lia|]. rewrite E. cbn [bind].
      assert (ends = [x; x + 1]) as ->.
      { apply Permutation_sym, Permutation_length_2_inv in Pe as [-> | ->]; auto. exfalso. cbn [map] in Se. inversion Se as [|? ? _ F]. inversion F as [|? ? F1]. unfold h in F1. rewrite !given_tag in F1 by (fold h; lia). lia. }
      rewrite app_length. cbn [length]. rewrite seq_app, map_app. cbn [seq map plus]. rewrite Lx.
      replace (Z.of_nat (length box + 2 * length lines) + 2)%Z with (Z.of_nat (length box + 2 * (length lines + 1))) by lia.
      replace (Z.of_nat (length box + 1 + length lines) + 1)%Z with (Z.of_nat (length box + 1 + (length lines + 1))) by lia.
      replace (p + Z.of_nat (length lines) + 1)%Z with (p + Z.of_nat (length lines + 1))%Z by lia. reflexivity. }
    rewrite G. reflexivity.
  Qed.

  Lemma corners_lemma box : mapM (fun v : shape vec => match s_point v with Some p => Ok (s_tag v, p) | None => Err AttributeError end) (map (bvertex box vzero) (seq 0 (length box))) = Ok (given box []).
  Proof.
    unfold given. cbn [flat_map]. rewrite app_nil_r. change 0%Z with (Z.of_nat 0). rewrite (seq_combine vzero). cbn [plus].
    generalize (seq 0 (length box)) as q. induction q as [|i q IH]; [reflexivity|]. cbn [map mapM]. rewrite IH. reflexivity.
  Qed.
  Lemma hosts_lemma box bc p m : map side_host (map (bedge box bc vzero) (seq 0 (length box)) ++ [bwire box bc vzero]) ++
      map (fun e : Z * list nat * Z => Some (mk_host (snd (fst e)) [])) (map (line_edge (length box) p) (seq 0 m)) = network (length box) m.
  Proof.
    unfold network. rewrite map_app, <- app_assoc. f_equal.
    - rewrite map_map. apply map_ext. intros i. unfold side_host, side, bedge. cbn [s_composite s_kind kind_composite s_boundary]. do 2 f_equal.
      destruct (S i =? length box); cbn; rewrite ?Nat2Z.id, ?SuccNat2Pos.id_succ; reflexivity.
    - cbn [map app]. f_equal. rewrite map_map. reflexivity.
  Qed.
  Lemma physical_lemma' box area bc : 2 <= length box -> (area <> None \/ exists i, i < length box /\ bc i <> None) ->
    let D := [map (bvertex box vzero) (seq 0 (length box)); map (bedge box bc vzero) (seq 0 (length box)) ++ [bwire box bc vzero]; [bface box area bc vzero]] in
    exists top, max_physical_tag D = Ok top /\ largest (fun p => area = Some p \/ exists i, i < length box /\ bc i = Some p) top /\
      forall m, max_of (physical_tags D ++ map snd (map (line_edge (length box) (top + 1)) (seq 0 m))) = Ok (top + Z.of_nat m)%Z.
  Proof.
    intros big Hp D.
    assert (Q : forall p, In p (physical_tags D) <-> area = Some p \/ exists i, i < length box /\ bc i = Some p).
    { intros p. unfold physical_tags, D. cbn [concat]. rewrite app_nil_r, in_flat_map. split.
      - intros (s & Hs & E). rewrite !in_app_iff in Hs. destruct Hs as [Hs|[[Hs|[<-|[]]]|[<-|[]]]]; try apply in_map_iff in Hs as (i & <- & Hi); cbn in E; try tauto.
        + right. apply in_seq in Hi. exists i. split; [lia|]. destruct (bc i); [destruct E as [->|[]]; auto|destruct E].
        + left. destruct area; [destruct E as [->|[]]; auto|destruct E].
      - intros [E|(i & Hi & E)].
        + exists (bface box area bc vzero). split; [rewrite !in_app_iff; right; right; left; auto|]. cbn. rewrite E. left. auto.
        + exists (bedge box bc vzero i). split; [rewrite !in_app_iff; right; left; left; apply in_map, in_seq; lia|]. cbn. rewrite E. left. auto. }
    change (max_physical_tag D) with (max_of (physical_tags D)). pose proof (max_of_spec (physical_tags D)) as M. destruct (max_of (physical_tags D)) as [top|e].
    - exists top. split; auto. destruct M as (M1 & M2). split; [split; [apply Q; auto|intros x Hx; apply M2, Q; auto]|]. intros m.
      pose proof (max_of_spec (physical_tags D ++ map snd (map (line_edge (length box) (top + 1)) (seq 0 m)))) as K. destruct (max_of _) as [r|e].
      + f_equal. destruct K as (K1 & K2). rewrite map_map in K1, K2. cbn [line_edge snd] in K1, K2. rewrite in_app_iff, in_map_iff in K1. apply Z.le_antisymm.
        * destruct K1 as [K1|(k & <- & Hk)]; [specialize (M2 _ K1); lia|]. apply in_seq in Hk. lia.
        * destruct m as [|m].
          { assert (top <= r)%Z by (apply K2, in_app_iff; left; auto). lia. }
          apply K2, in_app_iff. right. apply in_map_iff. exists m. split; [lia|]. apply in_seq. lia.
      + destruct K as (_ & K). apply app_eq_nil in K as (K & _). rewrite K in M1. destruct M1.
    - exfalso. destruct M as (_ & M). assert (Z : forall p, ~ (area = Some p \/ exists i, i < length box /\ bc i = Some p)) by (intros p Hq; apply Q in Hq; rewrite M in Hq; destruct Hq).
      destruct Hp as [Hp|(i & Hi & Hp)].
      + destruct area as [p|]; [|tauto]. apply (Z p). auto.
      + destruct (bc i) as [p|] eqn:E; [|tauto]. apply (Z p). right. exists i. auto.
  Qed.
End Setup.
