(** * Lemmas: many lines and a polygon, C94 *)
From Coq Require Import List Arith ZArith Bool Reals Lra Lia Permutation Sorted.
From Verif Require Import Base BaseProof VecBase VecProof GeoModel GeoSpec GeoProof GeoProof2 PolyModel PolySpec PolyProof PolyProof2 PolyProof3 LineModel LineSpec LineProof LineProof2 LineProof3 LineProof4.
Import ListNotations.
Local Open Scope R_scope.

Section ManyLines.
  Variable lstsq : vec -> vec -> vec -> R * R.
  Variable argsort : list R -> list nat.
  Variable delaunay : list (R * R) -> res (list (nat * nat * nat)).
  Variable ctol ptol eps scale : R.
  Notation found := (line_polygon_intersection lstsq argsort delaunay ctol ptol scale).
  Notation all_found := (lines_polygon_intersection lstsq argsort delaunay ctol ptol scale).
  Lemma stack_points (l : list (list vec)) : (forall x y, In x l -> In y l -> length x = length y) -> stack (map LT_points l) = Ok (map LT_points l).
  Proof.
    intros H. destruct l as [|x l]; [reflexivity|]. cbn [map stack]. replace (forallb _ _) with true; [reflexivity|]. symmetry. apply forallb_forall.
    intros r R. apply in_map_iff in R. destruct R as (y & <- & Y). cbn [same_shape]. apply Nat.eqb_eq. apply H; [left; reflexivity|right; exact Y].
  Qed.
  Lemma stack_ragged (l : list (list vec)) x y : In x l -> In y l -> length x <> length y -> stack (map LT_points l) = Err ValueError.
  Proof.
    intros X Y N. destruct l as [|h l]; [destruct X|]. cbn [map stack]. replace (forallb _ _) with false; [reflexivity|]. symmetry. apply not_true_is_false. intros F.
    assert (K : forall z, In z (h :: l) -> length z = length h).
    { intros z [<-|Z]; [reflexivity|]. pose proof (proj1 (forallb_forall _ _) F (LT_points z) (in_map LT_points l z Z)) as G. cbn [same_shape] in G. apply Nat.eqb_eq in G. auto. }
    apply N. rewrite (K x X), (K y Y). reflexivity.
  Qed.
  Definition given (rs : list (option (list vec))) : list (list vec) := flat_map (fun o => match o with Some l => [l] | None => [] end) rs.
  Lemma given_In rs l : In l (given rs) <-> In (Some l) rs.
  Proof.
    unfold given. rewrite in_flat_map. split.
    - intros ([x|] & X & I); [destruct I as [<-|[]]; exact X|destruct I].
    - intros H. exists (Some l). split; [exact H|left; reflexivity].
  Qed.
  Lemma given_map rs : flat_map (fun o : option (list vec) => match o with Some l => [LT_points l] | None => [] end) rs = map LT_points (given rs).
  Proof. induction rs as [|[l|] rs IH]; cbn [flat_map given map app] in *; [reflexivity| |exact IH]. rewrite IH. reflexivity. Qed.
  Lemma lines_polygon_lemma lines pts rs : Forall2 (fun line r => found line pts eps = Ok r) lines rs ->
    ((forall l l', In (Some l) rs -> In (Some l') rs -> length l = length l') ->
      all_found lines pts eps = Ok (flat_map (fun o => match o with Some l => [LT_points l] | None => [] end) rs, map (fun o => match o with Some _ => true | None => false end) rs)) /\
    (forall l l', In (Some l) rs -> In (Some l') rs -> length l <> length l' -> all_found lines pts eps = Err ValueError).
  Proof.
    intros F. assert (M : mapM (fun line => found line pts eps) lines = Ok rs) by (apply mapM_Forall2; exact F).
    unfold lines_polygon_intersection. rewrite M. cbn [bind]. rewrite given_map. split.
    - intros H. rewrite stack_points; [reflexivity|]. intros x y X Y. apply given_In in X, Y. exact (H x y X Y).
    - intros l l' L L' N. apply given_In in L, L'. rewrite (stack_ragged (given rs) l l' L L' N). reflexivity.
  Qed.

  Hypothesis Ls : solves lstsq.
  Hypothesis Srt : sorts argsort.
  Hypothesis C0 : 0 <= ctol <= 1 / 100000000.
  Hypothesis P0 : 0 <= ptol.
  Hypothesis E0 : 0 <= eps.
  Variable n : vec.
  Variable pts : list vec.
  Hypothesis C : convex_polygon n pts.
  Hypothesis Q : convex_q pts = Ok true.
  Lemma lines_across (inside : vec -> bool) lines zs : (forall z, In z zs -> (inside z = true <-> in_polygon n pts z)) ->
    Forall2 (fun (l : vec * vec) z => (forall i, (i < length pts)%nat -> crosses_plane ctol eps (vmean pts) (corner pts i) (corner pts (i + 1)) (fst l) (snd l) z) /\
      (forall u v, fan_edge pts u v -> clear_cut ctol ptol eps (u, v) l /\ definite ctol eps z u v)) lines zs ->
    all_found lines pts eps = Ok (map (fun z => LT_points [z]) (filter inside zs), map inside zs).
  Proof.
    intros I F.
    assert (G : Forall2 (fun line r => found line pts eps = Ok r) lines (map (fun z => if inside z then Some [z] else None) zs)).
    { induction F as [|(p, q) z lines zs (H1 & H2) F IH]; [constructor|]. cbn [map]. constructor; [|apply IH; intros w W; apply I; right; exact W].
      destruct (polygon_across lstsq argsort delaunay ctol ptol eps scale Ls Srt C0 P0 E0 n pts C Q p q z H1 H2) as (A & B).
      pose proof (I z (or_introl eq_refl)) as K. destruct (inside z); [apply A, K; reflexivity|apply B]. intros W. apply K in W. discriminate. }
    apply lines_polygon_lemma in G. destruct G as (G & _). rewrite G.
    - f_equal. f_equal; clear; [induction zs as [|z zs IH]; [reflexivity|]; cbn [map flat_map filter]; destruct (inside z); cbn [map app]; rewrite IH; reflexivity|].
      rewrite map_map. apply map_ext. intros z. destruct (inside z); reflexivity.
    - intros l l' L L'. apply in_map_iff in L, L'. destruct L as (z & Z & _), L' as (z' & Z' & _).
      destruct (inside z); [|discriminate]. destruct (inside z'); [|discriminate]. injection Z as <-. injection Z' as <-. reflexivity.
  Qed.
End ManyLines.
