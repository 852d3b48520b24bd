(** * Concrete vertices and edges *)
From Coq Require Import List Arith ZArith Bool Reals Lra Lia Permutation Sorted.
From Verif Require Import Base BaseProof VecBase VecProof GeoModel GeoSpec GeoProof GeoProof2 GeoExamples VertexModel ShapeSpec ShapeExamples VertexSpec VertexProof DiffProof.
Import ListNotations.
Local Open Scope R_scope.

(** An argsort of reals: insertion of positions by key *)
Fixpoint put_R (l : list R) (i : nat) (js : list nat) : list nat :=
  match js with
  | [] => [i]
  | j :: r => if Rle_dec (nth i l 0) (nth j l 0) then i :: js else j :: put_R l i r
  end.
Definition argsort_R_example (l : list R) : list nat := fold_right (put_R l) [] (seq 0 (length l)).
Lemma put_R_perm l i js : Permutation (put_R l i js) (i :: js).
Proof.
  induction js as [|j js IH]; simpl; auto. destruct (Rle_dec _ _); auto.
  transitivity (j :: i :: js); [constructor; auto|constructor].
Qed.
Lemma put_R_sorted l i js : StronglySorted Rle (map (fun k => nth k l 0) js) -> StronglySorted Rle (map (fun k => nth k l 0) (put_R l i js)).
Proof.
  induction js as [|j js IH]; intros S; simpl; [repeat constructor|].
  simpl in S. inversion S as [|? ? S' F]; subst. destruct (Rle_dec (nth i l 0) (nth j l 0)) as [Hle|Hlt]; simpl.
  - constructor; auto. constructor; auto. rewrite Forall_forall in F |- *. intros x Hx. apply F in Hx. lra.
  - constructor; auto. rewrite Forall_forall in F |- *. intros x Hx. apply in_map_iff in Hx as (k & <- & Hk). apply (Permutation_in _ (put_R_perm l i js)) in Hk as [<-|Hk]; [lra|].
    apply F. apply in_map_iff. eauto.
Qed.
Lemma argsort_R_example_ok : is_argsort_R argsort_R_example.
Proof.
  intros l. unfold argsort_R_example. induction (seq 0 (length l)) as [|i js [IH1 IH2]]; simpl; [split; constructor|]. split.
  - etransitivity; [apply put_R_perm|]. constructor. auto.
  - apply put_R_sorted. auto.
Qed.

(** the tolerance of globals.py *)
Definition g : R := 1 / 10000000000.
Lemma far_x tl x y e f p q : Rabs (x - y) > tl + tl * Rabs y -> allclose tl (P x e f) (P y p q) = false.
Proof. intros H. unfold allclose, isclose. cbn [vx P]. destruct (Rleb (Rabs (x - y)) _) eqn:E; auto. apply GeoProof.Rleb_true in E. lra. Qed.
Lemma far_y tl x y e f p q : Rabs (x - y) > tl + tl * Rabs y -> allclose tl (P e x f) (P p y q) = false.
Proof.
  intros H. unfold allclose, isclose. cbn [vx vy P]. rewrite (andb_comm (Rleb (Rabs (e - p)) _)). destruct (Rleb (Rabs (x - y)) _) eqn:E; auto. apply GeoProof.Rleb_true in E. lra.
Qed.
Lemma far_default x y e f p q : Rabs (x - y) > 1 / 100000000 + 1 / 100000 * Rabs y -> allclose_default (P x e f) (P y p q) = false.
Proof. intros H. unfold allclose_default, isclose_default. cbn [vx P]. destruct (Rleb (Rabs (x - y)) _) eqn:E; auto. apply GeoProof.Rleb_true in E. lra. Qed.
Ltac dist := unfold g; repeat match goal with |- context [Rabs ?x] => first [rewrite (Rabs_right x) by lra | rewrite (Rabs_left x) by lra] end; lra.
Lemma found_self ctol eps p a b : 0 <= eps -> on_segment a b p -> allclose ctol a p = false -> allclose ctol b p = false -> point_line_intersection ctol p a b eps = Some p.
Proof.
  intros E S A B. destruct (segment_found ctol eps p a b E S) as (x & H). rewrite H. unfold point_line_intersection in H. rewrite A, B in H.
  destruct (point_line_incidence _ _ _ _); [|discriminate]. destruct (_ && _); [auto|discriminate].
Qed.

(** An edge from 0 to 3 cut at 2 and at 1. *)
Definition va : vertex := mk_vertex 1 None (P 0 0 0).
Definition vb : vertex := mk_vertex 2 None (P 3 0 0).
Definition base : edge := mk_edge 3 (Some 7%Z) [va; vb].
Definition t1 : vertex := mk_vertex 10 None (P 1 0 0).
Definition t2 : vertex := mk_vertex 11 None (P 2 0 0).
Definition all_idx (l : list vec) : list nat := seq 0 (length l).
Lemma on_x x0 x1 k : x0 < x1 -> x0 <= k <= x1 -> on_segment (P x0 0 0) (P x1 0 0) (P k 0 0).
Proof.
  intros H K. exists ((k - x0) / (x1 - x0)). split.
  - split; [apply Rmult_le_pos; [lra|left; apply Rinv_0_lt_compat; lra]|]. apply Rmult_le_reg_r with (x1 - x0); [lra|]. unfold Rdiv. rewrite Rmult_assoc, Rinv_l; lra.
  - unfold P. apply vec_ext; vec; field; lra.
Qed.
Lemma cut_touching : touching g g (v_point va) (v_point vb) [t2; t1] = [(P 2 0 0, t2); (P 1 0 0, t1)].
Proof.
  unfold touching. cbn [flat_map app v_point t1 t2 va vb].
  assert (G : forall k, k = 1 \/ k = 2 -> point_line_intersection g (P k 0 0) (P 0 0 0) (P 3 0 0) g = Some (P k 0 0)).
  { intros k K. apply found_self; [unfold g; lra|apply on_x; lra|apply far_x; destruct K; subst k; dist|apply far_x; destruct K; subst k; dist]. }
  rewrite (G 2), (G 1) by auto. reflexivity.
Qed.
Lemma cut_at t : exists es vs, vertices_edge_difference g g all_idx argsort_R_example argsort_example [t2; t1] base t g = Ok (es, vs) /\
  chain (Some 7%Z) t va vb [P 1 0 0; P 2 0 0] es vs.
Proof.
  destruct (difference_lemma g g all_idx argsort_R_example argsort_example argsort_example_ok argsort_R_example_ok [t2; t1] [t2; t1] base va vb t g) as [_ D];
    [unfold g; lra|reflexivity|reflexivity|]. rewrite cut_touching in D.
  destruct D as (sorted & PS & BS & D); [discriminate|].
  assert (S : sorted = [(P 1 0 0, t1); (P 2 0 0, t2)]).
  { apply Permutation_sym, Permutation_length_2_inv in PS as [-> | ->]; auto. exfalso. cbn [map fst v_point va] in BS. inversion BS as [|? ? _ F]; subst. inversion F as [|? ? F1 _]; subst.
    replace (vsub (P 2 0 0) (P 0 0 0)) with (P 2 0 0) in F1 by (unfold P; apply vec_ext; vec; ring).
    replace (vsub (P 1 0 0) (P 0 0 0)) with (P 1 0 0) in F1 by (unfold P; apply vec_ext; vec; ring).
    rewrite !norm_x, !Rabs_right in F1 by lra. lra. }
  subst sorted. destruct D as [(p & v & Q & _)|(start & finish & pts & Sp & D)]; [discriminate|].
  assert (E : start = va /\ finish = vb /\ pts = [P 1 0 0; P 2 0 0]).
  { destruct Sp as (pre & mid & post & E & -> & A & B).
    assert (Pre : pre = []).
    { destruct pre as [|[p v] [|w pre]]; [auto| |destruct A]. destruct A as [_ A]. injection E as <- <- E. cbn [v_point va] in A. rewrite far_default in A; [discriminate|dist]. }
    subst pre. cbn [app] in E.
    assert (Post : post = []).
    { destruct post as [|[p v] [|w post]]; [auto| |destruct B]. destruct B as [_ B]. change [(P 1 0 0, t1); (P 2 0 0, t2)] with ([(P 1 0 0, t1)] ++ [(P 2 0 0, t2)]) in E. apply app_inj_tail in E as [_ E].
      injection E as <- <-. cbn [v_point vb] in B. rewrite far_default in B; [discriminate|dist]. }
    subst post. rewrite app_nil_r in E. subst mid. destruct A as [A _]. destruct B as [B _]. auto. }
  destruct E as (-> & -> & ->). apply D. intros q [<-|[<-|[]]]; cbn [v_point va vb]; split; apply far_x; dist.
Qed.
Lemma cut_example : exists es vs, vertices_edge_difference g g all_idx argsort_R_example argsort_example [t2; t1] base 100 g = Ok (es, vs) /\
  chain (Some 7%Z) 100 va vb [P 1 0 0; P 2 0 0] es vs.
Proof. exact (cut_at 100). Qed.

(** A short edge far from the origin cut in its middle. *)
Definition sa : vertex := mk_vertex 1 None (P 100 0 0).
Definition sb : vertex := mk_vertex 2 None (P (100 + 1 / 2000) 0 0).
Definition short : edge := mk_edge 3 (Some 7%Z) [sa; sb].
Definition middle : vertex := mk_vertex 10 None (P (100 + 1 / 4000) 0 0).
Lemma near_default x y : Rabs (x - y) <= 1 / 100000000 + 1 / 100000 * Rabs y -> allclose_default (P x 0 0) (P y 0 0) = true.
Proof.
  intros H. unfold allclose_default, isclose_default. cbn [vx vy vz P]. rewrite !ShapeExamples.Rleb_true; auto; rewrite Rminus_0_r, Rabs_R0; lra.
Qed.
Lemma short_example : on_segment (v_point sa) (v_point sb) (v_point middle) /\
  vertices_edge_difference g g all_idx argsort_R_example argsort_example [middle] short 100 g = Err IndexError.
Proof.
  split; [apply on_x; lra|].
  destruct (difference_lemma g g all_idx argsort_R_example argsort_example argsort_example_ok argsort_R_example_ok [middle] [middle] short sa sb 100 g) as [_ D];
    [unfold g; lra|reflexivity|reflexivity|].
  assert (T : touching g g (v_point sa) (v_point sb) [middle] = [(v_point middle, middle)]).
  { unfold touching. cbn [flat_map app]. rewrite (found_self g g); auto; [unfold g; lra|apply on_x; lra|apply far_x; dist|apply far_x; dist]. }
  rewrite T in D. destruct D as (sorted & PS & _ & D); [discriminate|]. apply Permutation_sym, Permutation_length_1_inv in PS. subst sorted.
  destruct D as [(p & v & Q & _ & _ & R)|(start & finish & pts & Sp & _)]; [exact R|]. exfalso.
  assert (NA : allclose_default (v_point middle) (v_point sa) = true) by (apply near_default; dist).
  assert (NB : allclose_default (v_point middle) (v_point sb) = true) by (apply near_default; dist).
  destruct Sp as (pre & mid & post & E & _ & A & B).
  destruct pre as [|[p v] [|w pre]]; [|destruct post as [|[p' v'] [|w post]]|destruct A].
  - destruct A as [_ A]. rewrite (A _ _ _ eq_refl) in NA. discriminate.
  - destruct B as [_ B]. rewrite (B (v_point middle) middle [] eq_refl) in NB. discriminate.
  - injection E as _ _ E. destruct mid; discriminate.
  - destruct B.
Qed.

(** Two edges which cross at a vertex. *)
Definition crossing : heap := [(0%Z, P 0 0 0); (1%Z, P 4 0 0); (2%Z, P 2 (-2) 0); (3%Z, P 2 2 0); (4%Z, P 2 0 0)].
Lemma crossing_example : vertices_edges_intersection g g g (-2147483648) crossing [4%nat] [(0, 1); (2, 3)]%nat 100 g =
  Ok (crossing ++ [(100%Z, P 2 0 0); (100%Z, P 2 0 0)], [([5%nat], [4%nat]); ([6%nat], [4%nat])]).
Proof.
  assert (H1 : forall h, firstn 5 h = crossing -> edge_hit g g g h 4 (0, 1)%nat g = Ok (Some (New (P 2 0 0)))).
  { intros h E. assert (G : forall k v, nth_error crossing k = Some v -> get_at h k = Ok v).
    { intros k v Ek. rewrite <- E in Ek. unfold get_at. rewrite <- (firstn_skipn 5 h). rewrite nth_error_app1; [rewrite Ek; reflexivity|]. apply nth_error_Some. congruence. }
    unfold edge_hit, boundary_hit, strong_equality, vpoint. cbn [fst snd]. rewrite (G 4%nat _ eq_refl), (G 0%nat _ eq_refl), (G 1%nat _ eq_refl). cbn [bind fst snd Z.eqb andb Pos.eqb].
    unfold same_geometry. rewrite (far_x g 2 0), (far_x g 2 4) by dist. cbn [bind]. rewrite (found_self g g); auto; [unfold g; lra|apply on_x; lra|apply far_x; dist|apply far_x; dist]. }
  assert (H2 : forall h, firstn 5 h = crossing -> edge_hit g g g h 4 (2, 3)%nat g = Ok (Some (New (P 2 0 0)))).
  { intros h E. assert (G : forall k v, nth_error crossing k = Some v -> get_at h k = Ok v).
    { intros k v Ek. rewrite <- E in Ek. unfold get_at. rewrite <- (firstn_skipn 5 h). rewrite nth_error_app1; [rewrite Ek; reflexivity|]. apply nth_error_Some. congruence. }
    unfold edge_hit, boundary_hit, strong_equality, vpoint. cbn [fst snd]. rewrite (G 4%nat _ eq_refl), (G 2%nat _ eq_refl), (G 3%nat _ eq_refl). cbn [bind fst snd Z.eqb andb Pos.eqb].
    unfold same_geometry. rewrite (far_y g 0 (-2)), (far_y g 0 2) by dist. cbn [bind]. rewrite (found_self g g); auto; [unfold g; lra| |apply far_y; dist|apply far_y; dist].
    exists (1 / 2). split; [lra|]. unfold P. apply vec_ext; vec; field. }
  unfold vertices_edges_intersection. cbn [foldM]. unfold vertices_edge_intersection at 1. cbn [mapM]. rewrite H1 by reflexivity. cbn -[edge_hit Z.add].
  unfold vertices_edge_intersection. cbn [mapM]. rewrite H2 by reflexivity. cbn -[edge_hit Z.add]. reflexivity.
Qed.
Lemma crossing_one : vertices_edge_intersection g g g (-2147483648) crossing [4%nat] (0, 1)%nat 100 g = Ok (crossing ++ [(100%Z, P 2 0 0)], [5%nat], [4%nat]).
Proof.
  unfold vertices_edge_intersection. cbn [mapM]. unfold edge_hit, boundary_hit, strong_equality, vpoint, crossing. cbn [fst snd get_at nth_error bind Z.eqb andb Pos.eqb].
  unfold same_geometry. rewrite (far_x g 2 0), (far_x g 2 4) by dist. cbn [bind]. rewrite (found_self g g); [|unfold g; lra|apply on_x; lra|apply far_x; dist|apply far_x; dist].
  cbn -[Z.add]. reflexivity.
Qed.
Lemma short_refutes : exists e a b v,
  e_ends e = [a; b] /\ on_segment (v_point a) (v_point b) (v_point v) /\
  vertices_edge_difference g g all_idx argsort_R_example argsort_example [v] e 100 g = Err IndexError.
Proof. exists short, sa, sb, middle. split; [reflexivity|exact short_example]. Qed.
Lemma two_edges_example : exists out, vertices_edges_difference g g all_idx argsort_R_example argsort_example [t2; t1] [base; base] 100 g = Ok out /\
  length (flat_map (fun r => snd (fst r)) out) = 6%nat.
Proof.
  assert (C := cut_at). destruct (C 100%Z) as (es & vs & E & Ch). unfold vertices_edges_difference. cbn [foldM]. rewrite E. cbn [bind].
  pose proof (ch_edges _ _ _ _ _ _ _ Ch) as L. pose proof (ch_vertices _ _ _ _ _ _ _ Ch) as L2. cbn [length] in L. rewrite L in L2.
  destruct (np_max (map v_tag vs ++ map e_tag es)) as [m|] eqn:Em; [|destruct vs; discriminate].
  rewrite L, L2. cbn [Nat.eqb negb andb Nat.mul Nat.add bind app]. destruct (C (m + 1)%Z) as (es' & vs' & E' & Ch'). rewrite E'. cbn [bind].
  pose proof (ch_edges _ _ _ _ _ _ _ Ch') as L'. pose proof (ch_vertices _ _ _ _ _ _ _ Ch') as L2'. cbn [length] in L'. rewrite L' in L2'.
  destruct (np_max (map v_tag vs' ++ map e_tag es')) as [m'|] eqn:Em'; [|destruct vs'; discriminate].
  rewrite L', L2'. cbn [Nat.eqb negb andb Nat.mul Nat.add bind app]. eexists. split; [reflexivity|]. cbn [snd flat_map fst]. rewrite !app_length, L, L'. reflexivity.
Qed.
