(** * Concrete vertices embedded in an edge *)
From Coq Require Import List Arith ZArith Bool Reals Lra Lia Permutation Sorted.
From Verif Require Import Base BaseProof VecBase VecProof GeoModel GeoSpec GeoProof GeoExamples VertexModel ShapeSpec ShapeExamples VertexSpec VertexExamples EmbedModel EmbedSpec EmbedProof EmbedProof2 EmbedProof3.
Import ListNotations.
Local Open Scope R_scope.

(** The edge from 0 to 1 and the vertices at 1/4, 3/4 and 7/4 of tests/test_geometry, and a
    second vertex at 3/4. *)
Definition row : heap := [(0%Z, P 0 0 0); (1%Z, P 1 0 0); (2%Z, P (1 / 4) 0 0); (3%Z, P (3 / 4) 0 0); (4%Z, P (7 / 4) 0 0); (5%Z, P (3 / 4) 0 0)].
Definition whole : host := mk_host [0%nat; 1%nat] [].
Lemma far x y z u v w : Rabs (x - u) > 1 / 100000000 + 1 / 100000 * Rabs u -> ~ near_point (P x y z) (P u v w).
Proof. unfold near_point, near. cbn [vx P]. intros H (N & _). lra. Qed.
Lemma norm_x x : norm (P x 0 0) = Rabs x.
Proof. unfold norm, dot. cbn [vx vy vz P]. replace (x * x + 0 * 0 + 0 * 0) with (Rsqr x) by (unfold Rsqr; ring). apply sqrt_Rsqr_abs. Qed.
Lemma vsub_P x y z u v w : vsub (P x y z) (P u v w) = P (x - u) (y - v) (z - w).
Proof. reflexivity. Qed.
Lemma dist_row_0 u x : pt row u = P x 0 0 -> 0 <= x -> dist row 0 u = x.
Proof. intros E H. unfold dist. rewrite E. change (pt row 0) with (P 0 0 0). rewrite vsub_P, !Rminus_0_r, norm_x. apply Rabs_right. lra. Qed.
Lemma row_first : first_of_each row [3%nat; 2%nat; 5%nat; 4%nat] [2%nat; 3%nat; 4%nat].
Proof.
  split.
  - apply (proj2 (sorted_pt _ _)). repeat first [apply SSorted_nil|apply SSorted_cons|apply Forall_nil|apply Forall_cons]; left; unfold pt, row; cbn [nth snd vx P]; lra.
  - intros u. split.
    + intros [<-|[<-|[<-|[]]]]; [exists 1%nat|exists 0%nat|exists 3%nat]; (split; [reflexivity|]); intros [|[|[|[|j]]]] w Hw E; try lia;
        cbn in Hw; (destruct j; discriminate) || (injection Hw as <-; exfalso; apply (f_equal vx) in E; unfold pt, row in E; cbn [nth snd vx P] in E; lra).
    + intros ([|[|[|[|j]]]] & H & M); cbn in H; try injection H as <-; try (simpl; tauto); [|destruct j; discriminate].
      exfalso. specialize (M 0%nat 3%nat eq_refl eq_refl). lia.
Qed.
Ltac far_row := apply far; repeat match goal with |- context [Rabs ?x] => first [rewrite (Rabs_right x) by lra | rewrite (Rabs_left x) by lra] end; lra.
Lemma row_ends : live row [0%nat; 1%nat; 3%nat; 2%nat; 5%nat; 4%nat] /\ replaced row (fun u => In u [2%nat; 3%nat; 4%nat]) 0 0 /\
  replaced row (fun u => In u [2%nat; 3%nat; 4%nat] /\ u <> 0%nat) 1 1.
Proof.
  split; [|split].
  - intros x H. cbn in H. cbn. lia.
  - left. split; auto. intros u [<-|[<-|[<-|[]]]]; unfold pt, row; cbn [nth snd]; far_row.
  - left. split; auto. intros u ([<-|[<-|[<-|[]]]] & _); unfold pt, row; cbn [nth snd]; far_row.
Qed.
Lemma not_near_0 x : 1 / 100000000 < x -> ~ near x 0.
Proof. unfold near. rewrite Rabs_R0, Rminus_0_r, Rmult_0_r, Rplus_0_r. intros H. rewrite Rabs_right; lra. Qed.
Lemma not_near_1 x : x < 1 - 1 / 100000000 - 1 / 100000 -> ~ near x 1.
Proof. unfold near. intros H. rewrite (Rabs_right 1), Rabs_left; lra. Qed.
Lemma row_example : embed_vertex_in_edge argsort_R_example argsort_example row [3%nat; 2%nat; 5%nat; 4%nat] whole 1 =
  Ok (row, mk_host [0%nat; 1%nat] [(1%Z, [0%nat; 2%nat]); (2%Z, [2%nat; 3%nat]); (3%Z, [1%nat; 3%nat])], [2%nat; 3%nat]).
Proof.
  destruct row_ends as (L & Ra & Rb).
  destruct (embed_lemma argsort_R_example argsort_example argsort_R_example_ok argsort_example_ok row _ whole 1 _ _ _ _ _ L eq_refl row_first Ra Rb) as (es & out & E & Mem & So & _ & J).
  assert (D1 : dist row 0 1 = 1) by (apply dist_row_0; [reflexivity|lra]). assert (D2 : dist row 0 2 = 1 / 4) by (apply dist_row_0; [reflexivity|lra]).
  assert (D3 : dist row 0 3 = 3 / 4) by (apply dist_row_0; [reflexivity|lra]). assert (D4 : dist row 0 4 = 7 / 4) by (apply dist_row_0; [reflexivity|lra]).
  assert (out = [2%nat; 3%nat]) as ->.
  { apply (sorted_same row); [apply sorted_pt; auto|repeat first [apply SSorted_nil|apply SSorted_cons|apply Forall_nil|apply Forall_cons]; left; unfold pt, row; cbn [nth snd vx P]; lra|]. intros u. rewrite Mem. rewrite D1. split.
    - intros ([<-|[<-|[<-|[]]]] & _ & _ & W); simpl; auto. rewrite D4 in W. destruct W as (_ & W & _). lra.
    - intros [<-|[<-|[]]]; (split; [simpl; auto|]); (split; [discriminate|]); (split; [discriminate|]); rewrite ?D2, ?D3; (split; [lra|]); (split; [lra|]); (split; [apply not_near_0; lra|apply not_near_1; lra]). }
  destruct J as (mid & Pm & Sm & Hl & Jn); [discriminate|].
  assert (mid = [2%nat; 3%nat]) as ->.
  { apply Permutation_sym, Permutation_length_2_inv in Pm as [-> | ->]; auto. exfalso. inversion Sm as [|? ? _ F]; subst. inversion F; subst. rewrite D2, D3 in *. lra. }
  rewrite E. f_equal. f_equal. f_equal. cbn [h_immersed whole app]. f_equal.
  destruct es as [|e0 [|e1 [|e2 [|]]]]; try discriminate.
  destruct (Jn 0%nat _ _ eq_refl eq_refl) as (n0 & K0 & P0 & S0). destruct (Jn 1%nat _ _ eq_refl eq_refl) as (n1 & K1 & P1 & S1). destruct (Jn 2%nat _ _ eq_refl eq_refl) as (n2 & K2 & P2 & S2).
  cbn in K0, K1, K2. injection K0 as ->. injection K1 as ->. injection K2 as ->.
  apply Permutation_sym, Permutation_length_2_inv in P0 as [-> | ->]; [|exfalso; inversion S0 as [|? ? _ F]; subst; inversion F; subst; unfold tg, row in *; cbn in *; lia].
  apply Permutation_sym, Permutation_length_2_inv in P1 as [-> | ->]; [|exfalso; inversion S1 as [|? ? _ F]; subst; inversion F; subst; unfold tg, row in *; cbn in *; lia].
  apply Permutation_sym, Permutation_length_2_inv in P2 as [-> | ->]; [exfalso; inversion S2 as [|? ? _ F]; subst; inversion F; subst; unfold tg, row in *; cbn in *; lia|]. reflexivity.
Qed.
Lemma row_ray u : In u [2%nat; 3%nat; 4%nat] -> on_ray (pt row 0) (pt row 1) (pt row u).
Proof.
  intros [<-|[<-|[<-|[]]]]; [exists (1 / 4)|exists (3 / 4)|exists (7 / 4)]; (split; [lra|]); unfold pt, row, between; cbn [nth snd]; apply vec_ext; unfold vadd, vscale, vsub, P; cbn [vx vy vz]; lra.
Qed.

(** A vertex which takes the place of the second end: it is nearer than the tolerance. *)
Definition beside : heap := [(0%Z, P 0 0 0); (1%Z, P 1 0 0); (7%Z, P (1 + 1 / 200000) 0 0)].
Lemma beside_ends : live beside [0%nat; 1%nat; 2%nat] /\ first_of_each beside [2%nat] [2%nat] /\ replaced beside (fun u => In u [2%nat]) 0 0 /\
  replaced beside (fun u => In u [2%nat] /\ u <> 0%nat) 1 2.
Proof.
  split; [intros x H; cbn in H; cbn; lia|]. split; [|split].
  - split; [repeat constructor|]. intros u. split; [intros [<-|[]]; exists 0%nat; split; auto; lia|]. intros ([|[|i]] & H & _); try discriminate. injection H as <-. left. auto.
  - left. split; auto. intros u [<-|[]]. unfold pt, beside; cbn [nth snd]; far_row.
  - right. split; [split; [simpl; auto|discriminate]|]. split; [|intros u ([<-|[]] & _) N; congruence].
    unfold near_point, near, pt, beside; cbn [nth snd vx vy vz P]. rewrite !Rminus_0_r, Rabs_R0, (Rabs_right 1), Rabs_right; lra.
Qed.
Lemma beside_example : embed_vertex_in_edge argsort_R_example argsort_example beside [2%nat] whole 1 = Ok (beside, mk_host [0%nat; 2%nat] [], []).
Proof.
  destruct beside_ends as (L & F & Ra & Rb).
  destruct (embed_lemma argsort_R_example argsort_example argsort_R_example_ok argsort_example_ok beside _ whole 1 _ _ _ _ _ L eq_refl F Ra Rb) as (es & out & E & Mem & _ & N & _).
  assert (out = []) as ->. { destruct out as [|u o]; auto. destruct (proj1 (Mem u)) as ([<-|[]] & _ & X & _); [left; auto|congruence]. }
  rewrite N in E by auto. exact E.
Qed.

(** A vertex off the line, and one behind the first end. *)
Definition stray (p : vec) : heap := [(0%Z, P 0 0 0); (1%Z, P 1 0 0); (2%Z, p)].
Lemma stray_in p : ~ near_point p (P 0 0 0) -> ~ near_point p (P 1 0 0) -> norm p = 1 / 2 -> exists e',
  embed_vertex_in_edge argsort_R_example argsort_example (stray p) [2%nat] whole 1 = Ok (stray p, e', [2%nat]).
Proof.
  intros N0 N1 Np. assert (L : live (stray p) [0%nat; 1%nat; 2%nat]) by (intros x H; cbn in H; cbn; lia).
  assert (F : first_of_each (stray p) [2%nat] [2%nat]).
  { split; [repeat constructor|]. intros u. split; [intros [<-|[]]; exists 0%nat; split; auto; lia|]. intros ([|[|i]] & H & _); try discriminate. injection H as <-. left. auto. }
  assert (Ra : replaced (stray p) (fun u => In u [2%nat]) 0 0) by (left; split; auto; intros u [<-|[]]; exact N0).
  assert (Rb : replaced (stray p) (fun u => In u [2%nat] /\ u <> 0%nat) 1 1) by (left; split; auto; intros u ([<-|[]] & _); exact N1).
  destruct (embed_lemma argsort_R_example argsort_example argsort_R_example_ok argsort_example_ok _ _ whole 1 _ _ _ _ _ L eq_refl F Ra Rb) as (es & out & E & Mem & So & _ & J).
  assert (D1 : dist (stray p) 0 1 = 1). { unfold dist, pt, stray; cbn [nth snd]. rewrite vsub_P, !Rminus_0_r, norm_x. apply Rabs_right. lra. }
  assert (D2 : dist (stray p) 0 2 = 1 / 2). { rewrite <- Np. unfold dist, pt, stray; cbn [nth snd]. f_equal. apply vec_ext; unfold vsub, P; cbn [vx vy vz]; ring. }
  assert (out = [2%nat]) as ->.
  { apply (sorted_same (stray p)); [apply sorted_pt; auto|repeat constructor|]. intros u. rewrite Mem, D1. split; [tauto|]. intros [<-|[]]. rewrite D2.
    split; [simpl; auto|]. split; [discriminate|]. split; [discriminate|]. split; [lra|]. split; [lra|]. split; [apply not_near_0; lra|apply not_near_1; lra]. }
  eexists. exact E.
Qed.
Definition off : vec := P (3 / 10) (2 / 5) 0.
Definition behind : vec := P (- (1 / 2)) 0 0.
Lemma off_example : exists e', embed_vertex_in_edge argsort_R_example argsort_example (stray off) [2%nat] whole 1 = Ok (stray off, e', [2%nat]).
Proof.
  apply stray_in; [unfold off; far_row|unfold off; far_row|]. unfold norm, dot, off; cbn [vx vy vz P]. replace (3 / 10 * (3 / 10) + 2 / 5 * (2 / 5) + 0 * 0) with (Rsqr (1 / 2)) by (unfold Rsqr; lra). apply sqrt_Rsqr. lra.
Qed.
Lemma behind_example : exists e', embed_vertex_in_edge argsort_R_example argsort_example (stray behind) [2%nat] whole 1 = Ok (stray behind, e', [2%nat]).
Proof. apply stray_in; [unfold behind; far_row|unfold behind; far_row|]. unfold behind. rewrite norm_x, Rabs_left; lra. Qed.
Lemma off_refuted : ~ (forall argsort_R argsort h vs e shift a b h' e' out, is_argsort_R argsort_R -> is_argsort argsort -> live h (a :: b :: vs) -> h_ends e = [a; b] ->
  embed_vertex_in_edge argsort_R argsort h vs e shift = Ok (h', e', out) ->
  forall u, In u out -> exists t, pt h u = between (pt h a) (pt h b) t).
Proof.
  intros H. destruct off_example as (e' & E).
  assert (L : live (stray off) [0%nat; 1%nat; 2%nat]) by (intros x K; cbn in K; cbn; lia).
  destruct (H _ _ _ _ whole 1%Z 0%nat 1%nat _ _ _ argsort_R_example_ok argsort_example_ok L eq_refl E 2%nat (or_introl eq_refl)) as (t & K).
  apply (f_equal vy) in K. unfold pt, stray, between, off, vadd, vscale, vsub, P in K. cbn [nth snd vx vy vz] in K. lra.
Qed.
Lemma behind_refuted : ~ (forall argsort_R argsort h vs e shift a b h' e' out, is_argsort_R argsort_R -> is_argsort argsort -> live h (a :: b :: vs) -> h_ends e = [a; b] ->
  (forall u, In u vs -> exists t, pt h u = between (pt h a) (pt h b) t) ->
  embed_vertex_in_edge argsort_R argsort h vs e shift = Ok (h', e', out) ->
  forall u, In u out -> on_segment (pt h a) (pt h b) (pt h u)).
Proof.
  intros H. destruct behind_example as (e' & E).
  assert (L : live (stray behind) [0%nat; 1%nat; 2%nat]) by (intros x K; cbn in K; cbn; lia).
  assert (C : forall u, In u [2%nat] -> exists t, pt (stray behind) u = between (pt (stray behind) 0) (pt (stray behind) 1) t).
  { intros u [<-|[]]. exists (- (1 / 2)). unfold pt, stray, behind, between; cbn [nth snd]. apply vec_ext; unfold vadd, vscale, vsub, P; cbn [vx vy vz]; lra. }
  destruct (H _ _ _ _ whole 1%Z 0%nat 1%nat _ _ _ argsort_R_example_ok argsort_example_ok L eq_refl C E 2%nat (or_introl eq_refl)) as (t & T & K).
  apply (f_equal vx) in K. unfold pt, stray, between, behind, vadd, vscale, vsub, P in K. cbn [nth snd vx vy vz] in K. lra.
Qed.
