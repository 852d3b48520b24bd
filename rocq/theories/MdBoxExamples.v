(** * Examples: a square with two fractures, and one with a fracture across its last side, C101 *)
From Coq Require Import List Arith ZArith Bool Reals Lra Lia.
From Verif Require Import Base VecBase VecProof GeoModel GeoSpec GeoExamples VertexExamples PolyModel PolySpec PolyProof PolyProof2 PolyProof3 PolyProof4 PolyProof5 PolyExamples LineModel LineSpec LineProof3 LineExamples MdBoxSpec.
Import ListNotations.
Local Open Scope R_scope.

Definition square : list vec := [P 0 0 0; P 4 0 0; P 4 4 0; P 0 4 0].
(** one fracture crosses the bottom side, the other one crosses the first one *)
Definition cracks : list segment := [(P 2 (-1) 0, P 2 3 0); (P 1 1 0, P 3 1 0)].
(** a fracture crosses the last side *)
Definition left_crack : list segment := [(P (-1) 2 0, P 2 2 0)].
Definition side_tags (i : nat) : option Z := nth_error [2; 3; 4; 5]%Z i.

Lemma square_mean : vmean square = P 2 2 0.
Proof. unfold square. rewrite vec4_mean. unfold P. apply vec_ext; simpl; field. Qed.
Lemma square_plane : planar up square.
Proof.
  split; [intros E; injection E; lra|]. intros p q Ip Iq. unfold square in *.
  destruct Ip as [<-|[<-|[<-|[<-|[]]]]]; destruct Iq as [<-|[<-|[<-|[<-|[]]]]]; unfold up, P, dot; simpl; ring.
Qed.
Lemma square_convex : convex_polygon up square.
Proof.
  split; [simpl; lia|]. split; [exact square_plane|]. intros i j Li Lj D1 D2. simpl in Li, Lj.
  destruct i as [|[|[|[|]]]]; [| | | |lia]; (destruct j as [|[|[|[|]]]]; [| | | |lia]); simpl in D1, D2; try lia;
    unfold corner, square, side, up, P, dot, cross; simpl; lra.
Qed.
Lemma square_recognised : convex_q square = Ok true.
Proof.
  apply (equidistant_convex up square square_plane); [|exact (convex_turns _ _ square_convex)].
  exists (norm (P 2 2 0)). rewrite square_mean. intros p I. unfold norm. f_equal. unfold square in I.
  destruct I as [<-|[<-|[<-|[<-|[]]]]]; unfold dot, P; simpl; field.
Qed.
Lemma side_tags_differ : forall i j, (i < length square)%nat -> (j < length square)%nat -> side_tags i = side_tags j -> i = j.
Proof.
  intros i j Li Lj. simpl in Li, Lj. destruct i as [|[|[|[|]]]]; [| | | |lia]; (destruct j as [|[|[|[|]]]]; [| | | |lia]); cbv; intros Q; try reflexivity; discriminate.
Qed.
Lemma side_tags_line : forall i, (i < length square)%nat -> side_tags i <> Some 10%Z.
Proof. intros i Li. simpl in Li. destruct i as [|[|[|[|]]]]; [| | | |lia]; cbv; discriminate. Qed.

(** ** points with small integer coordinates *)
Definition grid (p : vec) : Prop := exists i j : Z, (-5 <= i <= 5 /\ -5 <= j <= 5)%Z /\ p = P (IZR i) (IZR j) 0.
Lemma grid_near i j : - (1 / 1000) <= IZR i - IZR j <= 1 / 1000 -> i = j.
Proof.
  intros [A B]. assert (IZR i < IZR (j + 1)) by (rewrite plus_IZR; lra). assert (IZR j < IZR (i + 1)) by (rewrite plus_IZR; lra). apply lt_IZR in H, H0. lia.
Qed.
Lemma grid_bound i : (-5 <= i <= 5)%Z -> Rabs (IZR i) <= 5.
Proof. intros [A B]. apply IZR_le in A, B. apply Rabs_le. split; assumption. Qed.
Lemma grid_eq p q : grid p -> grid q -> Rabs (vx p - vx q) <= 1 / 1000 -> Rabs (vy p - vy q) <= 1 / 1000 -> p = q.
Proof.
  intros (i & j & _ & ->) (k & l & _ & ->) X Y. unfold P in *. cbn [vx vy] in X, Y. apply abs_bounds in X, Y. rewrite (grid_near i k), (grid_near j l) by lra. reflexivity.
Qed.
Lemma grid_size p : grid p -> Rabs (vx p) <= 5 /\ Rabs (vy p) <= 5 /\ vz p = 0.
Proof. intros (i & j & [Hi Hj] & ->). unfold P. cbn [vx vy vz]. auto using grid_bound. Qed.
Lemma grid_apart p q : grid p -> grid q -> p <> q -> ~ close tol p q /\ ~ nearly p q /\ ~ within (/ 10000000000) p q.
Proof.
  intros Gp Gq N. destruct (grid_size q Gq) as (X & Y & _). unfold close, nearly, within, tol. split; [|split]; intros (A & B & _); apply N, grid_eq; auto; lra.
Qed.
Lemma grid_box p : grid p -> box p.
Proof. intros G. destruct (grid_size p G) as (X & Y & Z). apply abs_bounds in X, Y. unfold box. lra. Qed.

(** horizontal and vertical lines *)
Lemma norm_x x : norm (P x 0 0) = Rabs x.
Proof. unfold norm, dot, P. cbn [vx vy vz]. replace (x * x + 0 * 0 + 0 * 0) with (Rsqr x) by (unfold Rsqr; ring). apply sqrt_Rsqr_abs. Qed.
Lemma norm_y y : norm (P 0 y 0) = Rabs y.
Proof. unfold norm, dot, P. cbn [vx vy vz]. replace (0 * 0 + y * y + 0 * 0) with (Rsqr y) by (unfold Rsqr; ring). apply sqrt_Rsqr_abs. Qed.
(** numbers between two others, up to the tolerance *)
Lemma between_numbers k a b : a <> b -> (-5 <= k <= 5)%Z -> (-5 <= a <= 5)%Z -> (-5 <= b <= 5)%Z ->
  Rabs (IZR k - IZR a) <= Rabs (IZR b - IZR a) + 1 / 10000000000 * (1 + Rabs (IZR k - IZR a)) ->
  Rabs (IZR k - IZR b) <= Rabs (IZR b - IZR a) + 1 / 10000000000 * (1 + Rabs (IZR k - IZR b)) ->
  exists t, 0 <= t <= 1 /\ IZR k = IZR a + t * (IZR b - IZR a).
Proof.
  intros N Hk Ha Hb H1 H2. rewrite <- !minus_IZR, <- !abs_IZR in H1, H2.
  assert (L : forall x y, (0 <= x <= 10)%Z -> IZR x <= IZR y + 1 / 10000000000 * (1 + IZR x) -> (x <= y)%Z).
  { intros x y [X0 X1] H. apply IZR_le in X1. assert (IZR x < IZR (y + 1)) by (rewrite plus_IZR; lra). apply lt_IZR in H0. lia. }
  apply L in H1; [|lia]. apply L in H2; [|lia].
  assert (D : IZR b - IZR a <> 0) by (rewrite <- minus_IZR; intros Q; apply eq_IZR in Q; lia).
  exists ((IZR k - IZR a) / (IZR b - IZR a)). split; [|field; exact D].
  destruct (Z_lt_le_dec a b) as [Lt|Le].
  - assert (Hk' : (a <= k <= b)%Z) by lia. destruct Hk' as [K1 K2]. apply IZR_le in K1, K2. apply IZR_lt in Lt. split; [apply Rle_mult_inv_pos; lra|]. apply Rmult_le_reg_r with (IZR b - IZR a); [lra|]. unfold Rdiv. rewrite Rmult_assoc, Rinv_l by exact D. lra.
  - assert (Hk' : (b <= k <= a)%Z) by lia. destruct Hk' as [K1 K2]. apply IZR_le in K1, K2. assert (Lt : (b < a)%Z) by lia. apply IZR_lt in Lt.
    replace ((IZR k - IZR a) / (IZR b - IZR a)) with ((IZR a - IZR k) / (IZR a - IZR b)) by (field; lra).
    split; [apply Rle_mult_inv_pos; lra|]. apply Rmult_le_reg_r with (IZR a - IZR b); [lra|]. unfold Rdiv. rewrite Rmult_assoc, Rinv_l by lra. lra.
Qed.
Definition straight (l : segment) : Prop := exists a b c : Z, (a <> b /\ -5 <= a <= 5 /\ -5 <= b <= 5 /\ -5 <= c <= 5)%Z /\
  (l = (P (IZR a) (IZR c) 0, P (IZR b) (IZR c) 0) \/ l = (P (IZR c) (IZR a) 0, P (IZR c) (IZR b) 0)).
Lemma grid_definite p l : grid p -> straight l -> definite tol tol p (fst l) (snd l).
Proof.
  intros (i & j & [Hi Hj] & ->) (a & b & c & (N & Ha & Hb & Hc) & Q) x H.
  assert (G : forall k m, (-5 <= k <= 5)%Z -> (-5 <= m <= 5)%Z -> grid (P (IZR k) (IZR m) 0)) by (intros k m Hk Hm; exists k, m; auto).
  assert (Df : IZR b - IZR a <> 0) by (rewrite <- minus_IZR; intros Z; apply eq_IZR in Z; lia).
  assert (D1 : 1 <= (IZR b - IZR a) * (IZR b - IZR a)) by (rewrite <- minus_IZR, <- mult_IZR; apply IZR_le; nia).
  assert (L : 1 / 4 <= dot (vsub (snd l) (fst l)) (vsub (snd l) (fst l))).
  { destruct Q as [-> | ->]; unfold dot, vsub, P; cbn [fst snd vx vy vz]; nra. }
  assert (K : forall q, grid q -> close tol q (P (IZR i) (IZR j) 0) -> q = P (IZR i) (IZR j) 0).
  { intros q Gq Cl. assert (Gp := G i j Hi Hj). destruct (close_flat _ _ (grid_box _ Gp) Cl) as (X & Y & _). apply grid_eq; auto; apply Rabs_le; lra. }
  assert (Gf : grid (fst l) /\ grid (snd l)) by (destruct Q as [-> | ->]; cbn [fst snd]; auto). destruct Gf as [G1 G2].
  destruct H as [[-> H]|[[-> H]|(-> & H & H1 & H2)]].
  - rewrite (K _ G1 H) in *. split; [reflexivity|]. exists 0. split; [lra|]. unfold between. vring.
  - rewrite (K _ G2 H) in *. split; [reflexivity|]. exists 1. split; [lra|]. unfold between. vring.
  - split; [reflexivity|].
    destruct (near_flat (P (IZR i) (IZR j) 0) (fst l) (snd l) (P (IZR i) (IZR j) 0) (grid_box _ (G i j Hi Hj)) L) as (t & Fl); [right; right; auto|].
    destruct Q as [-> | ->]; cbn [fst snd] in *; destruct Fl as (X & Y & _); unfold between, P in X, Y; cbn [vadd vsub vscale vx vy vz] in X, Y.
    + assert (j = c) by (apply grid_near; lra). subst j.
      replace (vsub (P (IZR i) (IZR c) 0) (P (IZR a) (IZR c) 0)) with (P (IZR i - IZR a) 0 0) in H1 by (unfold P; vring). replace (vsub (P (IZR i) (IZR c) 0) (P (IZR b) (IZR c) 0)) with (P (IZR i - IZR b) 0 0) in H2 by (unfold P; vring).
      replace (vsub (P (IZR b) (IZR c) 0) (P (IZR a) (IZR c) 0)) with (P (IZR b - IZR a) 0 0) in H1, H2 by (unfold P; vring). rewrite !norm_x in H1, H2. unfold tol in *.
      destruct (between_numbers i a b N Hi Ha Hb H1 H2) as (s & Hs & E). exists s. split; [exact Hs|]. unfold between, P. rewrite E. vring.
    + assert (i = c) by (apply grid_near; lra). subst i.
      replace (vsub (P (IZR c) (IZR j) 0) (P (IZR c) (IZR a) 0)) with (P 0 (IZR j - IZR a) 0) in H1 by (unfold P; vring). replace (vsub (P (IZR c) (IZR j) 0) (P (IZR c) (IZR b) 0)) with (P 0 (IZR j - IZR b) 0) in H2 by (unfold P; vring).
      replace (vsub (P (IZR c) (IZR b) 0) (P (IZR c) (IZR a) 0)) with (P 0 (IZR b - IZR a) 0) in H1, H2 by (unfold P; vring). rewrite !norm_y in H1, H2. unfold tol in *.
      destruct (between_numbers j a b N Hj Ha Hb H1 H2) as (s & Hs & E). exists s. split; [exact Hs|]. unfold between, P. rewrite E. vring.
Qed.

(** ** the two networks *)
Lemma square_sides : side_lines square = [(P 0 0 0, P 4 0 0); (P 4 0 0, P 4 4 0); (P 4 4 0, P 0 4 0); (P 0 0 0, P 0 4 0)].
Proof. reflexivity. Qed.
Lemma at_grid i j : (-5 <= i <= 5)%Z -> (-5 <= j <= 5)%Z -> grid (P (IZR i) (IZR j) 0).
Proof. intros Hi Hj. exists i, j. auto. Qed.
Lemma meet_parts l m z : meet l m z -> exists t s, 0 <= t <= 1 /\ 0 <= s <= 1 /\
  (vx z = vx (fst l) + t * (vx (snd l) - vx (fst l)) /\ vy z = vy (fst l) + t * (vy (snd l) - vy (fst l)) /\ vz z = vz (fst l) + t * (vz (snd l) - vz (fst l))) /\
  (vx z = vx (fst m) + s * (vx (snd m) - vx (fst m)) /\ vy z = vy (fst m) + s * (vy (snd m) - vy (fst m)) /\ vz z = vz (fst m) + s * (vz (snd m) - vz (fst m))).
Proof. intros [(t & Ht & Q) (s & Hs & Q')]. exists t, s. split; [exact Ht|]. split; [exact Hs|]. split; [rewrite Q|rewrite Q']; unfold between, vadd, vscale, vsub; cbn [vx vy vz]; repeat split; ring. Qed.
Ltac coords H := apply meet_parts in H; destruct H as (t & s & Ht & Hs & (X & Y & Z) & (X' & Y' & Z')); unfold P in X, Y, Z, X', Y', Z'; cbn [fst snd vx vy vz] in X, Y, Z, X', Y', Z'.
Lemma at_point z i j : vx z = i -> vy z = j -> vz z = 0 -> z = P i j 0.
Proof. intros X Y Z. apply vec_ext; assumption. Qed.
Lemma cracks_sides z : crossing_point cracks (side_lines square) z -> z = P 2 0 0.
Proof.
  rewrite square_sides. intros (l & m & Il & Im & _ & M). destruct Il as [<-|[<-|[]]]; destruct Im as [<-|[<-|[<-|[<-|[]]]]]; coords M; first [exfalso; lra|apply at_point; lra].
Qed.
Lemma cracks_cracks z : crossing_point cracks cracks z -> z = P 2 1 0.
Proof.
  intros (l & m & Il & Im & N & M). destruct Il as [<-|[<-|[]]]; destruct Im as [<-|[<-|[]]]; try (exfalso; apply N; reflexivity); coords M; first [exfalso; lra|apply at_point; lra].
Qed.
Lemma left_sides z : crossing_point left_crack (side_lines square) z -> z = P 0 2 0.
Proof.
  rewrite square_sides. intros (l & m & Il & Im & _ & M). destruct Il as [<-|[]]; destruct Im as [<-|[<-|[<-|[<-|[]]]]]; coords M; first [exfalso; lra|apply at_point; lra].
Qed.
Lemma left_left z : ~ crossing_point left_crack left_crack z.
Proof. intros (l & m & [<-|[]] & [<-|[]] & N & _). apply N. reflexivity. Qed.
Ltac on_grid := first [apply (at_grid 0 0); lia|apply (at_grid 4 0); lia|apply (at_grid 4 4); lia|apply (at_grid 0 4); lia|apply (at_grid 2 (-1)); lia|apply (at_grid 2 3); lia|apply (at_grid 1 1); lia|apply (at_grid 3 1); lia|
  apply (at_grid 2 0); lia|apply (at_grid 2 1); lia|apply (at_grid (-1) 2); lia|apply (at_grid 2 2); lia|apply (at_grid 0 2); lia].
Lemma square_grid p : In p square -> grid p.
Proof. intros [<-|[<-|[<-|[<-|[]]]]]; on_grid. Qed.
Lemma cracks_grid p : special square cracks p -> grid p.
Proof.
  intros [I|[(l & I & Q)|[I|I]]]; [exact (square_grid p I)| |apply cracks_sides in I; subst p; on_grid|apply cracks_cracks in I; subst p; on_grid].
  destruct I as [<-|[<-|[]]]; destruct Q as [-> | ->]; cbn [fst snd]; on_grid.
Qed.
Lemma left_grid p : special square left_crack p -> grid p.
Proof.
  intros [I|[(l & I & Q)|[I|I]]]; [exact (square_grid p I)| |apply left_sides in I; subst p; on_grid|destruct (left_left p I)].
  destruct I as [<-|[]]; destruct Q as [-> | ->]; cbn [fst snd]; on_grid.
Qed.
Lemma square_straight l : In l (side_lines square ++ cracks ++ left_crack) -> straight l.
Proof.
  rewrite square_sides. intros I. simpl in I. destruct I as [<-|[<-|[<-|[<-|[<-|[<-|[<-|[]]]]]]]].
  - exists 0%Z, 4%Z, 0%Z. split; [lia|left; reflexivity].
  - exists 0%Z, 4%Z, 4%Z. split; [lia|right; reflexivity].
  - exists 4%Z, 0%Z, 4%Z. split; [lia|left; reflexivity].
  - exists 0%Z, 4%Z, 0%Z. split; [lia|right; reflexivity].
  - exists (-1)%Z, 3%Z, 2%Z. split; [lia|right; reflexivity].
  - exists 1%Z, 3%Z, 1%Z. split; [lia|left; reflexivity].
  - exists (-1)%Z, 2%Z, 2%Z. split; [lia|left; reflexivity].
Qed.
Lemma not_same l m : (exists k, 1 / 1000 < Rabs (axis_part (fst l) k - axis_part (fst m) k) /\ Rabs (axis_part (fst m) k) <= 10) -> ~ (nearly (fst l) (fst m) /\ nearly (snd l) (snd m)).
Proof. intros (k & K & B) ((X & Y & Z) & _). destruct k as [|[|k]]; cbn [axis_part] in K, B; lra. Qed.
Ltac differ := apply not_same; first
    [exists 0%nat; unfold P; simpl; split; unfold Rabs; repeat destruct (Rcase_abs _); lra | exists 1%nat; unfold P; simpl; split; unfold Rabs; repeat destruct (Rcase_abs _); lra].
Ltac beside := left; apply apart_flat; intros; nums.
Ltac through p a b := right; exists p; apply (cross_flat _ _ _ _ _ a b); [nums|nums|nums|intros E; apply (f_equal vz) in E; unfold P in E; simpl in E; lra|lra|lra|
  unfold between, P; apply vec_ext; simpl; field|unfold between, P; apply vec_ext; simpl; field|intros; nums|intros; nums].
Lemma cracks_clear : clear_network square cracks tol 10000000000.
Proof.
  constructor.
  - unfold square, P. repeat constructor; simpl; intros H; repeat (destruct H as [H|H]; [injection H; lra|]); exact H.
  - intros l [<-|[<-|[]]] Q; unfold P in Q; cbn [fst snd] in Q; injection Q; lra.
  - intros p q Sp Sq N. apply grid_apart; auto using cracks_grid.
  - intros p l Sp I. apply grid_definite; [apply cracks_grid; exact Sp|]. apply square_straight. apply in_app_or in I as [I|I]; apply in_or_app; [left; exact I|right; apply in_or_app; left; exact I].
  - rewrite square_sides. intros l m Il Im. simpl in Im. destruct Il as [<-|[<-|[]]]; destruct Im as [<-|[<-|[<-|[<-|[<-|[<-|[]]]]]]]; try (left; reflexivity); right; (split; [differ|]).
    + through (P 2 0 0) (1 / 4) (1 / 2).
    + beside.
    + beside.
    + beside.
    + through (P 2 1 0) (1 / 2) (1 / 2).
    + beside.
    + beside.
    + beside.
    + beside.
    + through (P 2 1 0) (1 / 2) (1 / 2).
  - rewrite square_sides. intros z l Cz I On. apply cracks_cracks in Cz. subst z. assert (M : meet l l (P 2 1 0)) by (split; exact On).
    destruct I as [<-|[<-|[<-|[<-|[]]]]]; coords M; lra.
Qed.
Lemma left_clear : clear_network square left_crack tol 10000000000.
Proof.
  constructor.
  - exact (cn_box _ _ _ _ cracks_clear).
  - intros l [<-|[]] Q; unfold P in Q; cbn [fst snd] in Q; injection Q; lra.
  - intros p q Sp Sq N. apply grid_apart; auto using left_grid.
  - intros p l Sp I. apply grid_definite; [apply left_grid; exact Sp|]. apply square_straight. apply in_app_or in I as [I|I]; apply in_or_app; [left; exact I|right; apply in_or_app; right; exact I].
  - rewrite square_sides. intros l m Il Im. simpl in Im. destruct Il as [<-|[]]; destruct Im as [<-|[<-|[<-|[<-|[<-|[]]]]]]; try (left; reflexivity); right; (split; [differ|]).
    + beside.
    + beside.
    + beside.
    + through (P 0 2 0) (1 / 3) (1 / 2).
  - intros z l Cz. destruct (left_left z Cz).
Qed.
Lemma cracks_last z : crossing_point cracks (side_lines square) z -> ~ on_segment (fst (side_line square 3)) (snd (side_line square 3)) z.
Proof. intros Cz On. apply cracks_sides in Cz. subst z. assert (M : meet (side_line square 3) (side_line square 3) (P 2 0 0)) by (split; exact On). apply meet_parts in M. destruct M as (t & s & Ht & Hs & (X & Y & Z) & _). unfold P in X, Y, Z. cbn in X, Y, Z. lra. Qed.
Lemma left_last : crossing_point left_crack (side_lines square) (P 0 2 0) /\ on_segment (P 0 0 0) (P 0 4 0) (P 0 2 0) /\ P 0 2 0 <> P 0 0 0 /\ P 0 2 0 <> P 0 4 0.
Proof.
  assert (O : on_segment (P 0 0 0) (P 0 4 0) (P 0 2 0)) by (exists (1 / 2); split; [lra|]; unfold between, P; apply vec_ext; simpl; field).
  split; [|split; [exact O|split; intros Q; injection Q; lra]]. exists (P (-1) 2 0, P 2 2 0), (P 0 0 0, P 0 4 0). rewrite square_sides. split; [left; reflexivity|]. split; [right; right; right; left; reflexivity|].
  split; [intros Q; injection Q; lra|]. split; [|exact O]. exists (1 / 3). split; [lra|]. unfold between, P. apply vec_ext; simpl; field.
Qed.
Lemma cracks_meet : exists z, crossing_point cracks (side_lines square) z.
Proof.
  exists (P 2 0 0), (P 2 (-1) 0, P 2 3 0), (P 0 0 0, P 4 0 0). rewrite square_sides. split; [left; reflexivity|]. split; [left; reflexivity|]. split; [intros Q; injection Q; lra|].
  split; [exists (1 / 4)|exists (1 / 2)]; (split; [lra|]); unfold between, P; apply vec_ext; simpl; field.
Qed.
Lemma tol_small : 0 <= tol <= 1 / 100000000. Proof. unfold tol. lra. Qed.
Lemma scale_positive : 0 < 10000000000. Proof. lra. Qed.
