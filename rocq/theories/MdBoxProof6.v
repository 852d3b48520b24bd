(** * Lemmas about boxes with fractures: the wire around the box, C101 *)
From Coq Require Import List Arith ZArith Bool Reals Lra Lia Permutation Sorted.
From Verif Require Import Base BaseProof VecBase VecProof GeoModel GeoSpec GeoProof GeoProof2 PolyModel PolySpec PolyProof3 LineModel LineSpec LineProof LineProof2 LineProof3 ShapeModel ShapeSpec ShapeProof DomProof BoxProof VertexModel VertexSpec DiffProof DomainModel DomainSpec DomainProof DomainProof2 DomainProof3 MdBoxModel MdBoxSpec MdBoxProof MdBoxProof2 MdBoxProof3 MdBoxProof4 MdBoxProof5.
Import ListNotations.
Local Open Scope nat_scope.

Lemma cons_inj {A} (x y : A) l l' : x :: l = y :: l' -> x = y /\ l = l'.
Proof. intros Q. injection Q. auto. Qed.
(** ** strictly sorted lists *)
Lemma strict_unique {A} (f : A -> R) (l l' : list A) : StronglySorted (fun x y => (f x < f y)%R) l -> Permutation l' l -> StronglySorted (fun x y => (f x <= f y)%R) l' -> l' = l.
Proof.
  revert l'. induction l as [|x l IH]; intros l' S1 Pm S2; [apply Permutation_sym, Permutation_nil in Pm; exact Pm|].
  apply StronglySorted_inv in S1 as [S1 F1]. destruct l' as [|y l']; [apply Permutation_nil in Pm; discriminate|]. apply StronglySorted_inv in S2 as [S2 F2]. rewrite Forall_forall in F1, F2.
  assert (x = y).
  { assert (Hy : In y (x :: l)) by (apply (Permutation_in _ Pm); left; reflexivity). destruct Hy as [Q|Hy]; [exact Q|]. exfalso.
    assert (Hx : In x (y :: l')) by (apply (Permutation_in _ (Permutation_sym Pm)); left; reflexivity). specialize (F1 y Hy). destruct Hx as [->|Hx]; [lra|]. specialize (F2 x Hx). lra. }
  subst y. f_equal. apply IH; [exact S1|eapply Permutation_cons_inv; exact Pm|exact S2].
Qed.
Fixpoint halves (ts : list R) : list R := match ts with t :: ((t' :: _) as r) => ((t + t') / 2)%R :: halves r | _ => [] end.
Lemma halves_ge t ts : StronglySorted Rlt (t :: ts) -> Forall (fun s => (t < s)%R) (halves (t :: ts)).
Proof.
  revert t. induction ts as [|u ts IH]; intros t S; [constructor|]. apply StronglySorted_inv in S as [S F]. assert (t < u)%R by (apply Forall_inv in F; exact F).
  change (halves (t :: u :: ts)) with (((t + u) / 2)%R :: halves (u :: ts)). constructor; [lra|]. eapply Forall_impl; [|apply IH; exact S]. intros s. cbv beta. lra.
Qed.
Lemma halves_sorted ts : StronglySorted Rlt ts -> StronglySorted Rlt (halves ts).
Proof.
  induction ts as [|t ts IH]; intros S; [constructor|]. destruct ts as [|u ts]; [constructor|]. apply StronglySorted_inv in S as [S F]. assert (t < u)%R by (apply Forall_inv in F; exact F).
  change (halves (t :: u :: ts)) with (((t + u) / 2)%R :: halves (u :: ts)). constructor; [apply IH; exact S|]. eapply Forall_impl; [|apply halves_ge; exact S]. intros s. cbv beta. lra.
Qed.
Lemma halves_range ts : Forall (fun t => (0 <= t)%R) ts -> Forall (fun t => (0 <= t)%R) (halves ts).
Proof.
  induction ts as [|t ts IH]; intros F; [constructor|]. destruct ts as [|u ts]; [constructor|]. change (halves (t :: u :: ts)) with (((t + u) / 2)%R :: halves (u :: ts)).
  assert (0 <= t)%R by (apply Forall_inv in F; exact F). apply Forall_inv_tail in F. assert (0 <= u)%R by (apply Forall_inv in F; exact F). constructor; [lra|apply IH; exact F].
Qed.
Lemma middle_between a b s t : between (between a b s) (between a b t) (1 / 2) = between a b ((s + t) / 2).
Proof. rewrite between_between. f_equal. field. Qed.

(** the positions along a segment of a path that goes from end to end *)
Lemma mid_params a b (mid : list vec) : a <> b -> (forall p, In p mid -> on_segment a b p /\ p <> a /\ p <> b) -> by_distance a mid -> NoDup mid ->
  exists ts, mid = map (between a b) ts /\ StronglySorted Rlt ts /\ Forall (fun t => (0 < t < 1)%R) ts.
Proof.
  intros Nab. assert (L := norm_pos_ne a b Nab). induction mid as [|p mid IH]; intros On By Nd; [exists []; repeat constructor|].
  unfold by_distance in By. apply StronglySorted_inv in By as [By Fb]. apply NoDup_cons_iff in Nd as [Np Nd].
  destruct IH as (ts & -> & So & Fr); [intros q I; apply On; right; exact I|exact By|exact Nd|].
  destruct (On p (or_introl eq_refl)) as ((t & Ht & Q) & Na & Nb).
  assert (t <> 0)%R by (intros ->; apply Na; rewrite Q; unfold between; vring). assert (t <> 1)%R by (intros ->; apply Nb; rewrite Q; unfold between; vring).
  exists (t :: ts). split; [rewrite Q; reflexivity|]. split; [|constructor; [lra|exact Fr]]. constructor; [exact So|]. rewrite Forall_forall in *. intros s I.
  assert (D := Fb (between a b s) (in_map _ _ _ I)). rewrite Q in D. specialize (Fr s I). rewrite !along_norm in D by lra.
  assert (t <= s)%R by nra. destruct (Req_dec t s) as [->|]; [|lra]. exfalso. apply Np. rewrite Q. apply in_map. exact I.
Qed.

(** ** walks *)
Lemma walk_app (l1 l2 : list (shape vec * shape vec)) w : walk w l1 -> walk (last (map snd l1) w) l2 -> walk w (l1 ++ l2).
Proof.
  revert w. induction l1 as [|[e v] l1 IH]; intros w W1 W2; [exact W2|]. destruct W1 as (A & B & C & D & W1). cbn [app walk]. repeat split; auto; try apply A; try apply B. apply IH; [exact W1|].
  cbn [map snd] in W2. destruct l1 as [|x l1]; [exact W2|]. cbn [map] in W2 |- *. replace (last (snd x :: map snd l1) v) with (last (v :: snd x :: map snd l1) w); [exact W2|].
  clear. change (last (v :: snd x :: map snd l1) w) with (last (snd x :: map snd l1) w). revert x. induction l1 as [|y l1 IH]; intros x; [reflexivity|]. exact (IH y).
Qed.
Lemma last_app_map {A} (l1 l2 : list A) w : last (l1 ++ l2) w = last l2 (last l1 w).
Proof.
  revert w. induction l1 as [|x l1 IH]; intros w; [reflexivity|]. destruct l1 as [|y l1].
  - cbn [app last]. destruct l2 as [|z l2]; [reflexivity|]. change (last (x :: z :: l2) w) with (last (z :: l2) w). clear. revert z. induction l2 as [|u l2 IH]; intros z; [reflexivity|]. exact (IH u).
  - exact (IH w).
Qed.
Notation sv := shape_of_vertex.
Notation se := shape_of_edge.
Lemma vertex_shape v : is_vertex (sv v). Proof. split; [reflexivity|discriminate]. Qed.
Lemma edge_between e x y : Permutation (e_ends e) [x; y] -> s_boundary (se e) = [sv x; sv y] \/ s_boundary (se e) = [sv y; sv x].
Proof. intros P. cbn [s_boundary shape_of_edge]. apply Permutation_sym, Permutation_length_2_inv in P as [->| ->]; auto. Qed.

(** ** the edges along a segment *)
Section Along.
  Variables a b : vec.
  Hypothesis Nab : a <> b.
  Notation step_edge := (fun e' (s : vertex * vertex) => Permutation (e_ends e') [fst s; snd s]).
  Lemma path_middles es : forall path ts, Forall2 step_edge es (steps path) -> map v_point path = map (between a b) ts -> map midpoint es = map (between a b) (halves ts).
  Proof.
    induction es as [|e es IH]; intros path ts F Q.
    - destruct path as [|x [|y path]]; cbn in F; inversion F.
      + destruct ts; [reflexivity|discriminate].
      + destruct ts as [|t [|u ts]]; try discriminate. reflexivity.
    - destruct path as [|x [|y path]]; [cbn in F; inversion F..|]. destruct ts as [|t [|u ts]]; try discriminate. cbn [map] in Q. injection Q as Q1 Q2 Q3.
      change (steps (x :: y :: path)) with ((x, y) :: steps (y :: path)) in F. inversion F as [|? ? ? ? P F']; subst. cbn [fst snd] in P.
      change (halves (t :: u :: ts)) with (((t + u) / 2)%R :: halves (u :: ts)). cbn [map]. f_equal.
      + rewrite (midpoint_perm e x y P), Q1, Q2. apply middle_between.
      + apply (IH (y :: path)); [exact F'|]. cbn [map]. congruence.
  Qed.
  Lemma path_walk es : forall x path ts, Forall2 step_edge es (steps (x :: path)) -> map v_point (x :: path) = map (between a b) ts -> StronglySorted Rlt ts ->
    (forall u w, In u (x :: path) -> In w (x :: path) -> v_tag u = v_tag w -> u = w) -> walk (sv x) (combine (map se es) (map sv path)).
  Proof.
    induction es as [|e es IH]; intros x path ts F Q So Tg; [exact Logic.I|]. destruct path as [|y path]; [exact Logic.I|]. destruct ts as [|t [|u ts]]; try discriminate.
    change (steps (x :: y :: path)) with ((x, y) :: steps (y :: path)) in F. inversion F as [|? ? ? ? P F']; subst. cbn [fst snd] in P. cbn [map combine walk].
    cbn [map] in Q. injection Q as Q1 Q2 Q3. apply StronglySorted_inv in So as [So Fo]. assert (t < u)%R by (apply Forall_inv in Fo; exact Fo).
    split; [apply vertex_shape|]. split; [apply vertex_shape|]. split; [|split; [apply edge_between; exact P|]].
    - cbn [sv s_tag]. intros E. assert (x = y) by (apply Tg; [left; reflexivity|right; left; reflexivity|exact E]). subst y. rewrite Q1 in Q2. apply between_inj in Q2; [lra|exact Nab].
    - apply (IH y path (u :: ts)); [exact F'|cbn [map]; congruence|exact So|]. intros v w Iv Iw. apply Tg; right; assumption.
  Qed.
  Lemma middles_strict es ts : map midpoint es = map (between a b) ts -> StronglySorted Rlt ts -> Forall (fun t => (0 <= t)%R) ts ->
    StronglySorted (fun e e' => (norm (vsub (midpoint e) a) < norm (vsub (midpoint e') a))%R) es.
  Proof.
    assert (L := norm_pos_ne a b Nab). revert ts. induction es as [|e es IH]; intros ts Q So Fr; [constructor|]. destruct ts as [|t ts]; [discriminate|]. cbn [map] in Q. apply cons_inj in Q as [Q1 Q2].
    apply StronglySorted_inv in So as [So Fo]. assert (0 <= t)%R by (apply Forall_inv in Fr; exact Fr). apply Forall_inv_tail in Fr. constructor; [apply (IH ts); assumption|].
    rewrite Forall_forall in *. intros e' I. apply (in_map midpoint) in I. rewrite Q2 in I. apply in_map_iff in I as (s & Qs & I). rewrite Q1, <- Qs. specialize (Fo s I). specialize (Fr s I). rewrite !along_norm by lra. nra.
  Qed.
End Along.

Section Sides.
  Variables tol scale : R.
  Variable box : list vec.
  Variable lines : list segment.
  Variable bc : nat -> option Z.
  Variables line internal point : option Z.
  Hypothesis T0 : (0 <= tol <= 1 / 100000000)%R.
  Hypothesis S0 : (0 < scale)%R.
  Hypothesis CN : clear_network box lines tol scale.
  Notation n := (length box).
  Hypothesis big : 2 <= n.
  Variables B C : list vertex.
  Hypothesis MV : meeting_vertices box lines bc point B C.
  Notation T := (B ++ C).
  Notation E := (network_edges box lines bc line internal T).
  Notation spec := (special box lines).
  Let tspec := tool_special box lines bc point B C MV.
  Let ateq := at_eq tol scale box lines T0 CN.

  Lemma end_unique v w w' : spec (v_point v) -> end_of tol T v w -> end_of tol T v w' -> w = w'.
  Proof.
    intros Sv [[I A]|[-> N]] [[I' A']|[-> N']]; [|exfalso; apply (N' w I A)|exfalso; apply (N w' I' A')|reflexivity].
    apply ateq in A, A'; auto. apply (tool_eq tol scale box lines bc point CN B C MV); auto. congruence.
  Qed.
  Lemma edge_walk e es a b : In e E -> e_ends e = [a; b] -> refines tol tol T e es -> exists start finish path,
    end_of tol T a start /\ end_of tol T b finish /\ length path = length es /\ last path start = finish /\
    walk (sv start) (combine (map se es) (map sv path)) /\ (forall u, In u path -> In u (flat_map e_ends E ++ T)) /\
    StronglySorted (fun e e' => (norm (vsub (midpoint e) (v_point a)) < norm (vsub (midpoint e') (v_point a)))%R) es.
  Proof.
    intros I He Rf. destruct (edge_ends tol scale box lines bc line internal CN big B C e I) as (a' & b' & E' & N & _ & _ & _ & Sa & Sb & Nab & Iab & _). rewrite He in E'. injection E' as <- <-.
    destruct (Rf a b He) as [R1 R2]. destruct (touched_or tol B C a b) as [U|U].
    - destruct (R1 U) as (e' & -> & J). exists a, b, [b].
      assert (Ka : end_of tol T a a) by (right; split; [reflexivity|]; intros t It A; apply (U t It), at_touches; auto).
      assert (Kb : end_of tol T b b) by (right; split; [reflexivity|]; intros t It A; apply (U t It), at_touches; auto).
      repeat split; auto; [discriminate|discriminate| | |repeat constructor]; [|intros u [<-|[]]; apply in_or_app; left; apply in_flat_map; exists e; rewrite He; split; [exact I|right; left; reflexivity]]. apply edge_between. destruct J as (_ & _ & P & _). exact P.
    - destruct (R2 U) as (start & mid & finish & (Es & Ef & Nm & Hm & By) & F).
      assert (Pa := end_point_eq tol scale box lines bc point T0 CN B C MV a start Sa Es). assert (Pb := end_point_eq tol scale box lines bc point T0 CN B C MV b finish Sb Ef).
      assert (Hp : exists ts, map v_point (start :: mid ++ [finish]) = map (between (v_point a) (v_point b)) ts /\ StronglySorted Rlt ts /\ Forall (fun t => (0 <= t)%R) ts).
      { destruct (mid_params (v_point a) (v_point b) (map v_point mid) Nab) as (tm & Qm & Sm & Fm).
        - intros p Ip. apply in_map_iff in Ip as (t & <- & It). apply Hm in It as (It & Th & Na & Nb). split; [apply (touch_on tol scale box lines T0 CN) in Th; auto|].
          split; intros Q; [apply Na|apply Nb]; apply ateq; auto.
        - exact By.
        - assert (Hi : forall x, In x mid -> In x T) by (intros x Ix; apply Hm in Ix; tauto). clear - Nm Hi CN MV.
          induction mid as [|x mid IH]; [constructor|]. apply NoDup_cons_iff in Nm as [Nx Nm]. cbn [map]. constructor; [|apply IH; [exact Nm|intros y Iy; apply Hi; right; exact Iy]].
          intros Ix. apply in_map_iff in Ix as (y & Q & Iy). apply Nx. rewrite <- (tool_eq tol scale box lines bc point CN B C MV y x); [exact Iy|apply Hi; right; exact Iy|apply Hi; left; reflexivity|exact Q].
        - exists (0%R :: tm ++ [1%R]). split; [|split].
          + cbn [map]. rewrite !map_app, Qm. cbn [map]. rewrite Pa, Pb. f_equal; [unfold between; vring|]. do 2 f_equal. unfold between. vring.
          + constructor.
            * clear - Sm Fm. induction tm as [|t tm IH]; [repeat constructor|]. apply StronglySorted_inv in Sm as [Sm Fs]. assert (0 < t < 1)%R by (apply Forall_inv in Fm; exact Fm). apply Forall_inv_tail in Fm.
              cbn [app]. constructor; [apply IH; assumption|]. apply Forall_app. split; [exact Fs|]. constructor; [lra|constructor].
            * apply Forall_app. split; [eapply Forall_impl; [|exact Fm]; intros t; cbv beta; lra|]. constructor; [lra|constructor].
          + constructor; [lra|]. apply Forall_app. split; [eapply Forall_impl; [|exact Fm]; intros t; cbv beta; lra|]. constructor; [lra|constructor]. }
      destruct Hp as (ts & Qp & Sp & Fp). assert (F' : Forall2 (fun e' (s : vertex * vertex) => Permutation (e_ends e') [fst s; snd s]) es (steps (start :: mid ++ [finish]))).
      { eapply Forall2_impl; [|exact F]. intros e' s (_ & P & _). exact P. }
      assert (K : forall u, In u (start :: mid ++ [finish]) -> In u (flat_map e_ends E ++ T)).
      { intros u Iu. assert (Ka : forall v w, In v [a; b] -> end_of tol T v w -> In w (flat_map e_ends E ++ T)).
        { intros v w Iv [[Iw _]|[-> _]]; apply in_or_app; [right; exact Iw|left]. apply in_flat_map. exists e. rewrite He. auto. }
        destruct Iu as [<-|Iu]; [apply (Ka a); [left; reflexivity|exact Es]|]. apply in_app_or in Iu as [Iu|[<-|[]]]; [|apply (Ka b); [right; left; reflexivity|exact Ef]].
        apply in_or_app. right. apply Hm in Iu. tauto. }
      exists start, finish, (mid ++ [finish]). split; [exact Es|]. split; [exact Ef|]. split; [|split; [|split; [|split]]].
      + rewrite (Forall2_len _ _ _ F). unfold steps. rewrite combine_length. cbn [tl length]. rewrite Nat.min_r; [reflexivity|lia].
      + rewrite last_app_map. reflexivity.
      + apply (path_walk (v_point a) (v_point b) Nab es start (mid ++ [finish]) ts F' Qp Sp).
        intros u w Iu Iw. apply (vertices_by_tag box lines bc line internal point big B C MV); apply K; assumption.
      + intros u Iu. apply K. right. exact Iu.
      + apply (middles_strict (v_point a) (v_point b) Nab es (halves ts)); [apply (path_middles (v_point a) (v_point b) es (start :: mid ++ [finish]) ts F' Qp)|apply halves_sorted; exact Sp|apply halves_range; exact Fp].
  Qed.
End Sides.

Lemma filter_twice {A} (f g : A -> bool) l : filter f (filter g l) = filter (fun x => g x && f x) l.
Proof. induction l as [|x l IH]; [reflexivity|]. cbn [filter]. destruct (g x); cbn [filter andb]; [destruct (f x); rewrite IH; reflexivity|exact IH]. Qed.
Lemma filter_none {A} (f : A -> bool) l : (forall x, In x l -> f x = false) -> filter f l = [].
Proof. induction l as [|x l IH]; intros H; [reflexivity|]. cbn [filter]. rewrite (H x (or_introl eq_refl)). apply IH. intros y I. apply H. right. exact I. Qed.
Lemma filter_every {A} (f : A -> bool) l : (forall x, In x l -> f x = true) -> filter f l = l.
Proof. induction l as [|x l IH]; intros H; [reflexivity|]. cbn [filter]. rewrite (H x (or_introl eq_refl)). f_equal. apply IH. intros y I. apply H. right. exact I. Qed.
Lemma filter_one {A} (f : A -> bool) i : forall (ess : list (list A)) k es, k <= i -> nth_error ess (i - k) = Some es ->
  (forall j l x, nth_error ess j = Some l -> In x l -> f x = (k + j =? i)) -> filter f (concat ess) = es.
Proof.
  induction ess as [|l ess IH]; intros k es Lk E H; [destruct (i - k); discriminate|]. cbn [concat]. rewrite filter_app. destruct (Nat.eq_dec k i) as [->|N].
  - rewrite Nat.sub_diag in E. injection E as ->. rewrite filter_every by (intros x I; rewrite (H 0 es x eq_refl I), Nat.add_0_r; apply Nat.eqb_refl).
    rewrite filter_none; [apply app_nil_r|]. intros x I. apply in_concat in I as (m & Im & I). apply In_nth_error in Im as (j & Ej). rewrite (H (S j) m x Ej I). apply Nat.eqb_neq. lia.
  - rewrite filter_none by (intros x I; rewrite (H 0 l x eq_refl I); apply Nat.eqb_neq; lia). apply (IH (S k)); [lia| |].
    + replace (i - k) with (S (i - S k)) in E by lia. exact E.
    + intros j m x Ej I. rewrite (H (S j) m x Ej I). f_equal. lia.
Qed.
Lemma nth_ext_error {A} (l l' : list A) : length l = length l' -> (forall i x y, nth_error l i = Some x -> nth_error l' i = Some y -> x = y) -> l = l'.
Proof.
  revert l'. induction l as [|x l IH]; intros [|y l'] L H; try discriminate; [reflexivity|]. f_equal; [apply (H 0); reflexivity|]. apply IH; [simpl in L; lia|]. intros i. apply (H (S i)).
Qed.
Lemma by_distance_edges c es : by_distance c (map midpoint es) -> StronglySorted (fun e e' => (norm (vsub (midpoint e) c) <= norm (vsub (midpoint e') c))%R) es.
Proof.
  unfold by_distance. induction es as [|e es IH]; intros So; [constructor|]. cbn [map] in So. apply StronglySorted_inv in So as [So F]. constructor; [apply IH; exact So|].
  rewrite Forall_forall in *. intros e' I. apply F, in_map. exact I.
Qed.
Lemma pieces_sorted tol T e es a b : e_ends e = [a; b] -> ((forall t, In t T -> ~ touches tol tol a b t) \/ exists t, In t T /\ touches tol tol a b t) -> refines tol tol T e es ->
  forall e', In e' es -> StronglySorted Z.le (map v_tag (e_ends e')).
Proof.
  intros He U Rf e' I. destruct (Rf a b He) as [R1 R2]. destruct U as [U|U].
  - destruct (R1 U) as (e1 & -> & J). destruct I as [<-|[]]. apply J.
  - destruct (R2 U) as (s & m & f & _ & F). destruct (Forall2_front _ _ _ _ F I) as (st & _ & _ & _ & So). exact So.
Qed.
Lemma combine_app {A B} (l1 l2 : list A) (m1 m2 : list B) : length l1 = length m1 -> combine (l1 ++ l2) (m1 ++ m2) = combine l1 m1 ++ combine l2 m2.
Proof. revert m1. induction l1 as [|x l1 IH]; intros [|y m1] L; try discriminate; [reflexivity|]. cbn [app combine]. f_equal. apply IH. simpl in L. lia. Qed.
Lemma snd_combine {A B} (l : list A) (m : list B) : length l = length m -> map snd (combine l m) = m.
Proof. revert m. induction l as [|x l IH]; intros [|y m] L; try discriminate; [reflexivity|]. cbn [combine map snd]. f_equal. apply IH. simpl in L. lia. Qed.
Lemma fst_combine {A B} (l : list A) (m : list B) : length l = length m -> map fst (combine l m) = l.
Proof. revert m. induction l as [|x l IH]; intros [|y m] L; try discriminate; [reflexivity|]. cbn [combine map fst]. f_equal. apply IH. simpl in L. lia. Qed.
Lemma last_map {A B} (f : A -> B) l d : last (map f l) (f d) = f (last l d).
Proof. induction l as [|x l IH]; [reflexivity|]. destruct l as [|y l]; [reflexivity|]. exact IH. Qed.

Section Wire.
  Variable lstsq : vec -> vec -> vec -> R * R.
  Variable argsort_R : list R -> list nat.
  Variable argsort : list Z -> list nat.
  Variable delaunay : list (R * R) -> res (list (nat * nat * nat)).
  Variable hash : nat -> Z -> Z.
  Variables tol scale : R.
  Hypothesis Hsort : is_argsort argsort.
  Hypothesis HsortR : is_argsort_R argsort_R.
  Hypothesis Ls : solves lstsq.
  Hypothesis T0 : (0 <= tol <= 1 / 100000000)%R.
  Hypothesis S0 : (0 < scale)%R.
  Variable fuel : nat.
  Hypothesis Hfuel : 4 <= fuel.
  Variables (nrm : vec) (box : list vec) (lines : list segment) (bc : nat -> option Z).
  Variables area line internal point : Z.
  Hypothesis Hbox : convex_polygon nrm box.
  Hypothesis Hq : convex_q box = Ok true.
  Hypothesis CN : clear_network box lines tol scale.
  Notation n := (length box).
  Hypothesis Hbc : forall i j, i < n -> j < n -> bc i = bc j -> i = j.
  Hypothesis Hline : forall i, i < n -> bc i <> Some line.
  Hypothesis Hlast : forall z, crossing_point lines (side_lines box) z -> ~ on_segment (fst (side_line box (n - 1))) (snd (side_line box (n - 1))) z.
  Notation create := (create_md_box_2D lstsq argsort_R argsort delaunay hash tol scale fuel box (Some area) bc (Some lines) (Some line, Some internal, Some point)).
  Notation edges T := (network_edges box lines bc (Some line) (Some internal) T).
  Notation tag T := (next_tag box lines T).
  Notation corner0 := (corner_at box 0).

  Lemma last_ends : 3 <= n -> side_edge box bc (n - 1) = mk_edge (Z.of_nat (n - 1)) (bc (n - 1)) [corner0; corner_at box (n - 1)] /\ side_line box (n - 1) = (nth 0 box vzero, nth (n - 1) box vzero).
  Proof. intros L. unfold side_edge, side_line, side_from, side_to. replace (S (n - 1) =? n) with true by (symmetry; apply Nat.eqb_eq; lia). split; reflexivity. Qed.
  Lemma early_ends i : S i < n -> side_edge box bc i = mk_edge (Z.of_nat i) (bc i) [corner_at box i; corner_at box (S i)].
  Proof. intros L. unfold side_edge, side_from, side_to. replace (S i =? n) with false by (symmetry; apply Nat.eqb_neq; lia). reflexivity. Qed.

  Section Path.
    Variables B C : list vertex.
    Hypothesis MV : meeting_vertices box lines bc (Some point) B C.
    Notation T := (B ++ C).
    Hypothesis big : 3 <= n.
    Let big2 : 2 <= n. Proof. clear - big. lia. Qed.
    Lemma side_in i : i < n -> In (side_edge box bc i) (edges T).
    Proof. intros L. apply in_or_app. left. apply in_map, in_seq. lia. Qed.
    Lemma last_free t : In t T -> ~ on_segment (nth 0 box vzero) (nth (n - 1) box vzero) (v_point t).
    Proof.
      intros I O. assert (Q := proj2 (last_ends big)). apply in_app_or in I as [I|I].
      - apply (in_map v_point) in I. apply (proj2 (mv_sides _ _ _ _ _ _ MV)) in I. apply (Hlast _ I). rewrite Q. exact O.
      - apply (in_map v_point) in I. apply (proj2 (mv_lines _ _ _ _ _ _ MV)) in I. apply (cn_off _ _ _ _ CN _ (side_line box (n - 1)) I); [unfold side_lines; apply in_map, in_seq; lia|]. rewrite Q. exact O.
    Qed.
    Lemma free_end i w : i = 0 \/ i = n - 1 -> end_of tol T (corner_at box i) w -> w = corner_at box i.
    Proof.
      intros Hi [[I A]|[-> _]]; [|reflexivity]. exfalso. apply (at_eq tol scale box lines T0 CN) in A; [|apply corner_special; lia|apply (tool_special box lines bc (Some point) B C MV); exact I].
      apply (last_free w I). rewrite <- A. cbn [corner_at v_point]. destruct (segment_ends (nth 0 box vzero) (nth (n - 1) box vzero)). destruct Hi as [-> | ->]; assumption.
    Qed.
    Lemma walk_round ess : Forall2 (refines tol tol T) (map (side_edge box bc) (seq 0 n)) ess -> forall k, k <= n - 1 -> exists path,
      length path = length (concat (firstn k ess)) /\ walk (sv corner0) (combine (map se (concat (firstn k ess))) (map sv path)) /\
      (forall u, In u path -> In u (flat_map e_ends (edges T) ++ T)) /\ end_of tol T (corner_at box k) (last path corner0).
    Proof.
      intros F. induction k as [|k IH]; intros Lk.
      - exists []. cbn. repeat split; auto. intros u []. right. split; [reflexivity|]. intros t I A.
        assert (Q : t = corner0) by (apply (free_end 0); [left; reflexivity|left; split; assumption]). subst t.
        apply (last_free _ I). cbn [corner_at v_point]. apply segment_ends.
      - destruct IH as (path & L & W & Im & Ek); [lia|]. assert (Lk' : S k < n) by lia.
        destruct (Forall2_nth _ _ _ F k (side_edge box bc k)) as (es & Hes & Rf).
        { rewrite nth_error_map, (nth_error_nth' _ 0) by (rewrite seq_length; lia). rewrite seq_nth by lia. reflexivity. }
        destruct (edge_walk tol scale box lines bc (Some line) (Some internal) (Some point) T0 CN big2 B C MV (side_edge box bc k) es (corner_at box k) (corner_at box (S k))) as (start & finish & p2 & Es & Ef & L2 & La & W2 & I2 & _).
        { apply side_in. lia. } { rewrite early_ends by exact Lk'. reflexivity. } { exact Rf. }
        assert (start = last path corner0).
        { apply (end_unique tol scale box lines bc (Some point) T0 CN B C MV (corner_at box k)); [apply corner_special; lia|exact Es|exact Ek]. }
        subst start. assert (Q : firstn (S k) ess = firstn k ess ++ [es]).
        { clear - Hes. revert k Hes. induction ess as [|x ess IH]; intros [|k] H; try discriminate; [injection H as ->; reflexivity|]. cbn [nth_error] in H. change (x :: firstn (S k) ess = x :: (firstn k ess ++ [es])). f_equal. apply IH. exact H. }
        exists (path ++ p2). rewrite Q, concat_app. cbn [concat]. rewrite app_nil_r. split; [rewrite !app_length; lia|]. split; [|split].
        + rewrite !map_app, combine_app by (rewrite !map_length; lia). apply walk_app; [exact W|]. rewrite snd_combine by (rewrite !map_length; lia). rewrite last_map. exact W2.
        + intros u I. apply in_app_or in I as [I|I]; auto.
        + rewrite last_app_map, La. exact Ef.
    Qed.
    Lemma closed_walk ess : Forall2 (refines tol tol T) (map (side_edge box bc) (seq 0 n)) ess -> exists path,
      length path = length (concat ess) /\ walk (sv corner0) (combine (map se (concat ess)) (map sv path)) /\
      (forall u, In u path -> In u (flat_map e_ends (edges T) ++ T)) /\ last path corner0 = corner0.
    Proof.
      intros F. destruct (walk_round ess F (n - 1) (le_n _)) as (path & L & W & Im & Ek). apply free_end in Ek; [|right; reflexivity].
      assert (Ln : length ess = n) by (rewrite <- (Forall2_len _ _ _ F), map_length, seq_length; reflexivity).
      destruct (Forall2_nth _ _ _ F (n - 1) (side_edge box bc (n - 1))) as (es & Hes & Rf).
      { rewrite nth_error_map, (nth_error_nth' _ 0) by (rewrite seq_length; lia). rewrite seq_nth by lia. reflexivity. }
      destruct (Rf corner0 (corner_at box (n - 1))) as [R1 _]; [rewrite (proj1 (last_ends big)); reflexivity|].
      destruct R1 as (e' & -> & J).
      { intros t I Th. apply (touch_on tol scale box lines T0 CN) in Th; [exact (last_free t I Th)| |apply (tool_special box lines bc (Some point) B C MV); exact I].
        apply in_or_app. left. cbn [corner_at v_point]. rewrite <- (proj2 (last_ends big)). unfold side_lines. apply in_map, in_seq. lia. }
      assert (Q : ess = firstn (n - 1) ess ++ [[e']]).
      { rewrite <- (firstn_skipn (n - 1) ess) at 1. f_equal. assert (Hs : skipn (n - 1) ess <> []) by (intros Q; apply (f_equal (@length _)) in Q; rewrite skipn_length in Q; simpl in Q; lia).
        assert (Ls' : length (skipn (n - 1) ess) = 1) by (rewrite skipn_length; lia). destruct (skipn (n - 1) ess) as [|x [|y r]] eqn:Es; try discriminate. f_equal.
        assert (Hn : nth_error (firstn (n - 1) ess ++ skipn (n - 1) ess) (n - 1) = Some x) by (rewrite nth_error_app2, firstn_length, Es by (rewrite firstn_length; lia); rewrite Nat.min_l, Nat.sub_diag by lia; reflexivity).
        rewrite firstn_skipn, Hes in Hn. injection Hn as ->. reflexivity. }
      exists (path ++ [corner0]). rewrite Q, concat_app. cbn [concat app]. split; [rewrite !app_length; simpl; lia|]. split; [|split].
      - rewrite !map_app, combine_app by (rewrite !map_length; lia). apply walk_app; [exact W|]. rewrite snd_combine by (rewrite !map_length; lia). rewrite last_map, Ek. cbn [map combine walk].
        split; [apply vertex_shape|]. split; [apply vertex_shape|]. split; [cbn [sv corner_at s_tag v_tag]; lia|]. split; [|exact Logic.I]. apply edge_between. destruct J as (_ & _ & P & _). rewrite P. apply perm_swap.
      - intros u I. apply in_app_or in I as [I|[<-|[]]]; auto. apply in_or_app. left. apply in_flat_map. exists (side_edge box bc (n - 1)). split; [apply side_in; lia|]. rewrite (proj1 (last_ends big)). left. reflexivity.
      - rewrite last_app_map. reflexivity.
    Qed.
  End Path.

  Lemma sides_lemma : exists B C, meeting_vertices box lines bc (Some point) B C /\
    let T := B ++ C in let N := Z.to_nat (tag T) + (n + length lines) * (3 * length T + 1) in
    no_collision hash 0 (tags_from 0 N) -> no_collision hash 1 (tags_from 0 N) ->
    exists D wire o ess e0 v0, create = Ok (D, (wire, o)) /\ orient_immersed_edges allclose_default fuel wire = Ok o /\ incl (immersed wire ++ [wire]) (nth 1 D []) /\
      Forall2 (refines tol tol T) (map (side_edge box bc) (seq 0 n)) ess /\ immersed wire = map se (concat ess) /\
      hd_error (concat ess) = Some e0 /\ hd_error (e_ends e0) = Some v0 /\ s_boundary wire = [sv v0].
  Proof.
    destruct (network_lemma lstsq argsort_R argsort delaunay hash tol scale Hsort HsortR Ls T0 S0 fuel Hfuel nrm box lines bc area line internal point Hbox Hq CN) as (B & C & MV & H).
    exists B, C. split; [exact MV|]. intros T N NC0 NC1. destruct (H NC0 NC1) as (D & wire & o & parts & md & inside & Hc & Ho & (ess & Qe & Fe) & _ & _ & _ & Hin & A). clear H. fold T in Fe.
    assert (big : 3 <= n) by (destruct Hbox; assumption). assert (big2 : 2 <= n) by lia.
    unfold network_edges in Fe. apply Forall2_app_front in Fe as (ess1 & ess2 & -> & F1 & F2).
    assert (L1 : length ess1 = n) by (rewrite <- (Forall2_len _ _ _ F1), map_length, seq_length; reflexivity).
    assert (Side : forall i es, nth_error ess1 i = Some es -> i < n /\ refines tol tol T (side_edge box bc i) es).
    { intros i es Hi. assert (Li : i < n) by (rewrite <- L1; apply nth_error_Some; congruence). split; [exact Li|].
      destruct (Forall2_nth _ _ _ F1 i (side_edge box bc i)) as (es' & Hi' & Rf); [|rewrite Hi in Hi'; injection Hi' as <-; exact Rf].
      rewrite nth_error_map, (nth_error_nth' _ 0) by (rewrite seq_length; lia). rewrite seq_nth by lia. reflexivity. }
    assert (Parts : parts = ess1).
    { destruct (as_parts _ _ _ _ _ _ _ _ _ _ A) as [Lp Hp]. apply nth_ext_error; [lia|]. intros i part es Hpi Hei. destruct (Hp i part Hpi) as [Pm By]. destruct (Side i es Hei) as [Li Rf].
      rewrite Qe, concat_app, filter_app, filter_app, !filter_twice in Pm. rewrite (filter_one _ i ess1 0 es) in Pm; [|lia|rewrite Nat.sub_0_r; exact Hei|].
      - rewrite filter_none, app_nil_r in Pm.
        + destruct (edge_walk tol scale box lines bc (Some line) (Some internal) (Some point) T0 CN big2 B C MV (side_edge box bc i) es (corner_at box (side_from box i)) (corner_at box (side_to box i)) (side_in B C big i Li) eq_refl Rf) as (_ & _ & _ & _ & _ & _ & _ & _ & _ & So).
          apply (strict_unique _ _ _ So Pm). apply by_distance_edges. exact By.
        + intros e I. apply in_concat in I as (l & Il & I). destruct (Forall2_back _ _ _ _ F2 Il) as (f & If & Rf2).
          assert (IE : In f (edges T)) by (apply in_or_app; right; exact If).
          destruct (edge_ends tol scale box lines bc (Some line) (Some internal) CN big2 B C f IE) as (a & b & He & _).
          destruct (piece_facts tol scale box lines bc (Some line) (Some internal) (Some point) T0 CN big2 B C MV f l a b IE He Rf2) as [_ G]. destruct (G e I) as [Ph _].
          unfold fractures in If. apply in_map_iff in If as (kl & <- & _). cbn [fracture_edge e_phys] in Ph. rewrite Ph. apply andb_false_intro2. apply eqb_false. intros Q. exact (Hline i Li (eq_sym Q)).
      - intros j l e Hj I. destruct (Side j l Hj) as [Lj Rfj].
        destruct (piece_facts tol scale box lines bc (Some line) (Some internal) (Some point) T0 CN big2 B C MV (side_edge box bc j) l _ _ (side_in B C big j Lj) eq_refl Rfj) as [_ G]. destruct (G e I) as (Ph & x & y & P & Ox & Oy).
        assert (Ins : inside (midpoint e) = true).
        { apply Hin. destruct (side_bounds box big2 j Lj) as (Lf & Lt & _). apply (polygon_convex nrm box _ _ (midpoint e) (corner_in fuel Hfuel nrm box Hbox _ Lf) (corner_in fuel Hfuel nrm box Hbox _ Lt)). exact (middle_on e x y _ _ P Ox Oy). }
        rewrite Ins, Ph. cbn [andb side_edge e_phys plus]. destruct (Nat.eqb_spec j i) as [->|Nj]; [apply eqb_refl|]. apply eqb_false. intros Q. apply Nj. apply Hbc; assumption. }
    subst parts. destruct (as_wire _ _ _ _ _ _ _ _ _ _ A) as (e0 & v0 & H0 & H1 & Qw). assert (QI : immersed wire = map se (concat ess1)) by (rewrite Qw; apply immersed_edges).
    exists D, wire, o, ess1, e0, v0. split; [exact Hc|]. split; [exact Ho|]. split.
    { rewrite (as_domain _ _ _ _ _ _ _ _ _ _ A). cbn [nth]. intros s I. apply in_app_or in I as [I|I]; apply in_or_app; [left|right; exact I].
      rewrite QI in I. apply in_map_iff in I as (e & <- & I). apply in_map. apply in_concat in I as (part & Ip & I). apply In_nth_error in Ip as (i & Ei).
      destruct (proj2 (as_parts _ _ _ _ _ _ _ _ _ _ A) i part Ei) as [Pm _]. apply (Permutation_in _ Pm) in I. apply filter_In in I. tauto. }
    split; [exact F1|]. split; [exact QI|]. split; [exact H0|]. split; [exact H1|]. rewrite Qw. reflexivity.
  Qed.
  Lemma md_wire_lemma : exists B C, meeting_vertices box lines bc (Some point) B C /\
    let T := B ++ C in let N := Z.to_nat (tag T) + (n + length lines) * (3 * length T + 1) in
    no_collision hash 0 (tags_from 0 N) -> no_collision hash 1 (tags_from 0 N) ->
    exists D wire o ess path, create = Ok (D, (wire, o)) /\ incl (immersed wire ++ [wire]) (nth 1 D []) /\
      Forall2 (refines tol tol T) (map (side_edge box bc) (seq 0 n)) ess /\ immersed wire = map se (concat ess) /\ s_boundary wire = [sv corner0] /\
      length path = length (concat ess) /\ last path corner0 = corner0 /\
      let l := combine (immersed wire) (map sv path) in
      walk (sv corner0) l /\ length o = length l /\
      (forall i e a b, nth_error l i = Some (e, b) -> nth_error (starts (sv corner0) l) i = Some a -> exists s, nth_error o i = Some s /\ leads s e a b).
  Proof.
    destruct sides_lemma as (B & C & MV & H). exists B, C. split; [exact MV|]. intros T N NC0 NC1. destruct (H NC0 NC1) as (D & wire & o & ess1 & e0 & v0 & Hc & Ho & Hinc & F1 & QI & H0 & H1 & Qw). clear H. fold T in F1.
    assert (big : 3 <= n) by (destruct Hbox; assumption). assert (big2 : 2 <= n) by lia.
    assert (L1 : length ess1 = n) by (rewrite <- (Forall2_len _ _ _ F1), map_length, seq_length; reflexivity).
    assert (Side : forall i es, nth_error ess1 i = Some es -> i < n /\ refines tol tol T (side_edge box bc i) es).
    { intros i es Hi. assert (Li : i < n) by (rewrite <- L1; apply nth_error_Some; congruence). split; [exact Li|].
      destruct (Forall2_nth _ _ _ F1 i (side_edge box bc i)) as (es' & Hi' & Rf); [|rewrite Hi in Hi'; injection Hi' as <-; exact Rf].
      rewrite nth_error_map, (nth_error_nth' _ 0) by (rewrite seq_length; lia). rewrite seq_nth by lia. reflexivity. }
    destruct (closed_walk B C MV big ess1 F1) as (path & Lpath & W & Im & La).
    assert (Ll : length (map se (concat ess1)) = length (map sv path)) by (rewrite !map_length; lia).
    exists D, wire, o, ess1, path. split; [exact Hc|]. split; [exact Hinc|].
    split; [exact F1|]. split; [exact QI|].
    destruct (concat ess1) as [|e1 es1] eqn:Qc; [discriminate|]. cbn [hd_error] in H0. injection H0 as ->. destruct path as [|v1 path]; [discriminate|].
    assert (W' := W). cbn [map combine walk] in W'. destruct W' as (_ & _ & Nv & Bd & _).
    assert (Pos : (0 < v_tag v1)%Z).
    { assert (0 <= v_tag v1)%Z; [|cbn [sv corner_at s_tag v_tag] in Nv; lia]. specialize (Im v1 (or_introl eq_refl)). apply in_app_or in Im as [I|I].
      - apply in_flat_map in I as (e & Ie & Iv). destruct (edge_ends tol scale box lines bc (Some line) (Some internal) CN big2 B C e Ie) as (a & b & He & _ & La' & Lb & _ & _ & _ & _ & _ & Pa & Pb & _).
        rewrite He in Iv. destruct Iv as [<-|[<-|[]]]; auto.
      - apply (tool_tag box lines bc (Some point) big2 B C MV) in I. lia. }
    assert (Hd : v0 = corner0).
    { assert (I0 : In e0 (concat ess1)) by (rewrite Qc; left; reflexivity). apply in_concat in I0 as (es & Ies & I0). apply In_nth_error in Ies as (i & Hi). destruct (Side i es Hi) as [Li Rf].
      assert (So := pieces_sorted tol T (side_edge box bc i) es _ _ eq_refl (touched_or tol B C _ _) Rf e0 I0).
      cbn [se s_boundary] in Bd. destruct (e_ends e0) as [|x [|y [|z r]]]; cbn [map] in Bd; try (destruct Bd; discriminate). cbn [hd_error] in H1. injection H1 as <-.
      destruct Bd as [Bd|Bd]; apply cons_inj in Bd as [Bx By].
      - unfold sv in Bx. destruct x as [xt xp xq]. cbn in Bx. injection Bx as -> -> Qp. subst. reflexivity.
      - apply cons_inj in By as [By _]. cbn [map] in So. apply StronglySorted_inv in So as [_ So]. apply Forall_inv in So. apply (f_equal s_tag) in Bx, By. cbn [sv s_tag corner_at v_tag] in Bx, By. lia. }
    subst v0. split; [exact Qw|]. split; [simpl in *; lia|]. split; [exact La|]. cbv zeta. rewrite QI. split; [exact W|].
    destruct fuel as [|fuel']; [lia|].
    destruct (wire_lemma allclose_default fuel' wire (sv corner0) (se e0) (sv v1) (combine (map se es1) (map sv path)) default_refl) as (o' & Eo & Lo & Le & _).
    { rewrite QI. change ((se e0, sv v1) :: combine (map se es1) (map sv path)) with (combine (map se (e0 :: es1)) (map sv (v1 :: path))). symmetry. apply fst_combine. exact Ll. }
    { exact W. } { cbn [sv s_tag corner_at v_tag]. exact Pos. }
    rewrite Ho in Eo. injection Eo as <-. split; [exact Lo|exact Le].
  Qed.
End Wire.
