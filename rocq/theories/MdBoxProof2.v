(** * Lemmas about boxes with fractures: the vertices where they meet and the clean cut, C101 *)
From Coq Require Import List Arith ZArith Bool Reals Lra Lia Permutation Sorted.
From Verif Require Import Base BaseProof VecBase VecProof GeoModel GeoSpec GeoProof GeoProof2 PolyModel LineModel LineSpec LineProof LineProof2 LineProof3 ShapeModel ShapeSpec BoxProof VertexModel VertexSpec DiffProof DomainModel DomainSpec DomainProof DomainProof2 DomainProof3 MdBoxModel MdBoxSpec MdBoxProof.
Import ListNotations.
Local Open Scope nat_scope.

Lemma vec_dec (u v : vec) : {u = v} + {u <> v}.
Proof. decide equality; apply Req_EM_T. Qed.
Lemma flat_map_split {A B} (f : A -> list B) l pre x post : flat_map f l = pre ++ x :: post ->
  exists l1 a l2 pre', l = l1 ++ a :: l2 /\ pre = flat_map f l1 ++ pre' /\ In x (f a).
Proof.
  revert pre. induction l as [|a l IH]; intros pre E; [destruct pre; discriminate|]. cbn [flat_map] in E. apply app_eq_app in E as (m & [[E1 E2]|[E1 E2]]).
  - destruct m as [|y m].
    + cbn [app] in E2. symmetry in E2. destruct (IH [] E2) as (l1 & b & l2 & pre' & -> & Q & I). exists (a :: l1), b, l2, pre'. split; [reflexivity|]. split; [|exact I].
      cbn [flat_map]. rewrite <- app_assoc, <- Q, app_nil_r. rewrite app_nil_r in E1. auto.
    + cbn [app] in E2. injection E2 as <- _. exists [], a, l, pre. split; [reflexivity|]. split; [reflexivity|]. rewrite E1. apply in_or_app. right. left. reflexivity.
  - destruct (IH m E2) as (l1 & b & l2 & pre' & -> & -> & I). exists (a :: l1), b, l2, pre'. split; [reflexivity|]. split; [|exact I]. rewrite E1. cbn [flat_map]. rewrite app_assoc. reflexivity.
Qed.
Lemma seq_split i n l1 l2 : seq 0 n = l1 ++ i :: l2 -> i < n /\ forall j, In j l1 <-> j < i.
Proof.
  intros E. assert (G : forall n k l1 l2, seq k n = l1 ++ i :: l2 -> i < k + n /\ forall j, In j l1 <-> k <= j < i).
  { clear. induction n as [|n IH]; intros k l1 l2 E; [destruct l1; discriminate|]. cbn [seq] in E. destruct l1 as [|x l1]; cbn [app] in E; injection E as Ex E.
    - subst k. split; [lia|]. intros j. split; [intros []|lia].
    - destruct (IH _ _ _ E) as [L F]. split; [lia|]. intros j. simpl. rewrite F. subst x. split; [intros [<-|H]; [|lia]|lia]. split; [lia|].
      enough (In i (seq (S k) n)) by (apply in_seq in H; lia). rewrite E. apply in_or_app. right. left. reflexivity. }
  destruct (G _ _ _ _ E) as [L F]. split; [exact L|]. intros j. rewrite F. lia.
Qed.

(** ** vertices with consecutive tags *)
Lemma numbered_length tag l : length (numbered tag l) = length l.
Proof. unfold numbered. rewrite map_length, combine_length, seq_length. lia. Qed.
Lemma numbered_gen k tag (l : list (option Z * vec)) : let f := map (fun ip : nat * (option Z * vec) => mk_vertex (tag + Z.of_nat (fst ip)) (fst (snd ip)) (snd (snd ip))) (combine (seq k (length l)) l) in
  map v_tag f = map (fun i => (tag + Z.of_nat i)%Z) (seq k (length l)) /\ map v_point f = map snd l /\ map v_phys f = map fst l.
Proof. revert k. induction l as [|x l IH]; intros k; [repeat split|]. destruct (IH (S k)) as (A & B & C). cbn [length seq combine map fst snd v_tag v_point v_phys] in *. rewrite A, B, C. repeat split. Qed.
Lemma numbered_tags tag l : map v_tag (numbered tag l) = tags_from tag (length l).
Proof. exact (proj1 (numbered_gen 0 tag l)). Qed.
Lemma numbered_points tag l : map v_point (numbered tag l) = map snd l.
Proof. exact (proj1 (proj2 (numbered_gen 0 tag l))). Qed.
Lemma numbered_In tag l v : In v (numbered tag l) -> In (v_phys v, v_point v) l.
Proof. unfold numbered. intros I. apply in_map_iff in I as ((i & x) & <- & I). apply in_combine_r in I. cbn [fst snd v_phys v_point]. destruct x. exact I. Qed.
Lemma tags_app t a b : tags_from t (a + b) = tags_from t a ++ tags_from (t + Z.of_nat a) b.
Proof.
  unfold tags_from. rewrite seq_app, map_app. f_equal. cbn [plus]. replace (seq a b) with (map (fun i => a + i) (seq 0 b)).
  - rewrite map_map. apply map_ext. intros i. lia.
  - clear. revert a. induction b as [|b IH]; intros a; [reflexivity|]. cbn [seq map]. f_equal; [lia|]. rewrite <- seq_shift, map_map, <- (IH (S a)). apply map_ext. intros i. lia.
Qed.
Lemma tags_In t k z : In z (tags_from t k) <-> (t <= z < t + Z.of_nat k)%Z.
Proof. split; [|apply in_tags_from]. unfold tags_from. intros I. apply in_map_iff in I as (i & <- & I). apply in_seq in I. lia. Qed.

Section Network.
  Variable lstsq : vec -> vec -> vec -> R * R.
  Variables tol scale : R.
  Variable box : list vec.
  Variable lines : list segment.
  Variable bc : nat -> option Z.
  Hypothesis Ls : solves lstsq.
  Hypothesis T0 : (0 <= tol <= 1 / 100000000)%R.
  Hypothesis S0 : (0 < scale)%R.
  Hypothesis CN : clear_network box lines tol scale.
  Notation n := (length box).
  Notation spec := (special box lines).
  Notation sides := (side_lines box).
  Notation pli p l := (point_line_intersection tol p (fst l) (snd l) tol).
  Notation on l p := (on_segment (fst l) (snd l) p).

  Lemma special_side z : crossing_point lines sides z -> spec z. Proof. unfold special. tauto. Qed.
  Lemma special_line z : crossing_point lines lines z -> spec z. Proof. unfold special. tauto. Qed.
  Lemma special_eq p q : spec p -> spec q -> (close tol p q \/ nearly p q \/ within (/ scale) p q) -> p = q.
  Proof. intros Sp Sq H. destruct (vec_dec p q) as [E|N]; [exact E|]. destruct (cn_apart _ _ _ _ CN p q Sp Sq N) as (A & B & C). tauto. Qed.
  Lemma special_rounded p q : spec p -> spec q -> rounded scale p = rounded scale q -> p = q.
  Proof. intros Sp Sq H. apply special_eq; auto. right. right. apply rounded_within; assumption. Qed.
  Lemma pli_sound p l q : spec p -> In l (sides ++ lines) -> pli p l = Some q -> q = p /\ on l p.
  Proof. intros Sp I H. apply segment_sound in H; [|lra]. exact (cn_definite _ _ _ _ CN p l Sp I q H). Qed.
  Lemma pli_complete p l : spec p -> In l (sides ++ lines) -> on l p -> pli p l = Some p.
  Proof. intros Sp I H. destruct (segment_found tol tol p (fst l) (snd l) (proj1 T0) H) as (q & E). rewrite E. f_equal. exact (proj1 (pli_sound p l q Sp I E)). Qed.

  (** *** intersections *)
  Lemma boundary_points : exists pts, lines_lines_points lstsq tol tol scale lines sides tol = Ok pts /\ NoDup pts /\ forall z, In z pts <-> crossing_point lines sides z.
  Proof.
    destruct (lines_lines_unique lstsq tol tol tol scale Ls T0 (proj1 T0) (proj1 T0) lines sides) as (pts & E & N & _ & _ & F).
    - intros l m L M. apply (cn_clear _ _ _ _ CN l m L). apply in_or_app. left. exact M.
    - exact S0.
    - exists pts. split; [exact E|]. split; [exact N|]. apply F. intros y z Y Z W. apply special_eq; [apply special_side; exact Y|apply special_side; exact Z|auto].
  Qed.
  Lemma fracture_points : exists pts, lines_lines_points lstsq tol tol scale lines lines tol = Ok pts /\ NoDup pts /\ forall z, In z pts <-> crossing_point lines lines z.
  Proof.
    destruct (lines_lines_unique lstsq tol tol tol scale Ls T0 (proj1 T0) (proj1 T0) lines lines) as (pts & E & N & _ & _ & F).
    - intros l m L M. apply (cn_clear _ _ _ _ CN l m L). apply in_or_app. right. exact M.
    - exact S0.
    - exists pts. split; [exact E|]. split; [exact N|]. apply F. intros y z Y Z W. apply special_eq; [apply special_line; exact Y|apply special_line; exact Z|auto].
  Qed.

  (** *** vertices on the sides *)
  Notation side_pairs := (combine (map (side_edge box bc) (seq 0 n)) sides).
  Lemma pairs_map : side_pairs = map (fun i => (side_edge box bc i, side_line box i)) (seq 0 n).
  Proof. unfold side_lines. generalize (seq 0 n). induction l as [|i l IH]; [reflexivity|]. cbn [map combine]. f_equal. exact IH. Qed.
  Lemma side_In i : i < n -> In (side_line box i) (sides ++ lines).
  Proof. intros H. apply in_or_app. left. apply in_map. apply in_seq. lia. Qed.
  Lemma found_In pts l p : (forall z, In z pts -> spec z) -> In l (sides ++ lines) -> (In p (fst (points_line_intersection tol pts (fst l) (snd l) tol)) <-> In p pts /\ on l p).
  Proof.
    intros Sp I. unfold points_line_intersection. cbn [fst]. rewrite in_flat_map. split.
    - intros (o & O & K). apply in_map_iff in O as (q & <- & Q). destruct (pli q l) as [x|] eqn:E; [|destruct K]. destruct K as [<-|[]].
      destruct (pli_sound q l x (Sp q Q) I E) as [-> H]. auto.
    - intros [P H]. exists (Some p). split; [|left; reflexivity]. apply in_map_iff. exists p. split; [|exact P]. apply pli_complete; auto.
  Qed.
  Lemma raw_In pts x : (forall z, In z pts -> spec z) ->
    (In x (raw_vertices tol (map (side_edge box bc) (seq 0 n)) sides pts) <-> exists i, i < n /\ fst x = bc i /\ In (snd x) pts /\ on (side_line box i) (snd x)).
  Proof.
    intros Sp. unfold raw_vertices. rewrite pairs_map, in_flat_map. split.
    - intros (el & I & J). apply in_map_iff in I as (i & <- & I). apply in_seq in I. apply in_map_iff in J as (p & <- & J). cbn [fst snd] in *. apply found_In in J as [J1 J2]; [|exact Sp|apply side_In; lia].
      exists i. cbn [side_edge e_phys]. repeat split; auto. lia.
    - intros (i & L & F & P & O). exists (side_edge box bc i, side_line box i). split; [apply in_map_iff; exists i; split; [reflexivity|apply in_seq; lia]|].
      apply in_map_iff. exists (snd x). cbn [fst snd side_edge e_phys]. split; [destruct x; cbn [fst snd] in *; congruence|]. apply found_In; auto. apply side_In. exact L.
  Qed.

  Lemma vertices_there point : exists pts ptsf, lines_lines_points lstsq tol tol scale lines sides tol = Ok pts /\ lines_lines_points lstsq tol tol scale lines lines tol = Ok ptsf /\
    let kept := kept_vertices scale (raw_vertices tol (map (side_edge box bc) (seq 0 n)) sides pts) in
    let B := numbered (Z.of_nat n + 1) kept in
    let C := numbered (Z.of_nat n + 1 + Z.of_nat (length kept)) (map (fun p => (point, p)) ptsf) in
    meeting_vertices box lines bc point B C.
  Proof.
    destruct boundary_points as (pts & E & N & G). destruct fracture_points as (ptsf & Ef & Nf & Gf). exists pts, ptsf. split; [exact E|]. split; [exact Ef|].
    set (raw := raw_vertices _ _ _ _). intros kept B C.
    assert (Sp : forall z, In z pts -> spec z) by (intros z I; apply special_side, G, I).
    assert (Hraw : forall x, In x raw -> spec (snd x)) by (intros x I; apply raw_In in I as (i & _ & _ & I & _); auto).
    assert (Hin : forall x, In x kept -> In x raw) by (intros x I; apply kept_In in I as (pre & post & -> & _); apply in_or_app; right; left; reflexivity).
    constructor.
    - unfold B, C. rewrite map_app, app_length, !numbered_length, map_length, !numbered_tags, tags_app, map_length. reflexivity.
    - unfold B. rewrite numbered_points. split.
      + pose proof (kept_nodup scale raw) as K. fold kept in K. rewrite <- (map_map snd (rounded scale)) in K. apply NoDup_map_inv in K. exact K.
      + intros p. rewrite <- G. split.
        * intros I. apply in_map_iff in I as (x & <- & I). apply Hin, raw_In in I as (i & _ & _ & I & _); auto.
        * intros I. assert (K : crossing_point lines sides p) by (apply G; exact I). destruct K as (l & m & L & M & D & Me). unfold side_lines in M. apply in_map_iff in M as (i & <- & Hi). apply in_seq in Hi.
          assert (X : In (bc i, p) raw) by (apply raw_In; [exact Sp|]; exists i; cbn [fst snd]; repeat split; [lia|exact I|exact (proj2 Me)]).
          destruct (kept_covers scale raw _ X) as (y & Y & Q). cbn [snd] in Q. apply special_rounded in Q; [|apply Hraw, Hin, Y|apply Sp, I]. subst p. apply in_map. exact Y.
    - unfold C. rewrite numbered_points, map_map. cbn [snd]. rewrite map_id. split; [exact Nf|exact Gf].
    - intros v I. apply numbered_In, kept_In in I as (pre & post & Q & F). unfold raw, raw_vertices in Q. rewrite pairs_map in Q.
      apply flat_map_split in Q as (l1 & el & l2 & pre' & Q & -> & I). assert (Q' := Q). apply map_eq_app in Q as (s1 & s2 & Qs & Q1 & Q2). symmetry in Q2. apply map_eq_cons in Q2 || (destruct s2 as [|i s2]; [discriminate|]).
      cbn [map] in Q2. injection Q2 as Q2 Q3. destruct (seq_split i n s1 s2 Qs) as [Li Fi]. subst el.
      apply in_map_iff in I as (p & Qp & I). cbn [fst snd side_edge e_phys] in Qp, I. injection Qp as Qp1 Qp2. apply found_In in I as [I1 I2]; [|exact Sp|apply side_In; exact Li].
      exists i. subst p. repeat split; auto. intros j Lj On. apply (F (bc j, v_point v)); [|reflexivity]. apply in_or_app. left. apply in_flat_map. exists (side_edge box bc j, side_line box j). split.
      + rewrite <- Q1. apply in_map_iff. exists j. split; [reflexivity|]. apply Fi. exact Lj.
      + apply in_map_iff. exists (v_point v). split; [reflexivity|]. cbn [fst snd]. apply found_In; auto. apply side_In. lia.
    - intros v I. apply numbered_In in I. apply in_map_iff in I as (p & Q & _). congruence.
  Qed.
End Network.
