(** * Concrete domains *)
From Coq Require Import List Arith ZArith Bool Reals Lra Lia Permutation Sorted.
From Verif Require Import Base BaseProof VecBase VecProof GeoModel GeoProof GeoProof2 GeoExamples VertexModel ShapeSpec ShapeExamples VertexSpec VertexExamples DomainModel DomainSpec DomainProof DomainProof2 DomainProof3.
Import ListNotations.

(** Points on the first axis, at distances of at least one *)
Definition at_x (i : Z) : vec := P (IZR i) 0 0.
Lemma far_Z i j : i <> j -> (1 <= Rabs (IZR i - IZR j))%R.
Proof. intros N. rewrite <- minus_IZR, <- abs_IZR. apply IZR_le. lia. Qed.
Lemma size_Z j : (0 <= j <= 10)%Z -> (0 <= Rabs (IZR j) <= 10)%R.
Proof. intros B. rewrite <- abs_IZR. split; apply IZR_le; lia. Qed.
Lemma close_x i j : (0 <= j <= 10)%Z -> allclose g (at_x i) (at_x j) = (i =? j)%Z.
Proof.
  intros B. destruct (Z.eqb_spec i j) as [->|N]; [apply allclose_refl; unfold g; lra|]. apply far_x. pose proof (far_Z i j N). pose proof (size_Z j B). unfold g. lra.
Qed.
Lemma default_x i j : (0 <= j <= 10)%Z -> allclose_default (at_x i) (at_x j) = (i =? j)%Z.
Proof.
  intros B. destruct (Z.eqb_spec i j) as [->|N]; [apply default_refl|]. apply far_default. pose proof (far_Z i j N). pose proof (size_Z j B). lra.
Qed.
Lemma dist_x i j : norm (vsub (at_x i) (at_x j)) = IZR (Z.abs (i - j)).
Proof. replace (vsub (at_x i) (at_x j)) with (P (IZR i - IZR j) 0 0) by (unfold at_x, P; apply vec_ext; vec; ring). rewrite norm_x by reflexivity. rewrite <- minus_IZR, <- abs_IZR. reflexivity. Qed.
Definition on_axis (tag i : Z) : vertex := mk_vertex tag None (at_x i).
Definition hash_id (d : nat) (t : Z) : Z := t.
Lemma hash_id_ok d tags : no_collision hash_id d tags.
Proof. intros s t _ _ Q. exact Q. Qed.

(** ** a vertex shared by two edges gives way to a tool *)
Definition s0 := on_axis 0 0. Definition s1 := on_axis 1 1. Definition s2 := on_axis 2 2.
Definition bend : domain1 := mk_domain [s0; s1; s2] [mk_edge 5 None [s0; s1]; mk_edge 6 None [s1; s2]].
Definition stick : domain1 := mk_domain [s0; s1] [mk_edge 5 None [s0; s1]].
Definition pin : vertex := on_axis 10 1.
Definition pins : domain1 := mk_domain [pin] [].
Lemma include_bend : include_tool g (d_vertices bend) (graph_of bend) pin =
  Ok (mk_digraph [(0, 5%Z); (1, 0%Z); (0, 6%Z); (1, 2%Z); (1, 10%Z)] [((0, 5%Z), (1, 0%Z)); ((0, 6%Z), (1, 2%Z)); ((0, 5%Z), (1, 10%Z))]).
Proof.
  unfold include_tool, same_geometry, bend, pin, s0, s1, s2, on_axis. cbn [d_vertices filter map v_point v_tag]. rewrite !close_x by lia. reflexivity.
Qed.
Lemma bend_union : exists D, domain_union hash_id g argsort_example bend pins = Ok D /\ map (fun e => (e_tag e, map v_tag (e_ends e))) (d_edges D) = [(5%Z, [0%Z; 10%Z]); (6%Z, [2%Z])].
Proof.
  unfold domain_union. change (d_vertices pins) with [pin]. cbn [foldM]. rewrite include_bend. eexists. split; reflexivity.
Qed.
Lemma include_stick : include_tool g (d_vertices stick) (graph_of stick) pin =
  Ok (mk_digraph [(0, 5%Z); (1, 0%Z); (1, 10%Z)] [((0, 5%Z), (1, 0%Z)); ((0, 5%Z), (1, 10%Z))]).
Proof.
  unfold include_tool, same_geometry, stick, pin, s0, s1, on_axis. cbn [d_vertices filter map v_point v_tag]. rewrite !close_x by lia. reflexivity.
Qed.
Lemma stick_union : domain_union hash_id g argsort_example stick pins = Ok (mk_domain [s0; pin] [mk_edge 5 None [s0; pin]]).
Proof. unfold domain_union. change (d_vertices pins) with [pin]. cbn [foldM]. rewrite include_stick. reflexivity. Qed.
Ltac ends := repeat match goal with H : _ \/ _ |- _ => destruct H | H : False |- _ => destruct H | H : In _ (_ :: _) |- _ => destruct H | H : In _ [] |- _ => destruct H end.
Lemma pins_way c0 v t : d_vertices c0 = [s0; s1; s2] \/ d_vertices c0 = [s0; s1] -> gives_way g c0 pins v t -> v = s1 /\ t = pin.
Proof.
  intros C (Iv & It & A & N). cbn [d_vertices pins] in It. destruct It as [<-|[]]. split; [|reflexivity]. unfold at_tool, pin in A.
  assert (I : In v [s0; s1; s2]) by (destruct C as [Q|Q]; rewrite Q in Iv; [exact Iv|simpl in *; tauto]).
  ends; subst v; unfold s0, s1, s2, on_axis in *; cbn [v_point] in A; rewrite close_x in A by lia; try discriminate; reflexivity.
Qed.
Lemma way_pin c0 : In s1 (d_vertices c0) -> gives_way g c0 pins s1 pin.
Proof. intros I. split; [exact I|]. split; [left; reflexivity|]. split; [|discriminate]. unfold at_tool, s1, pin, on_axis. cbn [v_point]. rewrite close_x by lia. reflexivity. Qed.
Lemma joinable_pins c0 : (c0 = bend \/ c0 = stick) -> joinable g c0 pins.
Proof.
  intros C. assert (Cv : d_vertices c0 = [s0; s1; s2] \/ d_vertices c0 = [s0; s1]) by (destruct C as [-> | ->]; auto). constructor.
  - destruct C as [-> | ->]; cbn; repeat constructor; simpl; intuition discriminate.
  - intros e e' _ [].
  - destruct C as [-> | ->]; cbn; repeat constructor; simpl; intuition discriminate.
  - cbn. repeat constructor. intros [].
  - intros x y Ix Iy Q. destruct C as [-> | ->]; simpl in Ix, Iy; ends; subst; cbn in Q; try discriminate; reflexivity.
  - intros e I. destruct C as [-> | ->]; simpl in I; ends; subst; eexists _, _; (split; [reflexivity|]); simpl; auto.
  - intros v t t' W W'. apply pins_way in W as [_ ->]; auto. apply pins_way in W' as [_ ->]; auto.
  - intros v t t' W I. apply pins_way in W as [-> _]; auto. simpl in I. destruct I as [<-|[]]. discriminate.
  - intros v t W. apply pins_way in W as [-> _]; auto. exists (mk_edge 5 None [s0; s1]). destruct C as [-> | ->]; simpl; auto.
Qed.
Lemma stick_meets : joinable g stick pins /\ one_edge g stick pins /\ no_collapse g stick pins /\ gives_way g stick pins s1 pin.
Proof.
  split; [apply joinable_pins; auto|]. split; [|split; [|apply way_pin; simpl; auto]].
  - intros v t e e' _ I I' _ _. simpl in I, I'. ends; subst; reflexivity.
  - intros e a b a' b' I Q Sa Sb. simpl in I. ends. subst e. injection Q as <- <-. destruct Sb as [W|[_ N]]; [|destruct (N pin); apply way_pin; simpl; auto].
    apply pins_way in W as [_ ->]; auto. destruct Sa as [W|[-> _]]; [|discriminate]. apply pins_way in W as [W _]; auto. discriminate.
Qed.
Lemma bend_refutes : exists c0 c1 D e, joinable g c0 c1 /\ no_collapse g c0 c1 /\ domain_union hash_id g argsort_example c0 c1 = Ok D /\ In e (d_edges D) /\ length (e_ends e) < 2.
Proof.
  destruct bend_union as (D & ED & M). exists bend, pins, D.
  assert (X : exists e, In e (d_edges D) /\ length (e_ends e) < 2).
  { destruct (d_edges D) as [|e1 [|e2 r]]; try discriminate. exists e2. split; [simpl; auto|]. injection M as _ _ _ Q _. apply (f_equal (@length Z)) in Q. rewrite map_length in Q. rewrite Q. simpl. lia. }
  destruct X as (e & Ie & Le). exists e. split; [apply joinable_pins; auto|]. split; [|split; [exact ED|split; assumption]].
  intros e' a b a' b' I Q Sa Sb.
  assert (K : forall v w, stands_for g bend pins v w -> (v = s1 /\ w = pin) \/ (v <> s1 /\ w = v)).
  { intros v w [W|[-> N]]; [left; apply pins_way in W; auto|right]. split; [|reflexivity]. intros ->. apply (N pin). apply way_pin. simpl. auto. }
  destruct (K _ _ Sa) as [[-> ->]|[N1 ->]], (K _ _ Sb) as [[-> ->]|[N2 ->]]; simpl in I; ends; subst e'; injection Q; intros; subst; try discriminate; congruence.
Qed.

(** ** two edges with a common end, cut by a tool at this end and two inner tools *)
Definition pa := on_axis 1 0. Definition pb := on_axis 2 3. Definition pc := on_axis 4 6.
Definition u1 := on_axis 10 1. Definition u2 := on_axis 11 2. Definition u3 := on_axis 12 3.
Definition road : list edge := [mk_edge 3 (Some 7%Z) [pa; pb]; mk_edge 5 None [pb; pc]].
Definition posts : list vertex := [u3; u2; u1].
Ltac axis := unfold at_tool, pa, pb, pc, u1, u2, u3, on_axis in *; cbn [v_point v_tag] in *; rewrite ?close_x in * by lia.
Lemma road_clean : clean_cut g g road posts 100.
Proof.
  constructor.
  - intros e I. simpl in I. ends; subst e; eexists _, _; (split; [reflexivity|]); cbn; lia.
  - split; [cbn; repeat constructor; simpl; intuition discriminate|]. intros e I. simpl in I. ends; subst e; cbn; lia.
  - split; [cbn; repeat constructor; simpl; intuition discriminate|]. intros e I. simpl in I. ends; subst e; cbn; lia.
  - intros x y Ix Iy Q. simpl in Ix, Iy. ends; subst; cbn in Q; try discriminate; reflexivity.
  - intros t t' I I' A. simpl in I, I'. ends; subst; axis; cbn in A; try discriminate; reflexivity.
  - intros e v t t' Ie Iv I I' A A'. simpl in Ie, I, I'. ends; subst; simpl in Iv; ends; subst; axis; cbn in A, A'; try discriminate; reflexivity.
  - intros e v t Ie Iv I A. simpl in Ie, I. ends; subst; simpl in Iv; ends; subst; axis; cbn in A; try discriminate; reflexivity.
  - intros e a b t Ie Q I [A B]. simpl in Ie, I. ends; subst; injection Q as <- <-; axis; cbn in A, B; discriminate.
  - intros e a b t q Ie Q I Pq. simpl in Ie, I. ends; subst; injection Q as <- <-; apply pli_cases in Pq; axis; destruct Pq as [[A ->]|[(A & B & ->)|(A & B & ->)]]; cbn in A; try discriminate; try (cbn in B; discriminate);
      rewrite ?default_x by lia; cbn; split; auto; discriminate.
  - intros e a b t Ie Q I _ A B. simpl in Ie, I. ends; subst; injection Q as <- <-; axis; rewrite !dist_x; cbn in *; try congruence; lra.
Qed.
Lemma posts_touch : touches g g pa pb u1 /\ touches g g pa pb u2 /\ touches g g pa pb u3 /\ touches g g pb pc u3.
Proof.
  assert (G : forall i, (0 < i < 3)%Z -> touches g g pa pb (on_axis 0 i)).
  { intros i B. exists (at_x i). change (point_line_intersection g (at_x i) (at_x 0) (at_x 3) g = Some (at_x i)). apply found_self; [unfold g; lra|apply on_x; [lra|split; apply IZR_le; lia]| |]; rewrite close_x by lia; apply Z.eqb_neq; lia. }
  split; [destruct (G 1%Z ltac:(lia)) as (q & Q); exists q; exact Q|]. split; [destruct (G 2%Z ltac:(lia)) as (q & Q); exists q; exact Q|].
  split; apply at_touches; [right|left]; axis; reflexivity.
Qed.
Lemma beyond i : (0 <= i < 3)%Z -> point_line_intersection g (at_x i) (at_x 3) (at_x 6) g = None.
Proof.
  intros B. unfold point_line_intersection. rewrite !close_x by lia. rewrite !(proj2 (Z.eqb_neq _ _)) by lia. destruct (point_line_incidence _ _ _ _); [|reflexivity]. cbv zeta. rewrite !dist_x.
  replace (Rltb (IZR (Z.abs (i - 6))) (IZR (Z.abs (3 - 6)))) with false.
  - replace (isclose g (IZR (Z.abs (3 - 6))) (IZR (Z.abs (i - 6)))) with false; [rewrite andb_false_r; reflexivity|]. symmetry. unfold isclose.
    destruct (Rleb (Rabs (IZR (Z.abs (3 - 6)) - IZR (Z.abs (i - 6)))) _) eqn:Q; [|reflexivity]. exfalso. apply GeoProof.Rleb_true in Q.
    pose proof (far_Z (Z.abs (3 - 6)) (Z.abs (i - 6)) ltac:(lia)). pose proof (size_Z (Z.abs (i - 6)) ltac:(lia)). unfold g in Q. lra.
  - symmetry. unfold Rltb. destruct (Rlt_dec _ _) as [L|L]; [|reflexivity]. apply lt_IZR in L. lia.
Qed.
Lemma pair_tags (l : list vertex) p q : Permutation l [p; q] -> StronglySorted Z.le (map v_tag l) -> (v_tag p < v_tag q)%Z -> map v_tag l = [v_tag p; v_tag q].
Proof.
  intros P S L. apply Permutation_sym, Permutation_length_2_inv in P as [->| ->]; [reflexivity|]. exfalso. cbn in S. apply StronglySorted_inv in S as [_ F]. inversion F; subst. lia.
Qed.
Lemma pair_tags' (l : list vertex) p q : Permutation l [p; q] -> StronglySorted Z.le (map v_tag l) -> (v_tag q < v_tag p)%Z -> map v_tag l = [v_tag q; v_tag p].
Proof. intros P. apply pair_tags. rewrite P. apply perm_swap. Qed.
Lemma end_cases v w : end_of g posts v w -> (v = pa -> w = pa) /\ (v = pb -> w = u3) /\ (v = pc -> w = pc).
Proof.
  intros [[I A]|[-> N]].
  - split; [|split]; intros ->; simpl in I; ends; subst; axis; try discriminate; reflexivity.
  - split; [auto|]. split; [|auto]. intros ->. exfalso. apply (N u3); [simpl; auto|]. axis. reflexivity.
Qed.
Lemma road_cut : exists D R, domain_difference g g all_idx argsort_R_example argsort_example (mk_domain [pa; pb; pc] road) (mk_domain posts []) 100 g = Ok D /\
  domain_union hash_id g argsort_example D (mk_domain posts []) = Ok R /\ spanned R /\
  map (fun e => (e_phys e, map v_tag (e_ends e))) (d_edges R) = [(Some 7, [1; 10]); (Some 7, [10; 11]); (Some 7, [11; 12]); (None, [4; 12])]%Z.
Proof.
  destruct (composite_ok g g all_idx argsort_R_example argsort_example argsort_example_ok argsort_R_example_ok ltac:(unfold g; lra) road posts 100 road_clean (Permutation_refl _) hash_id [pa; pb; pc] []) as (D & R & ED & ER & (ess & Q & F) & Sp & _);
    [intros e1 []|apply hash_id_ok|apply hash_id_ok|]. exists D, R. split; [exact ED|]. split; [exact ER|]. split; [exact Sp|]. rewrite Q. clear Q ED ER Sp D R.
  destruct posts_touch as (P1 & P2 & P3 & P4). unfold road in F. inversion F as [|? es1 ? ? F1 F']; subst. inversion F' as [|? es2 ? ? F2 F'']; subst. inversion F''; subst. clear F F' F''.
  destruct (proj2 (F1 pa pb eq_refl)) as (st & mid & fi & (Ws & Wf & Wn & Wi & Wd) & G); [exists u1; split; [simpl; auto|exact P1]|].
  apply end_cases in Ws as (Ws & _ & _). rewrite (Ws eq_refl) in *. clear Ws. apply end_cases in Wf as (_ & Wf & _). rewrite (Wf eq_refl) in *. clear Wf.
  assert (M : mid = [u1; u2]).
  { assert (PM : Permutation mid [u1; u2]).
    { apply NoDup_Permutation; [exact Wn|repeat constructor; simpl; intuition discriminate|]. intros t. rewrite Wi. split.
      - intros (It & _ & NA & NB). simpl in It. ends; subst; simpl; auto. exfalso. apply NB. axis. reflexivity.
      - intros It. simpl in It. ends; subst; (split; [simpl; auto|]); (split; [assumption|]); axis; split; discriminate. }
    apply Permutation_sym, Permutation_length_2_inv in PM as [->| ->]; [reflexivity|]. exfalso. cbn [map] in Wd. apply StronglySorted_inv in Wd as [_ Wd]. inversion Wd as [|? ? Wd' _]; subst. axis. rewrite !dist_x in Wd'. cbn in Wd'. lra. }
  subst mid. cbn [app steps tl combine] in G. inversion G as [|e1 ? ? ? (A1 & B1 & C1) G1]; subst. inversion G1 as [|e2 ? ? ? (A2 & B2 & C2) G2]; subst. inversion G2 as [|e3 ? ? ? (A3 & B3 & C3) G3]; subst. inversion G3; subst. clear G G1 G2 G3 F1.
  destruct (proj2 (F2 pb pc eq_refl)) as (st2 & mid & fi2 & (Ws & Wf & _ & Wi' & _) & G); [exists u3; split; [simpl; auto|exact P4]|].
  apply end_cases in Ws as (_ & Ws & _). rewrite (Ws eq_refl) in *. clear Ws. apply end_cases in Wf as (_ & _ & Wf). rewrite (Wf eq_refl) in *. clear Wf.
  assert (M : mid = []).
  { destruct mid as [|t mid]; [reflexivity|]. exfalso. destruct (proj1 (Wi' t) (or_introl eq_refl)) as (It & Tt & NA & NB). destruct Tt as (q & Tq).
    simpl in It. ends; subst; axis; try (apply NA; reflexivity); rewrite beyond in Tq by lia; discriminate. }
  subst mid. cbn [app steps tl combine] in G. inversion G as [|e4 ? ? ? (A4 & B4 & C4) G1]; subst. inversion G1; subst.
  cbn [concat app map fst snd] in *. rewrite A1, A2, A3, A4. rewrite (pair_tags _ _ _ B1 C1), (pair_tags _ _ _ B2 C2), (pair_tags _ _ _ B3 C3), (pair_tags' _ _ _ B4 C4) by (cbn; lia). reflexivity.
Qed.

(** ** intersections: a tool at the crossing of two edges *)
Lemma crossing_domain_two : domain_intersection hash_id g g g (-2147483648) crossing [4] [(0, 1); (2, 3)] 100 g =
  Ok (crossing ++ [(100%Z, P 2 0 0); (100%Z, P 2 0 0)], Some [6]).
Proof. unfold domain_intersection. rewrite crossing_example. reflexivity. Qed.
Lemma crossing_domain_one : domain_intersection hash_id g g g (-2147483648) crossing [4] [(0, 1)] 100 g = Ok (crossing ++ [(100%Z, P 2 0 0)], Some [5]).
Proof. unfold domain_intersection, vertices_edges_intersection. cbn [foldM]. rewrite crossing_one. reflexivity. Qed.
Lemma crossing_apart : forall e v, In e [(0, 1); (2, 3)] -> In v [4] -> apart crossing v e /\ v < length crossing /\ fst e < length crossing /\ snd e < length crossing.
Proof. intros e v Ie Iv. simpl in Ie, Iv. ends; subst; unfold apart; cbn; repeat split; try discriminate; lia. Qed.
