(** * Lemmas about boxes with fractures: the edges are cut cleanly, C101 *)
From Coq Require Import List Arith ZArith Bool Reals Lra Lia Permutation Sorted.
From Verif Require Import Base BaseProof VecBase VecProof GeoModel GeoSpec GeoProof GeoProof2 PolyModel LineModel LineSpec LineProof LineProof2 LineProof3 ShapeModel ShapeSpec BoxProof VertexModel VertexSpec DiffProof DomainModel DomainSpec DomainProof DomainProof2 DomainProof3 MdBoxModel MdBoxSpec MdBoxProof MdBoxProof2.
Import ListNotations.
Local Open Scope nat_scope.

Lemma in_enum {A} (l : list A) k i x : In (i, x) (combine (seq k (length l)) l) <-> k <= i /\ nth_error l (i - k) = Some x.
Proof.
  revert k. induction l as [|y l IH]; intros k; cbn [length seq combine].
  - split; [intros []|intros [_ H]; destruct (i - k); discriminate].
  - split.
    + intros [H|H]; [injection H as -> ->; split; [lia|]; rewrite Nat.sub_diag; reflexivity|]. apply IH in H as [L H]. split; [lia|]. replace (i - k) with (S (i - S k)) by lia. exact H.
    + intros [L H]. destruct (Nat.eq_dec i k) as [->|N]; [left; rewrite Nat.sub_diag in H; injection H as ->; reflexivity|]. right. apply IH. split; [lia|].
      replace (i - k) with (S (i - S k)) in H by lia. exact H.
Qed.

Lemma NoDup_app {A} (l l' : list A) : NoDup l -> NoDup l' -> (forall x, In x l -> ~ In x l') -> NoDup (l ++ l').
Proof.
  induction l as [|x l IH]; intros N N' D; [exact N'|]. apply NoDup_cons_iff in N as [Nx N]. cbn [app]. constructor; [|apply IH; auto; intros y I; apply D; right; exact I].
  intros I. apply in_app_or in I as [I|I]; [exact (Nx I)|]. exact (D x (or_introl eq_refl) I).
Qed.

Section Cut.
  Variables tol scale : R.
  Variable box : list vec.
  Variable lines : list segment.
  Variable bc : nat -> option Z.
  Variables line internal point : option Z.
  Hypothesis T0 : (0 <= tol <= 1 / 100000000)%R.
  Hypothesis S0 : (0 < scale)%R.
  Hypothesis CN : clear_network box lines tol scale.
  Notation n := (length box).
  Hypothesis big : 2 <= n.
  Variables B C : list vertex.
  Hypothesis MV : meeting_vertices box lines bc point B C.
  Notation T := (B ++ C).
  Notation first := (first_tag box (B ++ C)).
  Notation next_tag := (next_tag box lines (B ++ C)).
  Notation all_edges := (network_edges box lines bc line internal (B ++ C)).
  Notation spec := (special box lines).
  Notation sides := (side_lines box).

  Lemma side_bounds i : i < n -> side_from box i < n /\ side_to box i < n /\ side_from box i <> side_to box i.
  Proof. intros H. unfold side_from, side_to. destruct (Nat.eqb_spec (S i) n); lia. Qed.
  Lemma edge_kind e : In e all_edges -> (exists i, i < n /\ e = side_edge box bc i) \/ (exists k l, nth_error lines k = Some l /\ e = fracture_edge line internal first k l).
  Proof.
    unfold network_edges, fractures. rewrite in_app_iff, !in_map_iff. intros [(i & <- & I)|((k & l) & <- & I)].
    - left. apply in_seq in I. exists i. split; [lia|reflexivity].
    - right. apply in_enum in I as [_ I]. rewrite Nat.sub_0_r in I. exists k, l. split; [exact I|reflexivity].
  Qed.
  Lemma nth_bound k (l : segment) : nth_error lines k = Some l -> k < length lines /\ In l lines.
  Proof. intros H. split; [apply nth_error_Some; congruence|exact (nth_error_In _ _ H)]. Qed.
  Lemma corner_special i : i < n -> spec (v_point (corner_at box i)).
  Proof. intros H. left. apply nth_In. exact H. Qed.
  Lemma edge_ends e : In e all_edges -> exists a b, e_ends e = [a; b] /\ v_tag a <> v_tag b /\ (v_tag a < next_tag)%Z /\ (v_tag b < next_tag)%Z /\ (e_tag e < next_tag)%Z /\
    spec (v_point a) /\ spec (v_point b) /\ v_point a <> v_point b /\ In (v_point a, v_point b) (sides ++ lines) /\ (0 <= v_tag a)%Z /\ (0 <= v_tag b)%Z /\ (0 <= e_tag e)%Z.
  Proof.
    intros I. assert (F : (0 <= first)%Z) by (unfold first_tag; lia). destruct (edge_kind e I) as [(i & L & ->)|(k & l & L & ->)].
    - destruct (side_bounds i L) as (H1 & H2 & H3). eexists _, _. split; [reflexivity|]. cbn [corner_at v_tag side_edge e_tag v_point].
      assert (Z.of_nat n <= next_tag)%Z by (unfold MdBoxSpec.next_tag, first_tag; lia). repeat split; try lia.
      + apply (corner_special _ H1).
      + apply (corner_special _ H2).
      + intros E. apply H3. apply (NoDup_nth box vzero); auto. exact (cn_box _ _ _ _ CN).
      + apply in_or_app. left. apply in_map_iff. exists i. split; [reflexivity|]. apply in_seq. lia.
    - destruct (nth_bound k l L) as [Lk Il]. eexists _, _. split; [reflexivity|]. cbn [v_tag fracture_edge e_tag v_point]. unfold MdBoxSpec.next_tag. repeat split; try lia.
      + right. left. exists l. auto.
      + right. left. exists l. auto.
      + exact (cn_proper _ _ _ _ CN l Il).
      + apply in_or_app. right. destruct l. exact Il.
  Qed.
  Lemma tool_special t : In t T -> spec (v_point t).
  Proof.
    intros I. apply in_app_or in I as [I|I].
    - right; right; left. apply (proj2 (mv_sides _ _ _ _ _ _ MV)). apply in_map. exact I.
    - right; right; right. apply (proj2 (mv_lines _ _ _ _ _ _ MV)). apply in_map. exact I.
  Qed.
  Lemma tool_tag t : In t T -> (Z.of_nat n + 1 <= v_tag t < first)%Z.
  Proof. intros I. apply (in_map v_tag) in I. rewrite (mv_tags _ _ _ _ _ _ MV) in I. apply tags_In in I. unfold first_tag. lia. Qed.
  Lemma tools_nodup : NoDup (map v_point T).
  Proof.
    rewrite map_app. apply NoDup_app; [exact (proj1 (mv_sides _ _ _ _ _ _ MV))|exact (proj1 (mv_lines _ _ _ _ _ _ MV))|].
    intros p Ip Iq. apply (proj2 (mv_sides _ _ _ _ _ _ MV)) in Ip. apply (proj2 (mv_lines _ _ _ _ _ _ MV)) in Iq. destruct Ip as (l & m & _ & M & _ & K). exact (cn_off _ _ _ _ CN p m Iq M (proj2 K)).
  Qed.
  Lemma tool_eq t t' : In t T -> In t' T -> v_point t = v_point t' -> t = t'.
  Proof. apply key_inj. exact tools_nodup. Qed.
  Lemma tool_rows : NoDup (map (rounded scale) (map v_point T)).
  Proof.
    assert (G : forall l : list vec, NoDup l -> (forall p, In p l -> spec p) -> NoDup (map (rounded scale) l)).
    { induction l as [|p l IH]; intros N F; [constructor|]. apply NoDup_cons_iff in N as [N N']. cbn [map]. constructor; [|apply IH; [exact N'|intros q I; apply F; right; exact I]].
      intros I. apply in_map_iff in I as (q & Q & I). apply N. replace p with q; [exact I|]. apply (special_rounded tol scale box lines T0 S0 CN); [apply F; right; exact I|apply F; left; reflexivity|exact Q]. }
    apply G; [exact tools_nodup|]. intros p I. apply in_map_iff in I as (t & <- & I). apply tool_special. exact I.
  Qed.
  Lemma at_eq v t : spec (v_point v) -> spec (v_point t) -> (at_tool tol v t <-> v_point v = v_point t).
  Proof.
    intros Sv St. unfold at_tool. rewrite allclose_true. split.
    - intros H. apply (special_eq tol scale box lines T0 CN); auto.
    - intros ->. apply allclose_true, allclose_refl. lra.
  Qed.
  Lemma touch_on a b t : In (v_point a, v_point b) (sides ++ lines) -> spec (v_point t) -> (touches tol tol a b t <-> on_segment (v_point a) (v_point b) (v_point t)).
  Proof.
    intros I St. unfold touches. split.
    - intros (q & H). exact (proj2 (pli_sound tol scale box lines T0 CN _ (v_point a, v_point b) q St I H)).
    - intros H. exists (v_point t). exact (pli_complete tol scale box lines T0 CN _ (v_point a, v_point b) St I H).
  Qed.
  Lemma end_special e v : In e all_edges -> In v (e_ends e) -> spec (v_point v).
  Proof. intros I J. destruct (edge_ends e I) as (a & b & E & _ & _ & _ & _ & Sa & Sb & _). rewrite E in J. destruct J as [<-|[<-|[]]]; assumption. Qed.

  Lemma vertex_kind v : In v (flat_map e_ends all_edges ++ T) -> (exists i, i < n /\ v = corner_at box i) \/
    (exists k l, nth_error lines k = Some l /\ (v = mk_vertex (first + 3 * Z.of_nat k) internal (fst l) \/ v = mk_vertex (first + 3 * Z.of_nat k + 1) internal (snd l))) \/ In v T.
  Proof.
    intros I. apply in_app_or in I as [I|I]; [|auto]. apply in_flat_map in I as (e & I & J). destruct (edge_kind e I) as [(i & L & ->)|(k & l & L & ->)].
    - left. destruct (side_bounds i L) as (H1 & H2 & _). destruct J as [<-|[<-|[]]]; eexists; eauto.
    - right. left. exists k, l. split; [exact L|]. destruct J as [<-|[<-|[]]]; auto.
  Qed.
  Lemma vertices_by_tag : by_tag (flat_map e_ends all_edges ++ T).
  Proof.
    intros x y Ix Iy E. destruct (vertex_kind x Ix) as [(i & Li & ->)|[(k & l & Lk & Hx)|Hx]]; destruct (vertex_kind y Iy) as [(j & Lj & ->)|[(k' & l' & Lk' & Hy)|Hy]].
    - cbn [corner_at v_tag] in E. replace j with i by lia. reflexivity.
    - exfalso. unfold first_tag in *. destruct Hy as [->| ->]; cbn [corner_at v_tag] in E; lia.
    - exfalso. apply tool_tag in Hy. cbn [corner_at v_tag] in E. lia.
    - exfalso. unfold first_tag in *. destruct Hx as [->| ->]; cbn [corner_at v_tag] in E; lia.
    - destruct Hx as [->| ->]; destruct Hy as [->| ->]; cbn [v_tag] in E; try lia; assert (k = k') by lia; subst k'; congruence.
    - exfalso. apply tool_tag in Hy. destruct Hx as [->| ->]; cbn [v_tag] in E; lia.
    - exfalso. apply tool_tag in Hx. cbn [corner_at v_tag] in E. lia.
    - exfalso. apply tool_tag in Hx. destruct Hy as [->| ->]; cbn [v_tag] in E; lia.
    - apply (key_inj v_tag T); auto. rewrite (mv_tags _ _ _ _ _ _ MV). apply NoDup_tags.
  Qed.
  Lemma edge_tags : NoDup (map e_tag all_edges).
  Proof.
    unfold network_edges, fractures. rewrite map_app, !map_map. apply NoDup_app.
    - apply FinFun.Injective_map_NoDup; [|apply seq_NoDup]. intros i j. cbn [side_edge e_tag]. lia.
    - generalize lines. clear. intros l. change (NoDup (map (fun x : nat * segment => e_tag (fracture_edge line internal (first_tag box (B ++ C)) (fst x) (snd x))) (combine (seq 0 (length l)) l))). generalize (first_tag box (B ++ C)). intros f.
      assert (G : forall k, NoDup (map (fun x : nat * segment => e_tag (fracture_edge line internal f (fst x) (snd x))) (combine (seq k (length l)) l))).
      { induction l as [|x l IH]; intros k; [constructor|]. cbn [length seq combine map]. constructor; [|apply IH]. intros I. apply in_map_iff in I as ((i & y) & Q & I). apply in_combine_l, in_seq in I.
        cbn [fst snd fracture_edge e_tag] in Q. lia. }
      apply G.
    - intros z I J. apply in_map_iff in I as (i & <- & I). apply in_seq in I. apply in_map_iff in J as ((k & l) & Q & J). cbn [fst snd fracture_edge side_edge e_tag] in Q. unfold first_tag in Q. lia.
  Qed.
  Lemma clean : clean_cut tol tol all_edges T next_tag.
  Proof.
    constructor.
    - intros e I. destruct (edge_ends e I) as (a & b & E & N & La & Lb & _). exists a, b. auto.
    - split; [exact edge_tags|]. intros e I. destruct (edge_ends e I) as (a & b & _ & _ & _ & _ & L & _). exact L.
    - split; [rewrite (mv_tags _ _ _ _ _ _ MV); apply NoDup_tags|]. intros t I. apply tool_tag in I. unfold MdBoxSpec.next_tag. lia.
    - exact vertices_by_tag.
    - intros t t' I I' A. apply at_eq in A; [|apply tool_special; assumption..]. apply tool_eq; assumption.
    - intros e v t t' I J It It' A A'. apply at_eq in A, A'; try (apply tool_special; assumption); try (apply (end_special e); assumption). apply tool_eq; congruence.
    - intros e v t I J It A. apply at_eq in A; [|apply tool_special; assumption|apply (end_special e); assumption]. apply at_eq; [apply (end_special e); assumption|apply tool_special; assumption|auto].
    - intros e a b t I Ee It [A A']. destruct (edge_ends e I) as (a' & b' & E' & _ & _ & _ & _ & Sa & Sb & Nab & _). rewrite Ee in E'. injection E' as <- <-.
      apply at_eq in A, A'; try (apply tool_special; assumption); auto. congruence.
    - intros e a b t q I Ee It H. destruct (edge_ends e I) as (a' & b' & E' & _ & _ & _ & _ & Sa & Sb & Nab & Iab & _). rewrite Ee in E'. injection E' as <- <-.
      assert (St := tool_special t It). destruct (pli_sound tol scale box lines T0 CN _ (v_point a, v_point b) q St Iab H) as [-> _].
      split; intros A; apply allclose_default_nearly in A; (apply at_eq; [assumption..|]); symmetry; apply (special_eq tol scale box lines T0 CN); auto.
    - intros e a b t I Ee It Th Na Nb. destruct (edge_ends e I) as (a' & b' & E' & _ & _ & _ & _ & Sa & Sb & Nab & Iab & _). rewrite Ee in E'. injection E' as <- <-.
      assert (St := tool_special t It). apply touch_on in Th; [|assumption..]. destruct Th as (s & Hs & Q). rewrite Q, along_norm by lra.
      assert (P := norm_pos_ne _ _ Nab). assert (s <> 1)%R.
      { intros ->. apply Nb. apply at_eq; auto. rewrite Q. unfold between. vring. }
      assert (s < 1)%R by lra. nra.
  Qed.
End Cut.
