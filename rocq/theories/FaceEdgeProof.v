(** * Lemmas on the edges made by intersected faces *)
From Coq Require Import List Arith ZArith Bool Reals Lia Permutation Sorted.
From Verif Require Import Base BaseProof VecBase GeoModel GeoSpec VertexModel VertexSpec ShapeSpec EmbedModel EmbedSpec EmbedProof EmbedProof2 IntersectSpec LinesModel FaceCutModel FaceCutSpec FaceEdgeModel.
Import ListNotations.

Lemma pair_compare_spec s t : match pair_compare s t with Lt => seg_lex s t | Gt => seg_lex t s | Eq => s = t end.
Proof.
  destruct s as [a b], t as [c d]. unfold pair_compare, seg_lex. cbn [fst snd]. pose proof (vec_compare_spec a c) as A. destruct (vec_compare a c); auto.
  subst c. pose proof (vec_compare_spec b d) as B. destruct (vec_compare b d); auto. subst. auto.
Qed.
Lemma seg_lex_irrefl s : ~ seg_lex s s.
Proof. unfold seg_lex. intros [H|(_ & H)]; exact (lex_irrefl _ H). Qed.
Lemma seg_lex_trans s t u : seg_lex s t -> seg_lex t u -> seg_lex s u.
Proof.
  unfold seg_lex. intros [H|(Q & H)] [K|(Q' & K)].
  - left. eapply lex_trans; eauto.
  - left. rewrite <- Q'. auto.
  - left. rewrite Q. auto.
  - right. split; [congruence|]. eapply lex_trans; eauto.
Qed.
Lemma insert_pair_in s l x : In x (insert_pair s l) <-> x = s \/ In x l.
Proof.
  induction l as [|t l IH]; cbn; [intuition|]. pose proof (pair_compare_spec s t) as C. destruct (pair_compare s t); cbn; try rewrite IH; subst; intuition.
Qed.
Lemma insert_pair_sorted s l : StronglySorted seg_lex l -> StronglySorted seg_lex (insert_pair s l).
Proof.
  induction l as [|t l IH]; cbn; intros S; [repeat constructor|]. inversion S as [|? ? S' F]; subst. pose proof (pair_compare_spec s t) as C. destruct (pair_compare s t); auto.
  - constructor; [auto|]. constructor; [auto|]. rewrite Forall_forall in *. intros x I. eapply seg_lex_trans; eauto.
  - constructor; [auto|]. rewrite Forall_forall in *. intros x I. apply insert_pair_in in I as [->|I]; auto.
Qed.
Lemma unique_pairs_in l x : In x (unique_pairs l) <-> In x l.
Proof. unfold unique_pairs. induction l as [|s l IH]; cbn; [tauto|]. rewrite insert_pair_in, IH. intuition. Qed.
Lemma unique_pairs_sorted l : StronglySorted seg_lex (unique_pairs l).
Proof. unfold unique_pairs. induction l as [|s l IH]; cbn; [constructor|]. apply insert_pair_sorted. auto. Qed.
Lemma pair_place_nth s l : In s l -> nth_error l (pair_place s l) = Some s.
Proof.
  induction l as [|t l IH]; intros I; [destruct I|]. cbn [pair_place]. pose proof (pair_compare_spec s t) as C. destruct (pair_compare s t); [subst; auto| |];
    (destruct I as [->|I]; [destruct (seg_lex_irrefl _ C)|cbn; auto]).
Qed.

Section Edges.
  Variable argsort : list Z -> list nat.
  Hypothesis AZ : is_argsort argsort.
  Fixpoint new_vertices (v : Z) (l : list segment) : heap := match l with [] => [] | s :: l' => (v, fst s) :: ((v + 1)%Z, snd s) :: new_vertices (v + 2) l' end.
  Fixpoint new_edges (x : nat) (e p : Z) (l : list segment) : list (Z * list nat * Z) := match l with [] => [] | _ :: l' => ((e, [x; x + 1]), p) :: new_edges (x + 2) (e + 1) (p + 1) l' end.
  Lemma tg_app h l k x : nth_error l k = Some x -> tg (h ++ l) (length h + k) = fst x.
  Proof. intros H. unfold tg. rewrite app_nth2, Nat.add_comm, Nat.add_sub by lia. rewrite (nth_error_nth _ _ _ H). auto. Qed.
  Lemma lines_loop l : forall h v e p acc, foldM (line_step argsort) l (h, (v, e, p), acc) =
    Ok (h ++ new_vertices v l, (v + 2 * Z.of_nat (length l), e + Z.of_nat (length l), p + Z.of_nat (length l))%Z, acc ++ new_edges (length h) e p l).
  Proof.
    induction l as [|s l IH]; intros h v e p acc; cbn [foldM new_vertices new_edges length].
    - rewrite !app_nil_r, !Z.add_0_r. reflexivity.
    - unfold line_step at 1. set (h2 := h ++ [(v, fst s); ((v + 1)%Z, snd s)]). assert (L : length h2 = length h + 2) by (unfold h2; rewrite app_length; auto).
      destruct (sub_edge_spec argsort AZ h2 e (length h) (length h + 1)) as (ends & E & Pe & Se); [lia|lia|]. rewrite E. cbn [bind].
      assert (ends = [length h; length h + 1]) as ->.
      { apply Permutation_sym, Permutation_length_2_inv in Pe as [-> | ->]; auto. exfalso. cbn [map] in Se. inversion Se as [|? ? _ F]. inversion F as [|? ? F1].
        unfold h2 in F1. rewrite (tg_app h [(v, fst s); ((v + 1)%Z, snd s)] 1 ((v + 1)%Z, snd s) eq_refl) in F1. pose proof (tg_app h [(v, fst s); ((v + 1)%Z, snd s)] 0 (v, fst s) eq_refl) as Q. rewrite Nat.add_0_r in Q. rewrite Q in F1. cbn [fst] in F1. lia. }
      rewrite IH, L. unfold h2. rewrite <- !app_assoc. cbn [app]. replace (v + 2 + 2 * Z.of_nat (length l))%Z with (v + 2 * Z.of_nat (S (length l)))%Z by lia. replace (e + 1 + Z.of_nat (length l))%Z with (e + Z.of_nat (S (length l)))%Z by lia. replace (p + 1 + Z.of_nat (length l))%Z with (p + Z.of_nat (S (length l)))%Z by lia. reflexivity.
  Qed.
  Lemma new_vertices_tags l : forall v, map fst (new_vertices v l) = consecutive v (2 * length l).
  Proof.
    induction l as [|s l IH]; intros v; [reflexivity|]. cbn [new_vertices map fst length]. rewrite IH. replace (2 * S (length l)) with (S (S (2 * length l))) by lia. generalize (2 * length l). intros n. unfold consecutive. cbn [seq map].
    rewrite <- !seq_shift, !map_map. f_equal; try lia. f_equal; try lia. try rewrite map_map. apply map_ext. intros k. lia.
  Qed.
  Lemma new_vertices_nth l : forall v k s, nth_error l k = Some s -> nth_error (new_vertices v l) (2 * k) = Some ((v + 2 * Z.of_nat k)%Z, fst s) /\ nth_error (new_vertices v l) (2 * k + 1) = Some ((v + 2 * Z.of_nat k + 1)%Z, snd s).
  Proof.
    induction l as [|t l IH]; intros v [|k] s H; try discriminate.
    - injection H as ->. replace (v + 2 * Z.of_nat 0)%Z with v by lia. auto.
    - destruct (IH (v + 2)%Z k s H) as (H1 & H2). replace (2 * S k) with (S (S (2 * k))) by lia. cbn [new_vertices nth_error plus]. rewrite H1, H2. replace (v + 2 * Z.of_nat (S k))%Z with (v + 2 + 2 * Z.of_nat k)%Z by lia. auto.
  Qed.
  Lemma new_edges_nth l : forall x e p k s, nth_error l k = Some s -> nth_error (new_edges x e p l) k = Some (((e + Z.of_nat k)%Z, [x + 2 * k; x + 2 * k + 1]), (p + Z.of_nat k)%Z).
  Proof.
    induction l as [|t l IH]; intros x e p [|k] s H; try discriminate.
    - cbn [new_edges nth_error]. rewrite !Z.add_0_r, Nat.mul_0_r, Nat.add_0_r. reflexivity.
    - cbn [new_edges nth_error] in *. rewrite (IH _ _ _ k s H). replace (x + 2 + 2 * k) with (x + 2 * S k) by lia. replace (e + 1 + Z.of_nat k)%Z with (e + Z.of_nat (S k))%Z by lia. replace (p + 1 + Z.of_nat k)%Z with (p + Z.of_nat (S k))%Z by lia. reflexivity.
  Qed.
  Lemma new_edges_length l : forall x e p, length (new_edges x e p l) = length l.
  Proof. induction l as [|t l IH]; intros; cbn; auto. Qed.
  Lemma edges_lemma h pairs e v p : exists unique new edges places,
    create_edges argsort h pairs e v p = Ok (h ++ new, edges, places) /\
    StronglySorted seg_lex unique /\ (forall s, In s unique <-> In s pairs) /\
    map fst new = consecutive v (2 * length unique) /\ length edges = length unique /\
    (forall k s, nth_error unique k = Some s ->
       nth_error edges k = Some (((e + Z.of_nat k)%Z, [length h + 2 * k; length h + 2 * k + 1]), (p + 1 + Z.of_nat k)%Z) /\
       pt (h ++ new) (length h + 2 * k) = fst s /\ pt (h ++ new) (length h + 2 * k + 1) = snd s) /\
    length places = length pairs /\
    forall c s, nth_error pairs c = Some s -> exists k, nth_error places c = Some k /\ nth_error unique k = Some s.
  Proof.
    exists (unique_pairs pairs), (new_vertices v (unique_pairs pairs)), (new_edges (length h) e (p + 1) (unique_pairs pairs)), (map (fun s => pair_place s (unique_pairs pairs)) pairs).
    split; [unfold create_edges, build_disjoint_lines; rewrite lines_loop; reflexivity|]. split; [apply unique_pairs_sorted|]. split; [apply unique_pairs_in|].
    split; [apply new_vertices_tags|]. split; [apply new_edges_length|]. split; [|split; [apply map_length|]].
    - intros k s H. split; [exact (new_edges_nth _ _ _ _ _ _ H)|]. destruct (new_vertices_nth _ v k s H) as (H1 & H2). unfold pt.
      rewrite !app_nth2 by lia. replace (length h + 2 * k - length h) with (2 * k) by lia. replace (length h + 2 * k + 1 - length h) with (2 * k + 1) by lia.
      rewrite (nth_error_nth _ _ _ H1), (nth_error_nth _ _ _ H2). auto.
    - intros c s H. exists (pair_place s (unique_pairs pairs)). split; [apply (map_nth_error (fun s => pair_place s (unique_pairs pairs))); exact H|].
      apply pair_place_nth, unique_pairs_in. eapply nth_error_In; eauto.
  Qed.
End Edges.
