(** * Lemmas: tags of a box with lines *)
From Coq Require Import List Arith ZArith Bool Reals Lia.
From Verif Require Import Base BaseProof VecBase ShapeModel VertexModel TagModel TagSpec TagProof EmbedModel LinesModel.
Import ListNotations.

Section Retag.
  Variable N : net.
  Notation V := (length (n_heap N)).
  Notation E := (length (n_hosts N) + length (n_subs N)).
  Notation dim := (object_dim N).
  Notation imm := (object_immersed N).

  Lemma dim_vertex x : x < V -> dim x = 0.
  Proof. intros H. unfold object_dim. apply Nat.ltb_lt in H. rewrite H. auto. Qed.
  Lemma dim_edge k : k < E -> dim (edge_id N k) = 1.
  Proof.
    intros H. unfold object_dim, face_id, edge_id. destruct (Nat.ltb_spec (V + k) V); [lia|]. destruct (Nat.ltb_spec (V + k) (V + E)); [auto|lia].
  Qed.
  Lemma dim_face : dim (face_id N) = 2.
  Proof. unfold object_dim. rewrite Nat.ltb_irrefl. unfold face_id, edge_id. destruct (Nat.ltb_spec (V + E) V); [lia|auto]. Qed.
  Lemma imm_vertex x : x < V -> imm x = [].
  Proof. intros H. unfold object_immersed. apply Nat.ltb_lt in H. rewrite H. auto. Qed.
  Lemma imm_face : imm (face_id N) = map (edge_id N) (line_positions N).
  Proof. unfold object_immersed. rewrite Nat.eqb_refl. unfold face_id, edge_id at 1. destruct (Nat.ltb_spec (V + E) V); [lia|auto]. Qed.
  Lemma imm_high y x : In x (imm y) -> V <= x.
  Proof.
    unfold object_immersed. destruct (y <? V); [intros []|]. destruct (y =? face_id N).
    { intros H. apply in_map_iff in H as (k & <- & _). unfold edge_id. lia. }
    destruct (_ =? n_sides N).
    - intros H. apply in_flat_map in H as (i & _ & H). destruct (subs_of N i); [destruct H as [<-|[]]; unfold edge_id; lia|]. apply in_map_iff in H as (j & <- & _). unfold sub_id, edge_id. lia.
    - destruct (_ <? length (n_hosts N)); [|intros []]. intros H. apply in_map_iff in H as (j & <- & _). unfold sub_id, edge_id. lia.
  Qed.

  Lemma touched_vertices l : (forall x, In x l -> x < V) -> touched imm l = l.
  Proof. intros H. induction l as [|x l IH]; auto. unfold touched in *. cbn [flat_map]. rewrite imm_vertex by (apply H; left; auto). cbn. f_equal. apply IH. intros y Hy. apply H. right. auto. Qed.
  Lemma vertices_pass : forall l f c, (forall x, In x l -> x < V) -> NoDup l ->
    forall i x, nth_error l i = Some x -> fst (fold_left (retag_shape dim imm 0) l (f, c)) x = (c + Z.of_nat i)%Z.
  Proof.
    induction l as [|y l IH]; intros f c H ND i x Hx; [destruct i; discriminate|]. inversion ND as [|? ? Ny ND']; subst. cbn [fold_left]. unfold retag_shape at 2. rewrite imm_vertex by (apply H; left; auto). cbn [fold_left fst snd].
    assert (H' : forall z, In z l -> z < V) by (intros z Hz; apply H; right; auto). destruct i as [|i]; cbn in Hx.
    - injection Hx as ->. rewrite untouched; [cbn; unfold set_tag; rewrite Nat.eqb_refl; lia|]. rewrite touched_vertices; auto.
    - rewrite (IH _ _ H' ND' i x Hx). lia.
  Qed.
  Lemma lines_pass d f c s : dim s = d -> forall l, NoDup l -> forall i x, nth_error l i = Some x -> fst (fold_left (retag_immersed dim d s) l (f, c)) x = (c + Z.of_nat i)%Z.
  Proof.
    intros Hd l. revert f c. induction l as [|y l IH]; intros f c ND i x Hx; [destruct i; discriminate|]. inversion ND as [|? ? Ny ND']; subst. cbn [fold_left].
    assert (Q : retag_immersed dim (dim s) s (f, c) y = (set_tag f y c, c + 1)%Z) by (unfold retag_immersed; rewrite Nat.eqb_refl; reflexivity). rewrite Q. destruct i as [|i]; cbn in Hx.
    - injection Hx as ->. 
      assert (G : forall q st, ~ In x q -> fst (fold_left (retag_immersed dim (dim s) s) q st) x = fst st x).
      { induction q as [|z q IHq]; intros st Hq; auto. cbn [fold_left]. rewrite IHq by (cbn in Hq; tauto). unfold retag_immersed. rewrite Nat.eqb_refl. cbn [negb fst]. unfold set_tag. destruct (Nat.eqb_spec x z); auto. subst. cbn in Hq. tauto. }
      rewrite G by auto. cbn. unfold set_tag. rewrite Nat.eqb_refl. lia.
    - rewrite (IH _ _ ND' i x Hx). lia.
  Qed.

  Variable kept : list nat.
  Hypothesis kept_live : forall x, In x kept -> x < V.
  Hypothesis kept_nodup : NoDup kept.
  Variable t : nat -> Z.
  Notation t' := (retag_shapes dim imm 2 (object_domain N kept) t).
  Notation pass D d := (retag_with_dimension dim imm (object_domain N kept) d D).

  Lemma passes : t' = pass (pass (pass t 0) 1) 2.
  Proof. reflexivity. Qed.
  Lemma tags_vertices i x : nth_error kept i = Some x -> t' x = Z.of_nat i.
  Proof.
    intros H. assert (L : x < V) by (apply kept_live; eapply nth_error_In; eauto). rewrite passes. unfold retag_with_dimension at 1. cbn [object_domain nth].
    rewrite untouched.
    2:{ intros K. unfold touched in K. apply in_flat_map in K as (s & [<-|[]] & [K|K]); [unfold face_id, edge_id in K; lia|apply imm_high in K; lia]. }
    cbn [fst]. unfold retag_with_dimension at 1. cbn [object_domain nth]. rewrite untouched.
    2:{ intros K. unfold touched in K. apply in_flat_map in K as (s & Hs & [<-|K]); [apply in_map_iff in Hs as (k & <- & _); unfold edge_id in L; lia|apply imm_high in K; lia]. }
    cbn [fst]. unfold retag_with_dimension. cbn [object_domain nth]. rewrite (vertices_pass kept t 0 kept_live kept_nodup i x H). lia.
  Qed.
  Lemma tags_lines i k : nth_error (line_positions N) i = Some k -> t' (edge_id N k) = Z.of_nat (S i).
  Proof.
    intros H. rewrite passes. unfold retag_with_dimension at 1. cbn [object_domain nth fold_left]. unfold retag_shape. rewrite imm_face. cbn [fst snd].
    rewrite (lines_pass 2 _ _ (face_id N) dim_face (map (edge_id N) (line_positions N))) with (i := i); [lia| |apply map_nth_error; auto].
    apply FinFun.Injective_map_NoDup; [intros a b; unfold edge_id; lia|]. apply seq_NoDup.
  Qed.
  Lemma tags_others j k : j < E -> k < E -> ~ In j (line_positions N) -> ~ In k (line_positions N) -> j <> k -> t' (edge_id N j) <> t' (edge_id N k).
  Proof.
    intros Hj Hk Nj Nk Ne. rewrite passes. unfold retag_with_dimension at 1. unfold retag_with_dimension at 3. cbn [object_domain nth].
    assert (U : forall i, i < E -> ~ In i (line_positions N) -> ~ In (edge_id N i) (touched imm [face_id N])).
    { intros i Hi Ni K. unfold touched in K. cbn [flat_map] in K. rewrite app_nil_r in K. destruct K as [K|K]; [unfold face_id, edge_id in K; lia|]. rewrite imm_face in K. apply in_map_iff in K as (i' & Q & K). assert (i' = i) as -> by (unfold edge_id in Q; lia). auto. }
    rewrite !untouched by (apply U; auto). cbn [fst]. unfold retag_with_dimension at 1. unfold retag_with_dimension at 2. cbn [object_domain nth].
    destruct (inv_shapes dim imm 1 (map (edge_id N) (seq 0 E)) (pass t 0, 0%Z) []) as ((_ & I & _) & _).
    - intros s Hs. apply in_map_iff in Hs as (i & <- & Hi). apply in_seq in Hi. apply dim_edge. lia.
    - split; [intros x []|]. split; [intros x y []|]. cbn. lia.
    - assert (T : forall i, i < E -> In (edge_id N i) (touched imm (map (edge_id N) (seq 0 E)) ++ [])).
      { intros i Hi. rewrite app_nil_r. unfold touched. apply in_flat_map. exists (edge_id N i). split; [apply in_map, in_seq; lia|left; auto]. }
      apply I; auto. unfold edge_id. lia.
  Qed.
  Lemma imm_edge k : k < length (n_hosts N) -> k <> n_sides N -> imm (edge_id N k) = map (sub_id N) (subs_of N k).
  Proof.
    intros Hk Nk. unfold object_immersed, face_id, edge_id. destruct (Nat.ltb_spec (V + k) V); [lia|]. destruct (Nat.eqb_spec (V + k) (V + (length (n_hosts N) + length (n_subs N)))); [lia|].
    replace (V + k - V) with k by lia. destruct (Nat.eqb_spec k (n_sides N)); [lia|]. destruct (Nat.ltb_spec k (length (n_hosts N))); [auto|lia].
  Qed.
  (** The second side, when the first is whole and it is cut *)
  Lemma tags_second : 1 < n_sides N < length (n_hosts N) -> subs_of N 0 = [] -> subs_of N 1 <> [] -> t' (edge_id N 1) = 1%Z.
  Proof.
    intros Hn S0 S1. rewrite passes. unfold retag_with_dimension at 1. cbn [object_domain nth].
    rewrite untouched.
    2:{ intros K. unfold touched in K. cbn [flat_map] in K. rewrite app_nil_r in K. destruct K as [K|K]; [unfold face_id, edge_id in K; lia|]. rewrite imm_face in K. apply in_map_iff in K as (i' & Q & K). unfold line_positions in K. apply in_seq in K. unfold edge_id in Q. lia. }
    cbn [fst]. unfold retag_with_dimension at 1. cbn [object_domain nth]. replace E with (S (S (E - 2))) by lia. cbn [seq map fold_left].
    rewrite untouched.
    2:{ intros K. unfold touched in K. apply in_flat_map in K as (s & Hs & K). apply in_map_iff in Hs as (k & <- & Hk). apply in_seq in Hk. destruct K as [K|K]; [unfold edge_id in K; lia|].
        unfold object_immersed in K. destruct (_ <? V); [destruct K|]. destruct (_ =? face_id N); [apply in_map_iff in K as (i & Q & K); unfold line_positions in K; apply in_seq in K; unfold edge_id in Q; lia|].
        destruct (_ =? n_sides N).
        - apply in_flat_map in K as (i & _ & K). destruct (subs_of N i) eqn:Es; [destruct K as [K|[]]; assert (i = 1) as -> by (unfold edge_id in K; lia); contradiction|]. apply in_map_iff in K as (j & Q & _). unfold sub_id, edge_id in Q. lia.
        - destruct (_ <? length (n_hosts N)); [|destruct K]. apply in_map_iff in K as (j & Q & _). unfold sub_id, edge_id in Q. lia. }
    unfold retag_shape. rewrite (imm_edge 0), S0, (imm_edge 1) by lia. cbn [map fold_left fst snd].
    assert (G : forall q st, ~ In (edge_id N 1) q -> fst (fold_left (retag_immersed dim 1 (edge_id N 1)) q st) (edge_id N 1) = fst st (edge_id N 1)).
    { induction q as [|y q IH]; intros st Hq; auto. cbn [fold_left]. rewrite IH by (cbn in Hq; tauto). unfold retag_immersed. destruct (negb _); auto. cbn [fst]. unfold set_tag. destruct (Nat.eqb_spec (edge_id N 1) y); auto. subst. cbn in Hq. tauto. }
    rewrite G; [cbn [fst]; unfold set_tag; rewrite Nat.eqb_refl; reflexivity|]. intros K. apply in_map_iff in K as (j & Q & _). unfold sub_id, edge_id in Q. lia.
  Qed.
End Retag.
