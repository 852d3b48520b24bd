(** * Lemmas about the assignment of shapes: C66 *)
From Coq Require Import List Arith ZArith Bool Lia Permutation Sorted.
From Verif Require Import Base BaseProof ShapeModel ShapeSpec ShapeProof.
Import ListNotations.

Section AssignProof.
  Context {P : Type}.
  Variable pclose : P -> P -> bool.
  Variable argsort : list Z -> list nat.
  Hypothesis argsort_ok : is_argsort argsort.
  Notation shape := (shape P).

  Lemma sorted_unique_le (l l' : list shape) : StronglySorted Z.le (map s_tag l) -> (forall x y, In x l -> In y l -> s_tag x = s_tag y -> x = y) ->
    Permutation l' l -> StronglySorted Z.le (map s_tag l') -> l' = l.
  Proof.
    revert l'. induction l as [|x l IH]; intros l' S1 U Pm S2.
    - apply Permutation_sym, Permutation_nil in Pm. auto.
    - simpl in S1. inversion S1 as [|? ? S1' F1]; subst. destruct l' as [|y l']; [apply Permutation_nil in Pm; discriminate|].
      simpl in S2. inversion S2 as [|? ? S2' F2]; subst. rewrite Forall_forall in F1, F2.
      assert (x = y).
      { assert (Hy : In y (x :: l)) by (apply (Permutation_in _ Pm); left; auto).
        assert (Hx : In x (y :: l')) by (apply (Permutation_in _ (Permutation_sym Pm)); left; auto).
        destruct Hy as [?|Hy]; auto. destruct Hx as [<-|Hx]; auto. apply U; [left; auto|right; auto|].
        apply Z.le_antisymm; [apply F1, in_map; auto|apply F2, in_map; auto]. }
      subst y. f_equal. apply IH; auto; [intros a b Ha Hb; apply U; right; auto|]. eapply Permutation_cons_inv; eauto.
  Qed.

  Lemma assignment_lemma (s other : shape) :
    (s_kind s <> s_kind other -> shape_assignment argsort s other = Err ValueError) /\
    (s_kind s = s_kind other -> settled other ->
     exists s', shape_assignment argsort s other = Ok s' /\ s_kind s' = s_kind other /\ s_tag s' = s_tag other /\ s_phys s' = s_phys other /\
       s_boundary s' = s_boundary other /\ immersed s' = immersed other /\ (s_kind other = Vertex -> s_point s' = s_point other)).
  Proof.
    unfold shape_assignment. split.
    - intros K. destruct (Nat.eqb_spec (s_dim s) (s_dim other)) as [D|D]; [|reflexivity]. cbn [negb].
      destruct (Bool.eqb (s_composite s) (s_composite other)) eqn:C; [|reflexivity]. exfalso. apply Bool.eqb_prop in C. apply K. unfold s_dim, s_composite in *.
      destruct (s_kind s), (s_kind other); simpl in *; congruence.
    - intros K (AB & AI & SB & UB & Fl). unfold s_dim, s_composite. rewrite K, Nat.eqb_refl, Bool.eqb_reflx. cbn [negb].
      set (s1 := mk_shape (s_kind other) (s_tag other) (s_phys other) (s_point s) (s_boundary s) (s_embedded s)).
      assert (A1 : forall l, Forall (admissible other) l -> Forall (admissible s1) l) by (intros l H; exact H).
      destruct (boundary_lemma argsort argsort_ok s1 (s_boundary other)) as [B _]. destruct (B (A1 _ AB)) as (s2 & E & Pm & Ss & K2 & T2 & Ph2 & Po2 & Em2).
      rewrite E. cbn [bind].
      assert (Qb : s_boundary s2 = s_boundary other) by (apply sorted_unique_le; auto).
      unfold set_immersed. assert (Q : forallb (fun c => memb (s_dim c) (admissible_dimensions (s_kind s2))) (immersed other) = true).
      { rewrite K2. apply forallb_forall. intros c Hc. rewrite Forall_forall in AI. apply (admissible_memb s1 c). apply (AI c Hc). }
      rewrite Q. cbn [bind]. eexists. split; [reflexivity|].
      assert (Im : forall k t ph p b, k = s_kind other -> immersed (mk_shape k t ph p b (immersed other)) = immersed other).
      { intros k t ph p b ->. destruct (s_kind other) eqn:Ko; try reflexivity. cbn [immersed]. specialize (Fl eq_refl). clear -Fl.
        induction (immersed other) as [|c l IH]; auto. inversion Fl; subst. cbn [flat_map]. rewrite H1, IH by auto. reflexivity. }
      simpl in K2, T2, Ph2, Po2.
      destruct (s_kind other) eqn:Ko; cbn [s_kind s_tag s_phys s_boundary s_point];
        (split; [auto|split; [auto|split; [auto|split; [auto|split; [apply Im; auto|intros Q'; try discriminate Q'; reflexivity]]]]]).
  Qed.

  Lemma assignment_same (s other s' : shape) : (forall x, pclose x x = true) -> settled other -> pointed other ->
    shape_assignment argsort s other = Ok s' -> same pclose s' other.
  Proof.
    intros R St Hp E. destruct (assignment_lemma s other) as [A1 A2].
    assert (K : s_kind s = s_kind other).
    { destruct (s_kind s) eqn:Ks, (s_kind other) eqn:Ko; auto; rewrite A1 in E by congruence; discriminate. }
    destruct (A2 K St) as (r & Er & Kr & Tr & _ & Br & Ir & Pr). rewrite E in Er. inversion Er; subst r.
    pose proof (same_refl pclose R (depth other) other (le_n _) Hp) as Q. inversion Q; subst.
    - assert (Ko : s_kind other = Vertex) by (apply dim0; auto). rewrite H2 in H3. inversion H3; subst. eapply same_vertex; eauto; [unfold s_dim; rewrite Kr, Ko; reflexivity|].
      rewrite Pr; auto.
    - apply same_other; auto; try (unfold s_dim in *; rewrite Kr; auto; fail); [rewrite Br; auto|rewrite Ir; auto].
  Qed.
End AssignProof.
