(** * Lemmas on the data of elements *)
From Coq Require Import String List Arith Bool Lia.
From Verif Require Import Base BaseProof DataModel.
Import ListNotations.
Open Scope string_scope.

Section Data.
  Context {D : Type}.
  Variables empty zero true_ no_transformations none : D.
  Notation new_part := (new_part empty zero true_ no_transformations none).
  Notation new_data := (new_data empty zero true_ no_transformations none).
  Notation call_copy := (call_copy empty zero true_ no_transformations none).
  Notation parameters := (parameters empty zero true_ no_transformations none).

  Lemma bind_args_many ps : forall args : list (value D), length ps < length args -> bind_args ps args = Err TypeError.
  Proof.
    induction ps as [|[n d] ps IH]; intros [|a args] L; cbn in L; try lia; cbn; auto. rewrite IH by lia. auto.
  Qed.
  Lemma new_lemma :
    (forall points weights, exists x, new_part QuadratureData [points; weights] = Ok x /\ get_attr x "points" = Ok points /\ get_attr x "weights" = Ok weights) /\
    (forall n dofs id ts num, exists x, new_part DoFData [n; dofs; id; ts; num] = Ok x /\ get_attr x "n_dof" = Ok n /\ get_attr x "entity_dofs" = Ok dofs /\ get_attr x "transformations_are_identity" = Ok id /\ get_attr x "transformations" = Ok ts /\ get_attr x "num_entity_dofs" = Ok num) /\
    (forall b, exists x, new_part BCEntities [b] = Ok x /\ get_attr x "bc_entities" = Ok b) /\
    (forall phi, exists x, new_part BasisData [phi] = Ok x /\ get_attr x "phi" = Ok phi) /\
    (forall args, 2 < length args -> new_part QuadratureData args = Err TypeError /\ new_data args = Err TypeError) /\
    (forall args, 5 < length args -> new_part DoFData args = Err TypeError /\ new_part MappingData args = Err TypeError) /\
    (forall args, 1 < length args -> new_part BCEntities args = Err TypeError /\ new_part BasisData args = Err TypeError).
  Proof.
    repeat (match goal with |- _ /\ _ => split end); intros.
    1-4: eexists; repeat (split; [reflexivity|]); reflexivity.
    all: unfold DataModel.new_part, DataModel.new_data; rewrite !bind_args_many by (cbn; lia); auto.
  Qed.
  Lemma mapping_lemma args x n : new_part MappingData args = Ok x -> get_attr x n = Err AttributeError.
  Proof. unfold DataModel.new_part. destruct (bind_args _ args); cbn; [|discriminate]. intros H. injection H as <-. reflexivity. Qed.
  Lemma data_lemma cell mesh : exists x q m d b f, new_data [cell; mesh] = Ok x /\
    get_attr x "cell" = Ok cell /\ get_attr x "mesh" = Ok mesh /\
    get_attr x "quadrature" = Ok q /\ get_attr x "mapping" = Ok m /\ get_attr x "dof" = Ok d /\ get_attr x "bc_entities" = Ok b /\ get_attr x "basis" = Ok f /\
    get_attr q "points" = Ok (Datum empty) /\ get_attr q "weights" = Ok (Datum empty) /\ get_attr d "n_dof" = Ok (Datum zero) /\ get_attr d "entity_dofs" = Ok (Datum empty) /\ get_attr d "transformations_are_identity" = Ok (Datum true_) /\ get_attr d "num_entity_dofs" = Ok (Datum empty) /\ get_attr d "transformations" = Ok (Datum no_transformations) /\
    get_attr b "bc_entities" = Ok (Datum empty) /\ get_attr f "phi" = Ok (Datum empty) /\ (forall n, get_attr m n = Err AttributeError).
  Proof. do 6 eexists. repeat (split; [reflexivity|]). reflexivity. Qed.

  Lemma copy_lemma c l :
    (c = QuadratureData \/ c = MappingData \/ c = DoFData \/ c = ElementData -> call_copy (Object c l) = Err AttributeError) /\
    (c = BCEntities -> exists y, call_copy (Object c l) = Ok y /\ get_attr y "bc_entities" = Ok (Datum empty)) /\
    (c = BasisData -> exists y, call_copy (Object c l) = Ok y /\ get_attr y "phi" = Ok (Datum empty)).
  Proof.
    split; [|split].
    - intros [-> |[-> |[-> | ->]]]; reflexivity.
    - intros ->. eexists. split; reflexivity.
    - intros ->. eexists. split; reflexivity.
  Qed.
  (** What store_mapping needs is never there *)
  Definition no_points (x : value D) : Prop := exists m, get_attr x "mapping" = Ok m /\ get_attr m "cell_points" = Err AttributeError.
  Lemma get_set (x x' : value D) n v m : set_attr x n v = Ok x' -> get_attr x' m = if String.eqb n m then Ok v else get_attr x m.
  Proof. destruct x as [|c l]; cbn; [discriminate|]. intros H. injection H as <-. cbn. destruct (String.eqb n m); auto. Qed.
  Lemma store_lemma (evaluate_mapping : D -> D -> D -> res (D * D * D * D)) cell mesh l x x' : new_data [cell; mesh] = Ok x -> assign_all l x = Ok x' ->
    (forall a v, In a l -> a <> Own "mapping" v /\ a <> Part "mapping" "cell_points" v) ->
    exists e, store_mapping evaluate_mapping x' = Err e.
  Proof.
    intros N A H.
    assert (P : no_points x) by (cbn in N; injection N as <-; eexists; split; reflexivity). clear N.
    assert (P' : no_points x').
    { revert x P A. induction l as [|a l IH]; intros x P A; cbn in A; [injection A as <-; auto|].
      destruct (assign x a) as [x1|] eqn:E; [|discriminate]. cbn in A. apply (IH (fun b v K => H b v (or_intror K)) x1); [|exact A].
      destruct P as (m & M & C). destruct a as [n v|p n v]; cbn in E.
      - exists m. rewrite (get_set _ _ _ _ "mapping" E). destruct (String.eqb n "mapping") eqn:Q; [|auto]. apply String.eqb_eq in Q. subst n. destruct (H (Own "mapping" v) v (or_introl eq_refl)) as (K & _). congruence.
      - destruct (get_attr x p) as [q|] eqn:G; [|discriminate]. cbn in E. destruct (set_attr q n v) as [q'|] eqn:S; [|discriminate]. cbn in E.
        destruct (String.eqb p "mapping") eqn:Q.
        + apply String.eqb_eq in Q. subst p. assert (q = m) as -> by congruence. exists q'. rewrite (get_set _ _ _ _ "mapping" E). split; [reflexivity|].
          rewrite (get_set _ _ _ _ "cell_points" S). destruct (String.eqb n "cell_points") eqn:Q'; [|auto]. apply String.eqb_eq in Q'. subst n. destruct (H (Part "mapping" "cell_points" v) v (or_introl eq_refl)) as (_ & K). congruence.
        + exists m. rewrite (get_set _ _ _ _ "mapping" E), Q. auto. }
    destruct P' as (m & M & C). unfold store_mapping. destruct (get_attr x' "cell") as [c|]; cbn; [|eauto]. destruct (datum c); cbn; [|eauto]. rewrite M. cbn.
    destruct (get_attr m "phi") as [phi|]; cbn; [|eauto]. destruct (datum phi); cbn; [|eauto]. rewrite C. cbn. eauto.
  Qed.
End Data.
