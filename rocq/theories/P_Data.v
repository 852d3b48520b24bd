(** * Property: the data of elements (src/basis/element_data.py, src/geometry/mapping.py) *)
From Coq Require Import String List Arith Bool.
From Verif Require Import Base DataModel DataProof DataExamples.
Import ListNotations.
Open Scope string_scope.

(** ** C109 *)
Theorem C109_new : forall (D : Type) (empty zero true_ no_transformations none : D),
  (forall points weights, exists x, new_part empty zero true_ no_transformations none QuadratureData [points; weights] = Ok x /\ get_attr x "points" = Ok points /\ get_attr x "weights" = Ok weights) /\
    (forall n dofs id ts num, exists x, new_part empty zero true_ no_transformations none DoFData [n; dofs; id; ts; num] = Ok x /\ get_attr x "n_dof" = Ok n /\ get_attr x "entity_dofs" = Ok dofs /\ get_attr x "transformations_are_identity" = Ok id /\ get_attr x "transformations" = Ok ts /\ get_attr x "num_entity_dofs" = Ok num) /\
    (forall b, exists x, new_part empty zero true_ no_transformations none BCEntities [b] = Ok x /\ get_attr x "bc_entities" = Ok b) /\
    (forall phi, exists x, new_part empty zero true_ no_transformations none BasisData [phi] = Ok x /\ get_attr x "phi" = Ok phi) /\
    (forall args, 2 < length args -> new_part empty zero true_ no_transformations none QuadratureData args = Err TypeError /\ new_data empty zero true_ no_transformations none args = Err TypeError) /\
    (forall args, 5 < length args -> new_part empty zero true_ no_transformations none DoFData args = Err TypeError /\ new_part empty zero true_ no_transformations none MappingData args = Err TypeError) /\
    (forall args, 1 < length args -> new_part empty zero true_ no_transformations none BCEntities args = Err TypeError /\ new_part empty zero true_ no_transformations none BasisData args = Err TypeError).
Proof. exact @new_lemma. Qed.
Print Assumptions C109_new.
Example C109_new_example : exists x, new_part [] [0] [1] [] [] QuadratureData [Datum [3]] = Ok x /\ get_attr x "points" = Ok (Datum [3]) /\ get_attr x "weights" = Ok (Datum []).
Proof. eexists. repeat split; reflexivity. Qed.

Theorem C109_element : forall (D : Type) (empty zero true_ no_transformations none : D) cell mesh, exists x q m d b f,
  new_data empty zero true_ no_transformations none [cell; mesh] = Ok x /\
  get_attr x "cell" = Ok cell /\ get_attr x "mesh" = Ok mesh /\
  get_attr x "quadrature" = Ok q /\ get_attr x "mapping" = Ok m /\ get_attr x "dof" = Ok d /\ get_attr x "bc_entities" = Ok b /\ get_attr x "basis" = Ok f /\
  get_attr q "points" = Ok (Datum empty) /\ get_attr q "weights" = Ok (Datum empty) /\ get_attr d "n_dof" = Ok (Datum zero) /\ get_attr d "entity_dofs" = Ok (Datum empty) /\ get_attr d "transformations_are_identity" = Ok (Datum true_) /\ get_attr d "num_entity_dofs" = Ok (Datum empty) /\ get_attr d "transformations" = Ok (Datum no_transformations) /\
  get_attr b "bc_entities" = Ok (Datum empty) /\ get_attr f "phi" = Ok (Datum empty) /\ (forall n, get_attr m n = Err AttributeError).
Proof. exact @data_lemma. Qed.
Print Assumptions C109_element.
Example C109_element_example : new_data [] [0] [1] [] [] [Datum [4]; Datum [5]] = Ok bare.
Proof. reflexivity. Qed.

(** False for MappingData, which keeps nothing of its arguments. *)
Theorem C109_mapping_refuted : forall (D : Type) (empty zero true_ no_transformations none : D) args x n,
  new_part empty zero true_ no_transformations none MappingData args = Ok x -> get_attr x n = Err AttributeError.
Proof. exact @mapping_lemma. Qed.
Print Assumptions C109_mapping_refuted.
Example C109_mapping_example : exists x, new_part [] [0] [1] [] [] MappingData [Datum [7]; Datum [8]] = Ok x /\ get_attr x "phi" = Err AttributeError.
Proof. eexists. split; reflexivity. Qed.

(** copy() raises, or returns an object without the data, whatever has been assigned before. *)
Theorem C109_copy_refuted : forall (D : Type) (empty zero true_ no_transformations none : D) c l,
  (c = QuadratureData \/ c = MappingData \/ c = DoFData \/ c = ElementData -> call_copy empty zero true_ no_transformations none (Object c l) = Err AttributeError) /\
  (c = BCEntities -> exists y, call_copy empty zero true_ no_transformations none (Object c l) = Ok y /\ get_attr y "bc_entities" = Ok (Datum empty)) /\
  (c = BasisData -> exists y, call_copy empty zero true_ no_transformations none (Object c l) = Ok y /\ get_attr y "phi" = Ok (Datum empty)).
Proof. exact @copy_lemma. Qed.
Print Assumptions C109_copy_refuted.
Example C109_copy_example : call_copy [] [0] [1] [] [] bare = Err AttributeError /\
  exists x y, new_part [] [0] [1] [] [] BasisData [Datum [3]] = Ok x /\ get_attr x "phi" = Ok (Datum [3]) /\ call_copy [] [0] [1] [] [] x = Ok y /\ get_attr y "phi" = Ok (Datum []).
Proof. split; [reflexivity|]. do 2 eexists. repeat split; reflexivity. Qed.

(** store_mapping never returns, whatever has been assigned but for mapping.cell_points or a whole
    new mapping, neither of which occurs in the library. *)
Theorem C109_store_refuted : forall (D : Type) (empty zero true_ no_transformations none : D) evaluate_mapping cell mesh l x x',
  new_data empty zero true_ no_transformations none [cell; mesh] = Ok x -> assign_all l x = Ok x' ->
  (forall a v, In a l -> a <> Own "mapping" v /\ a <> Part "mapping" "cell_points" v) -> exists e, store_mapping evaluate_mapping x' = Err e.
Proof. exact @store_lemma. Qed.
Print Assumptions C109_store_refuted.
Example C109_store_example : exists x', assign_all steps bare = Ok x' /\ store_mapping (fun a b c => Ok (a, b, c, a)) x' = Err AttributeError.
Proof. eexists. split; reflexivity. Qed.
