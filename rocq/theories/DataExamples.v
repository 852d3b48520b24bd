(** * Concrete data of elements *)
From Coq Require Import String List Arith Bool.
From Verif Require Import Base DataModel.
Import ListNotations.
Open Scope string_scope.

(** Data are lists of numbers. *)
Definition bare : value (list nat) := Object ElementData
  [("cell", Datum [4]); ("mesh", Datum [5]); ("quadrature", Object QuadratureData [("points", Datum []); ("weights", Datum [])]); ("mapping", Object MappingData []);
   ("dof", Object DoFData [("n_dof", Datum [0]); ("entity_dofs", Datum []); ("transformations_are_identity", Datum [1]); ("transformations", Datum []); ("num_entity_dofs", Datum [])]);
   ("bc_entities", Object BCEntities [("bc_entities", Datum [])]); ("basis", Object BasisData [("phi", Datum [])])].
Definition steps : list (assignment (list nat)) :=
  [Part "quadrature" "points" (Datum [1; 2]); Part "mapping" "phi" (Datum [7]); Part "mapping" "x" (Datum [8]); Own "bc_entities" (Datum [9])].
