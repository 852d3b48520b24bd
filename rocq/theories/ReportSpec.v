(** * Vocabulary of C110: extremal dimensions and the section of a cell in the report *)
From Coq Require Import String List Arith Bool ZArith.
From Verif Require Import Base MeshModel ReportModel.
Import ListNotations.
Open Scope string_scope.
Open Scope list_scope.

Definition least (m : nat) (P : nat -> Prop) : Prop := P m /\ forall n, P n -> m <= n.
Definition greatest (m : nat) (P : nat -> Prop) : Prop := P m /\ forall n, P n -> n <= m.

Definition is_tagged (c : cell) : Prop := exists t, c_mat c = Some t.
(** The lines about a cell: its own data, one line for every list of sub-cells, an empty line *)
Definition section_of {X} (physical_name : cell -> string) (c : cell) (ls : list (line X)) : Prop :=
  exists subs, ls = [ [Text "Entity_type: "; Text (match c_dim c with 0 => "0d-cell" | 1 => "1d-cell" | 2 => "2d-cell" | _ => "3d-cell" end)];
      [Text "Dimension: "; Num (c_dim c)]; [Text "Tag: "; Num (c_id c)]; [Text "Physical_tag: "; Tag (c_mat c)];
      [Text "Physical_name: "; Text (physical_name c)]; Text "Node_tags: " :: map Num (c_nodes c) ] ++ subs ++ [[Text ""]] /\
    length subs = length (c_sub c) /\
    forall d ids, nth_error (c_sub c) d = Some ids -> nth_error subs d = Some (Text "Entities of dimension" :: Num d :: Text ": " :: map Num ids).
