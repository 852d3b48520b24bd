(** * Model of Mesh.write_data, src/mesh/mesh.py:377-425

    Definitions only.  A line of the file is the list of the arguments of the call of print that
    writes it; how numbers are spelt and joined by blanks is not modelled.  [X] are coordinates,
    [physical_name] is that attribute of the cells (no part of the model of cells).  Every cell
    has an id and one of the dimensions 0 to 3. *)
From Coq Require Import String List Arith Bool ZArith.
From Verif Require Import Base MeshModel GraphModel.
Import ListNotations.
Open Scope string_scope.
Open Scope list_scope.

Section Report.
  Context {X : Type}.
  Variable physical_name : cell -> string.

  Inductive item : Type := Text (s : string) | Num (n : nat) | Tag (t : option Z) | Coord (x : X).
  Definition line : Type := list item.

  (** Calls of print one after the other, until an argument raises: what has been written, and how
      the calls end *)
  Fixpoint prints (l : list (res line)) : list line * res unit :=
    match l with
    | [] => ([], Ok tt)
    | Err e :: _ => ([], Err e)
    | Ok x :: l' => let (written, r) := prints l' in (x :: written, r)
    end.

  (** [min(l)] and [max(l)] *)
  Definition min_of (l : list nat) : res nat :=
    match l with [] => Err ValueError | x :: l' => Ok (fold_left Nat.min l' x) end.
  Definition max_of (l : list nat) : res nat :=
    match l with [] => Err ValueError | x :: l' => Ok (fold_left Nat.max l' x) end.

  (** [dimensions_with_tag], mesh.py:380-382 *)
  Definition tagged (c : cell) : bool := match c_mat c with Some _ => true | None => false end.
  (** mesh.py:384-397 *)
  Definition dimension_lines (l : list cell) : list (res line) :=
    let dimensions := map c_dim l in
    let dimensions_with_tag := map c_dim (filter tagged l) in
    [ Ok [Text "Dimension data"];
      do m <- min_of dimensions; Ok [Text "Min entity dimension: "; Num m];
      do m <- max_of dimensions; Ok [Text "Max entity dimension: "; Num m];
      do m <- min_of dimensions_with_tag; Ok [Text "Min entity dimension with physical tag: "; Num m];
      do m <- max_of dimensions_with_tag; Ok [Text "Max entity dimension with physical tag: "; Num m];
      Ok [Text ""] ].
  (** [enumerate(l)] *)
  Definition enumerated {A} (l : list A) : list (nat * A) := combine (seq 0 (List.length l)) l.
  (** mesh.py:399-402 *)
  Definition point_lines (points : list (list X)) : list line :=
    [Text "Point data"] :: [Text "Number_of_points: "; Num (List.length points)] ::
    map (fun ip => Text "tag: " :: Num (fst ip) :: Text " " :: map Coord (snd ip)) (enumerated points).
  (** MeshCell.mesh_cell_type, mesh_cell.py:118-121 *)
  Definition cell_type (d : nat) : string :=
    match d with 0 => "0d-cell" | 1 => "1d-cell" | 2 => "2d-cell" | _ => "3d-cell" end.
  (** mesh.py:408-423 *)
  Definition cell_lines (c : cell) : list line :=
    [ [Text "Entity_type: "; Text (cell_type (c_dim c))];
      [Text "Dimension: "; Num (c_dim c)];
      [Text "Tag: "; Num (c_id c)];
      [Text "Physical_tag: "; Tag (c_mat c)];
      [Text "Physical_name: "; Text (physical_name c)];
      Text "Node_tags: " :: map Num (c_nodes c) ] ++
    map (fun di => Text "Entities of dimension" :: Num (fst di) :: Text ": " :: map Num (snd di)) (enumerated (c_sub c)) ++
    [[Text ""]].
  (** Mesh.write_data, mesh.py:377-425: the lines of the file, which open(.., "w") has emptied, and
      how the call ends.  The comprehensions of lines 379-382 come before the first print. *)
  Definition write_data (points : list (list X)) (cs : cells) : list line * res unit :=
    match all_cells cs with
    | Err e => ([], Err e)
    | Ok l =>
        prints (dimension_lines l ++
                map Ok (point_lines points ++ [[Text ""]; [Text "Cell data"]; [Text "Number_of_cells: "; Num (List.length cs)]] ++
                        flat_map cell_lines l))
    end.
End Report.
Arguments item : clear implicits.
Arguments line : clear implicits.
