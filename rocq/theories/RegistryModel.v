(** * Model of the legacy cell registry, src/mesh/mesh.py:42-64

    Definitions only.  Of a registered cell only its identity matters: a cell is
    represented by the request (sign, type, tags) that created it. *)
From Coq Require Import List Arith ZArith Bool String Decimal DecimalString DecimalZ.
From Verif Require Import Base.
Import ListNotations.
Local Open Scope string_scope.

#[export] Instance EqDec_string : EqDec string := string_dec.

(** [str(integer)] *)
Definition str_int (z : Z) : string := NilZero.string_of_int (Z.to_int z).

(** Arguments (sign, type_index, tags) of insert_cell_data. *)
Record request : Type := mk_request { r_sign : Z; r_type : Z; r_tags : list Z }.

(** [chunk] and [key], mesh.py:44-51: six integers, the tags padded with zeros on the
    right; [chunk[i + 2] = tag] raises IndexError for a fifth tag. *)
Definition chunk (r : request) : res (list Z) :=
  if (4 <? List.length (r_tags r))%nat then Err IndexError
  else Ok (r_sign r :: r_type r :: r_tags r ++ repeat 0%Z (4 - List.length (r_tags r)))%list.
Definition concat_str (l : list Z) : string := fold_left (fun k i => k ++ str_int i) l "".
Definition key_of (r : request) : res string := do c <- chunk r; Ok (concat_str c).

(** [self.cell_data] and [self.cells] *)
Record registry : Type := mk_registry { g_data : dict string nat; g_cells : list request }.
Definition empty_registry : registry := mk_registry [] [].

(** Mesh.insert_cell_data, mesh.py:42-64; the result is the id of the returned cell
    (and the new state).  [self.cells[cell_id]] raises IndexError when absent. *)
Definition insert_cell_data (g : registry) (r : request) : res (registry * nat) :=
  do key <- key_of r;
  match dget (g_data g) key with
  | None => let id := List.length (g_data g) in
            Ok (mk_registry (dset (g_data g) key id) (g_cells g ++ [r])%list, id)
  | Some id => do _ <- get_at (g_cells g) id; Ok (g, id)
  end.

(** A sequence of calls on an initially empty mesh: the ids of the returned cells. *)
Fixpoint run_inserts (g : registry) (rs : list request) : res (registry * list nat) :=
  match rs with
  | [] => Ok (g, [])
  | r :: rs' => do (g1, id) <- insert_cell_data g r;
                do (g2, ids) <- run_inserts g1 rs'; Ok (g2, id :: ids)
  end.
