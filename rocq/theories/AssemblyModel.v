(** * Model of the assembly: src/assembly/ScatterFormData.py, src/assembly/SequentialAssembler.py

    Definitions only.  Numbers are elements of an arbitrary type [V] with an addition
    (exact arithmetic).  numpy vectors live in a store and are passed by reference, so the
    residual and the solution vectors may alias.  The Jacobian is a PETSc matrix:
    setValue with addv adds to one entry, skips negative indices and fails on indices
    beyond the size.  A weak form is a parameter: its destination maps and its
    evaluate_form, which must not write into the store.  Every call of evaluate_form is
    recorded.  Timing output is left out. *)
From Coq Require Import List Arith ZArith Bool String.
From Verif Require Import Base.
Import ListNotations.
Open Scope list_scope.

Section Assembly.
  Variable V : Type.
  Variable add : V -> V -> V.

  (** The arguments evaluate_form is called with, ScatterFormData.py:31, 39, 48, 56, 67, 75 *)
  Inductive call : Type :=
  | Call2 (idx : nat) (alpha : list V)                              (* (idx, alpha_l) *)
  | Call4 (idx : nat) (alpha_n alpha : list V) (t : V)              (* (idx, alpha_l_n, alpha_l, t) *)
  | Call3t (idx : nat) (alpha : list V) (t : V)                     (* (idx, alpha_l, t) *)
  | CallPair (idx p n : nat) (alpha_p alpha_n : list V)             (* (idx, (p, n), (alpha_p, alpha_n)) *)
  | Call3p (idx p : nat) (alpha : list V).                          (* (idx, idx_p, alpha_l) *)

  (** A weak form: space.destination_indexes, space.bc_destination_indexes, evaluate_form.
      A local matrix is the list of its rows. *)
  Record weak_form : Type := mk_form {
    wf_dest : nat -> res (list Z);
    wf_bc_dest : nat -> res (list Z);
    wf_eval : call -> res (list V * list (list V)) }.

  (** Items of a sequence: an index, (idx, idx_p) or (idx, (idx_p, idx_n)) *)
  Inductive item : Type := Idx (i : nat) | Pair (i p : nat) | Triplet (i p n : nat).

  (** What follows the form in an input list: a vector, a tuple of vectors or a number *)
  Inductive arg : Type := AVec (ref : nat) | ATuple (refs : list nat) | ANum (t : V).

  (** One entry of form_to_input_list: [form_type, sequence, form, *args] *)
  Record form_input : Type := mk_input {
    fi_type : string; fi_seq : list item; fi_form : weak_form; fi_args : list arg }.

  (** The mutable state *)
  Record sys : Type := mk_sys {
    vecs : list (list V); jac : Z -> Z -> V; calls : list (weak_form * call) }.

  (** Stateful computations that may raise: the state is kept when they do *)
  Definition st (A : Type) : Type := sys -> sys * res A.
  Definition ret {A} (a : A) : st A := fun s => (s, Ok a).
  Definition fail {A} (e : err) : st A := fun s => (s, Err e).
  Definition lift {A} (r : res A) : st A := fun s => (s, r).
  Definition bindS {A B} (m : st A) (f : A -> st B) : st B :=
    fun s => let (s', r) := m s in match r with Ok a => f a s' | Err e => (s', Err e) end.
  Notation "'let!' x := m 'in' k" := (bindS m (fun x => k))
    (at level 200, x pattern, m at level 100, k at level 200, right associativity).
  Fixpoint forS {A} (f : A -> st unit) (l : list A) : st unit :=
    match l with [] => ret tt | x :: l' => let! _ := f x in forS f l' end.

  (** numpy index: negative ones count from the end *)
  Definition np_index (len : nat) (i : Z) : res nat :=
    let j := (if i <? 0 then i + Z.of_nat len else i)%Z in
    if ((0 <=? j) && (j <? Z.of_nat len))%Z then Ok (Z.to_nat j) else Err IndexError.

  (** The vector behind a reference (references are never dangling) *)
  Definition vec (s : sys) (ref : nat) : list V := nth ref (vecs s) [].

  (** [a[idx]] with an integer array [idx]: a fresh array *)
  Definition fancy (a : list V) (idx : list Z) : res (list V) :=
    mapM (fun i => do k <- np_index (List.length a) i; get_at a k) idx.
  Definition take (ref : nat) (idx : list Z) : st (list V) :=
    fun s => (s, fancy (vec s ref) idx).
  (** [alpha[idx]] where [alpha] is an entry of the input list: a tuple is not indexable by
      an array, a number not at all *)
  Definition take_arg (a : arg) (idx : list Z) : st (list V) :=
    match a with AVec ref => take ref idx | _ => fail TypeError end.

  Section System.
    (** references to the residual vector and the size of the Jacobian *)
    Variables (res_g : nat) (n : Z).

    (** [res_g[i] += v] *)
    Definition add_res (i : Z) (v : res V) : st unit :=
      fun s =>
        let r := vec s res_g in
        match np_index (List.length r) i with
        | Err e => (s, Err e)
        | Ok k =>
            match get_at r k, v with
            | Err e, _ => (s, Err e)
            | _, Err e => (s, Err e)
            | Ok old, Ok x =>
                (mk_sys (set_at (vecs s) res_g (set_at r k (add old x))) (jac s) (calls s), Ok tt)
            end
        end.

    (** [jac_g.setValue(row, col, value, addv=True)] *)
    Definition add_jac (row col : Z) (v : V) : st unit :=
      fun s =>
        if ((row <? 0) || (col <? 0))%Z then (s, Ok tt)
        else if ((n <=? row) || (n <=? col))%Z then (s, Err PETScError)
        else (mk_sys (vecs s)
                (fun r c => if ((r =? row) && (c =? col))%Z then add (jac s r c) v else jac s r c)
                (calls s), Ok tt).

    (** __scatter_generic_rhs_data, ScatterFormData.py:15-19 *)
    Fixpoint scatter_rhs_from (k : nat) (res_l : list V) (dest : list Z) : st unit :=
      match dest with
      | [] => ret tt
      | g :: dest' => let! _ := add_res g (get_at res_l k) in scatter_rhs_from (k + 1) res_l dest'
      end.
    Definition scatter_rhs (res_l : list V) (dest : list Z) : st unit := scatter_rhs_from 0 res_l dest.

    (** np.repeat and np.tile *)
    Definition np_repeat {A} (l : list A) (m : nat) : list A := flat_map (fun x => repeat x m) l.
    Definition np_tile {A} (l : list A) (m : nat) : list A := List.concat (repeat l m).

    (** __scatter_generic_lhs_data, ScatterFormData.py:5-12 *)
    Definition scatter_lhs (jac_l : list (list V)) (dest : list Z) : st unit :=
      let data := List.concat jac_l in
      let row := np_repeat dest (List.length dest) in
      let col := np_tile dest (List.length dest) in
      forS (fun k => let! r := lift (get_at row k) in
                     let! c := lift (get_at col k) in
                     let! v := lift (get_at data k) in
                     add_jac r c v) (seq 0 (List.length data)).

    (** __scatter_generic_form_data, ScatterFormData.py:22-26 *)
    Definition scatter_generic (r : list V * list (list V)) (dest : list Z) : st unit :=
      let! _ := scatter_rhs (fst r) dest in scatter_lhs (snd r) dest.

    (** weak_form.evaluate_form with its arguments recorded *)
    Definition evaluate (w : weak_form) (c : call) : st (list V * list (list V)) :=
      fun s => (mk_sys (vecs s) (jac s) (calls s ++ [(w, c)]), wf_eval w c).

    (** Item shapes; the wrong shape fails when it is unpacked or used as an index *)
    Definition as_idx (x : item) : res nat := match x with Idx i => Ok i | _ => Err TypeError end.
    Definition as_pair (x : item) : res (nat * nat) :=
      match x with Pair i p => Ok (i, p) | _ => Err TypeError end.
    Definition as_triplet (x : item) : res (nat * (nat * nat)) :=
      match x with Triplet i p q => Ok (i, (p, q)) | _ => Err TypeError end.

    (** scatter_time_dependent_form_data, ScatterFormData.py:29-34 *)
    Definition scatter_time_dependent_form_data (w : weak_form) (alpha_n alpha : arg) (t : V) (x : item) : st unit :=
      let! idx := lift (as_idx x) in
      let! dest := lift (wf_dest w idx) in
      let! alpha_l := take_arg alpha dest in
      let! alpha_l_n := take_arg alpha_n dest in
      let! r := evaluate w (Call4 idx alpha_l_n alpha_l t) in
      scatter_generic r dest.

    (** scatter_form_data, ScatterFormData.py:37-41 *)
    Definition scatter_form_data (w : weak_form) (alpha : arg) (x : item) : st unit :=
      let! idx := lift (as_idx x) in
      let! dest := lift (wf_dest w idx) in
      let! alpha_l := take_arg alpha dest in
      let! r := evaluate w (Call2 idx alpha_l) in
      scatter_generic r dest.

    (** scatter_time_dependent_bc_form_data, ScatterFormData.py:44-50 *)
    Definition scatter_time_dependent_bc_form_data (w : weak_form) (alpha_n alpha : arg) (t : V) (x : item) : st unit :=
      let! idx := lift (as_idx x) in
      let! dest := lift (wf_bc_dest w idx) in
      let! alpha_l := take_arg alpha_n dest in
      let! r := evaluate w (Call3t idx alpha_l t) in
      scatter_generic r dest.

    (** scatter_bc_form_data, ScatterFormData.py:53-57 *)
    Definition scatter_bc_form_data (w : weak_form) (alpha : arg) (x : item) : st unit :=
      let! idx := lift (as_idx x) in
      let! dest := lift (wf_bc_dest w idx) in
      let! alpha_l := take_arg alpha dest in
      let! r := evaluate w (Call2 idx alpha_l) in
      scatter_generic r dest.

    (** scatter_interface_form_data, ScatterFormData.py:60-69 *)
    Definition scatter_interface_form_data (w : weak_form) (alpha : arg) (x : item) : st unit :=
      let! (idx, (p, q)) := lift (as_triplet x) in
      let! dest_p := lift (wf_dest w p) in
      let! dest_n := lift (wf_dest w q) in
      let dest := dest_p ++ dest_n in
      let! alpha_p := take_arg alpha dest_p in
      let! alpha_n := take_arg alpha dest_n in
      let! r := evaluate w (CallPair idx p q alpha_p alpha_n) in
      scatter_generic r dest.

    (** scatter_bc_interface_form_data, ScatterFormData.py:72-77 *)
    Definition scatter_bc_interface_form_data (w : weak_form) (alpha : arg) (x : item) : st unit :=
      let! (idx, p) := lift (as_pair x) in
      let! dest := lift (wf_dest w p) in
      let! alpha_l := take_arg alpha dest in
      let! r := evaluate w (Call3p idx p alpha_l) in
      scatter_generic r dest.

    (** The scatter routines by calling convention: (weak_form, res_g, jac_g, alpha) or
        (weak_form, res_g, jac_g, alpha_n, alpha, t) *)
    Inductive routine : Type :=
    | Plain (f : weak_form -> arg -> item -> st unit)
    | Timed (f : weak_form -> arg -> arg -> V -> item -> st unit).

    (** form_type_to_callable_map, SequentialAssembler.py:19-29 *)
    Definition callable_map : list (string * routine) :=
      [ ("form", Plain scatter_form_data);
        ("bc_form", Plain scatter_bc_form_data);
        ("interface_form", Plain scatter_interface_form_data);
        ("bc_interface_form", Plain scatter_bc_interface_form_data);
        ("time_dependent_form", Timed scatter_time_dependent_form_data);
        ("time_dependent_bc_form", Timed scatter_time_dependent_bc_form_data) ]%string.
    Fixpoint lookup (k : string) (l : list (string * routine)) : res routine :=
      match l with
      | [] => Err KeyError
      | (k', f) :: l' => if String.eqb k k' then Ok f else lookup k l'
      end.

    (** [s in t] for strings *)
    Definition contains (s t : string) : bool :=
      match String.index 0 s t with Some _ => true | None => false end.

    (** __time_dependent_scatter_form, SequentialAssembler.py:42-55.  A plain routine called
        with the keywords alpha_n and t raises TypeError at the first item.  Simplified: every
        pair of inputs other than a tuple and a number raises TypeError. *)
    Definition time_dependent_scatter_form (f : form_input) : st unit :=
      match fi_args f with
      | [ATuple [alpha_n; alpha]; ANum t] =>
          let! r := lift (lookup (fi_type f) callable_map) in
          match r with
          | Timed g => forS (g (fi_form f) (AVec alpha_n) (AVec alpha) t) (fi_seq f)
          | Plain _ => match fi_seq f with [] => ret tt | _ => fail TypeError end
          end
      | [ATuple _; ANum _] => fail ValueError   (* alpha_n, alpha = alphas *)
      | [_; _] => fail TypeError
      | _ => fail ValueError                    (* 5 entries expected *)
      end.

    (** __scatter_form, SequentialAssembler.py:57-67 *)
    Definition scatter_form (f : form_input) : st unit :=
      match fi_args f with
      | [alpha] =>
          let! r := lift (lookup (fi_type f) callable_map) in
          match r with
          | Plain g => forS (g (fi_form f) alpha) (fi_seq f)
          | Timed _ => match fi_seq f with [] => ret tt | _ => fail TypeError end
          end
      | _ => fail ValueError
      end.

    (** scatter_forms, SequentialAssembler.py:69-87 *)
    Definition scatter_one (f : form_input) : st unit :=
      if contains "time_dependent" (fi_type f) then time_dependent_scatter_form f else scatter_form f.
    Definition scatter_forms (forms : list form_input) : st unit := forS scatter_one forms.
  End System.
End Assembly.
