(** * Model of the assembly of src/postprocess/projectors.py

    Definitions only.  [close] is np.isclose(_, 1.0e-16).  The function space enters through
    its number of DoFs, the number of elements of its first field, its dof_shift attribute and
    its destination map, which depends on that attribute; the weak form through evaluate_form.
    The linear solve (lines 75-93) is external and not modelled.  A matrix of type sbaij keeps
    the upper triangle only and represents a symmetric matrix. *)
From Coq Require Import List Arith ZArith Bool.
From Verif Require Import Base AssemblyModel.
Import ListNotations.
Open Scope list_scope.

Section Projector.
  Variables (V : Type) (add : V -> V -> V) (zero : V) (close : V -> bool).

  Record fe_space : Type := mk_space {
    fs_n_dof : nat; fs_elements : nat; fs_shift : Z; fs_dest : Z -> nat -> res (list Z) }.

  (** store references of rg and alpha *)
  Definition rg_ref : nat := 0.
  Definition alpha_ref : nat := 1.

  (** [rg[dest] += r_el]: the sums are computed from the old vector, then stored in order.
      Simplified: a length mismatch is a ValueError (numpy would broadcast a single entry). *)
  Definition add_fancy (dest : list Z) (r_el : list V) : st V unit := fun s =>
    let r := vec V s rg_ref in
    match fancy V r dest, mapM (np_index (List.length r)) dest with
    | Err e, _ => (s, Err e)
    | _, Err e => (s, Err e)
    | Ok old, Ok pos =>
        if List.length dest =? List.length r_el then
          let new := map (fun p => add (fst p) (snd p)) (combine old r_el) in
          (mk_sys V (set_at (vecs V s) rg_ref (fold_left (fun v p => set_at v (fst p) (snd p)) (combine pos new) r))
                  (jac V s) (calls V s), Ok tt)
        else (s, Err ValueError)
    end.

  (** scatter_form_data, projectors.py:30-58 *)
  Definition scatter_element (n : Z) (dest_map : nat -> res (list Z)) (eval : nat -> list V -> res (list V * list (list V)))
      (dof_shift : Z) (symmetric : bool) (i : nat) : st V unit :=
    bindS V (lift V (dest_map i)) (fun dest0 =>
    let dest := map (fun g => (g + dof_shift)%Z) dest0 in
    bindS V (take V alpha_ref dest) (fun alpha_l =>
    bindS V (lift V (eval i alpha_l)) (fun rj =>
    bindS V (add_fancy dest (fst rj)) (fun _ =>
    let data := List.concat (snd rj) in
    let row := np_repeat dest (List.length dest) in
    let col := np_tile dest (List.length dest) in
    forS V (fun k =>
      bindS V (lift V (get_at data k)) (fun v =>
      if close v then ret V tt else
      bindS V (lift V (get_at row k)) (fun r =>
      bindS V (lift V (get_at col k)) (fun c =>
      if symmetric then (if (r <=? c)%Z then add_jac V add n r c v else ret V tt)
      else add_jac V add n r c v)))) (seq 0 (List.length data)))))).

  (** l2_projector, projectors.py:8-63: the assembled system and dof_shift afterwards (an
      exception leaves it at 0) *)
  Definition l2_assemble (sp : fe_space) (eval : nat -> list V -> res (list V * list (list V)))
      (dof_shift : Z) (symmetric : bool) : sys V * Z * res unit :=
    let n := fs_n_dof sp in
    let s0 := mk_sys V [repeat zero n; repeat zero n] (fun _ _ => zero) [] in
    let (s, r) := forS V (scatter_element (Z.of_nat n) (fs_dest sp 0) eval dof_shift symmetric)
                       (seq 0 (fs_elements sp)) s0 in
    match r with Ok _ => (s, fs_shift sp, Ok tt) | Err e => (s, 0%Z, Err e) end.

  (** The matrix a stored one stands for *)
  Definition represented (symmetric : bool) (s : sys V) (r c : Z) : V :=
    if symmetric then jac V s (Z.min r c) (Z.max r c) else jac V s r c.
End Projector.

(** np.isclose(x, 1.0e-16), projectors.py:47, for numbers given in units of 1e-24:
    |x - b| <= atol + rtol |b| with atol = 1e-8, rtol = 1e-5 *)
Definition np_isclose_24 (x : Z) : bool :=
  (Z.abs (x - 100000000) <=? 10000000000000000 + 1000)%Z.
