(** * Small instances used by the examples of the assembly *)
From Coq Require Import List Arith ZArith Bool String.
From Verif Require Import Base AssemblyModel AssemblySpec ProjectorModel ProjectorSpec.
Import ListNotations.
Open Scope list_scope.
Local Open Scope Z_scope.

(** A weak form over elements 0, 1 with destinations [0;1] and [1;2], its residual the local
    solution vector, its matrix fixed; boundary element 0 at DoF 0. *)
Definition ex_dest (i : nat) : res (list Z) :=
  match i with 0%nat => Ok [0; 1] | 1%nat => Ok [1; 2] | _ => Err KeyError end.
Definition ex_bc_dest (i : nat) : res (list Z) := match i with 0%nat => Ok [0] | _ => Err KeyError end.
Definition ex_eval (c : call Z) : res (list Z * list (list Z)) :=
  match c with
  | Call2 _ _ [a; b] => Ok ([a; b], [[2; -1]; [-1; 3]])
  | Call2 _ _ [a] => Ok ([10 * a], [[100]])
  | Call3t _ _ [a] t => Ok ([a + t], [[1]])
  | Call4 _ _ [a; b] [c; d] t => Ok ([c - a; d - b], [[t; 0]; [0; t]])
  | CallPair _ _ _ _ [a; b] [c; d] => Ok ([a; b; -c; -d], [[1; 0; 0; 0]; [0; 2; 3; 0]; [0; 4; 5; 0]; [0; 0; 0; 6]])
  | Call3p _ _ _ [a; b] => Ok ([7 * a; 7 * b], [[7; 8]; [9; 10]])
  | _ => Err ValueError
  end.
Definition ex_form : weak_form Z := mk_form Z ex_dest ex_bc_dest ex_eval.
(** vectors: 0 the residual, 1 alpha, 2 alpha_n *)
Definition ex_sys : sys Z := mk_sys Z [[1; 1; 1]; [5; 6; 7]; [2; 3; 4]] (fun _ _ => 0) [].
Definition ex_forms : list (form_input Z) :=
  [ mk_input Z "form" [Idx 0; Idx 1] ex_form [AVec Z 1];
    mk_input Z "bc_form" [Idx 0] ex_form [AVec Z 1];
    mk_input Z "interface_form" [Triplet 0 0 1] ex_form [AVec Z 1];
    mk_input Z "bc_interface_form" [Pair 0 1] ex_form [AVec Z 1];
    mk_input Z "time_dependent_form" [Idx 1] ex_form [ATuple Z [2%nat; 1%nat]; ANum Z 9];
    mk_input Z "time_dependent_bc_form" [Idx 0] ex_form [ATuple Z [2%nat; 1%nat]; ANum Z 9] ].
Definition ex_ws : list (local Z) :=
  [ mk_local Z [0; 1] (Call2 Z 0 [5; 6]) [5; 6] [[2; -1]; [-1; 3]];
    mk_local Z [1; 2] (Call2 Z 1 [6; 7]) [6; 7] [[2; -1]; [-1; 3]];
    mk_local Z [0] (Call2 Z 0 [5]) [50] [[100]];
    mk_local Z [0; 1; 1; 2] (CallPair Z 0 0 1 [5; 6] [6; 7]) [5; 6; -6; -7]
      [[1; 0; 0; 0]; [0; 2; 3; 0]; [0; 4; 5; 0]; [0; 0; 0; 6]];
    mk_local Z [1; 2] (Call3p Z 0 1 [6; 7]) [42; 49] [[7; 8]; [9; 10]];
    mk_local Z [1; 2] (Call4 Z 1 [3; 4] [6; 7] 9) [3; 3] [[9; 0]; [0; 9]];
    mk_local Z [0] (Call3t Z 0 [2] 9) [11] [[1]] ].

Lemma ex_exact : exact Z.add 0.
Proof.
  split; [intros; apply eq_sym, Z.add_assoc|]. split; [apply Z.add_comm|apply Z.add_0_r].
Qed.

Lemma ex_well_posed : well_posed Z 0 3 ex_sys ex_forms ex_ws.
Proof.
  unfold well_posed. split; [apply le_n_S, Nat.le_0_l|]. split; [reflexivity|]. split.
  - unfold ex_forms. repeat apply Forall_cons; try apply Forall_nil; unfold valid_input; cbn [fi_type fi_args].
    1-4: left; split; [simpl; tauto|exists 1%nat; reflexivity].
    all: right; split; [simpl; tauto|exists 2%nat, 1%nat, 9; reflexivity].
  - split.
    + intros f Hf. simpl in Hf.
      repeat (destruct Hf as [<-|Hf]; [vm_compute; intuition discriminate|]). destruct Hf.
    + unfold tasks, ex_forms, ex_ws. simpl.
      repeat apply Forall2_cons; try apply Forall2_nil; (split; [|split; [reflexivity|split;
        [intros g Hg; simpl in Hg; repeat (destruct Hg as [<-|Hg]; [split; reflexivity || (intros Q; discriminate Q)|]); destruct Hg
        |repeat (split; [reflexivity|]); repeat constructor]]]).
      * apply LForm; [reflexivity|]; repeat constructor; discriminate.
      * apply LForm; [reflexivity|]; repeat constructor; discriminate.
      * apply LBc; [reflexivity|]; repeat constructor; discriminate.
      * apply (LInterface Z ex_sys ex_form 1 0 0 1 [0; 1] [1; 2] [5; 6] [6; 7]); try reflexivity; repeat constructor; discriminate.
      * apply LBcInterface; [reflexivity|]; repeat constructor; discriminate.
      * apply LTime; [reflexivity| |]; repeat constructor; discriminate.
      * apply LTimeBc; [reflexivity|]; repeat constructor; discriminate.
Qed.

(** The same forms, listed and traversed in another order *)
Definition ex_forms' : list (form_input Z) :=
  [ mk_input Z "time_dependent_form" [Idx 1] ex_form [ATuple Z [2%nat; 1%nat]; ANum Z 9];
    mk_input Z "form" [Idx 1; Idx 0] ex_form [AVec Z 1] ].
Definition ex_forms1 : list (form_input Z) :=
  [ mk_input Z "form" [Idx 0; Idx 1] ex_form [AVec Z 1];
    mk_input Z "time_dependent_form" [Idx 1] ex_form [ATuple Z [2%nat; 1%nat]; ANum Z 9] ].

(** L2 projection on two elements, numbers in units of 1e-24 *)
Definition ex_space : fe_space := mk_space 4 2 17 (fun sh i => match i with
  | 0%nat => Ok [sh + 0; sh + 1] | 1%nat => Ok [sh + 1; sh + 2] | _ => Err KeyError end).
Definition big : Z := 1000000000000000000000000.
Definition ex_mass (i : nat) (_ : list Z) : res (list Z * list (list Z)) :=
  Ok ([3; 4], [[2 * big; big]; [big; 2 * big]]).
Definition ex_mass_ws : list (local Z) :=
  [ mk_local Z [1; 2] (Call2 Z 0 []) [3; 4] [[2 * big; big]; [big; 2 * big]];
    mk_local Z [2; 3] (Call2 Z 1 []) [3; 4] [[2 * big; big]; [big; 2 * big]] ].
(** a local mass matrix of a small element: entries 2e-9 and 1e-9 *)
Definition small : Z := 1000000000000000.
Definition ex_small_mass (i : nat) (_ : list Z) : res (list Z * list (list Z)) :=
  Ok ([3; 4], [[2 * small; small]; [small; 2 * small]]).
Definition ex_small_ws : list (local Z) :=
  [ mk_local Z [1; 2] (Call2 Z 0 []) [3; 4] [[2 * small; small]; [small; 2 * small]];
    mk_local Z [2; 3] (Call2 Z 1 []) [3; 4] [[2 * small; small]; [small; 2 * small]] ].
Lemma ex_elements eval a b : (forall i l, eval i l = Ok ([3; 4], [[a; b]; [b; a]])) ->
  Forall2 (element_ok 0 4 (fs_dest ex_space 0) eval 1) (seq 0 (fs_elements ex_space))
    [ mk_local Z [1; 2] (Call2 Z 0 []) [3; 4] [[a; b]; [b; a]]; mk_local Z [2; 3] (Call2 Z 1 []) [3; 4] [[a; b]; [b; a]] ].
Proof.
  intros H.
  assert (ND : forall x y : Z, x <> y -> NoDup [x; y]).
  { intros x y N. constructor; [intros [Q|[]]; auto|]. constructor; [intros []|constructor]. }
  repeat apply Forall2_cons; try apply Forall2_nil;
    (split; [eexists; split; reflexivity|]; split; [apply H|]; split; [apply ND; discriminate|]; split;
     [intros g Hg; simpl in Hg; repeat (destruct Hg as [<-|Hg]; [split; reflexivity || (intros Q; discriminate Q)|]); destruct Hg
     |repeat (split; [reflexivity|]); repeat constructor]).
Qed.
Lemma ex_symmetric (a b : Z) : symmetric_matrix [[a; b]; [b; a]].
Proof. intros [|[|[|x]]] [|[|[|y]]]; reflexivity. Qed.
