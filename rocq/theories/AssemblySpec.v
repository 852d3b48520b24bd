(** * Specification vocabulary for the assembly *)
From Coq Require Import List Arith ZArith Bool String Permutation.
From Verif Require Import Base AssemblyModel.
Import ListNotations.
Open Scope list_scope.

(** Exact arithmetic: addition is associative and commutative with neutral element. *)
Definition exact {V} (add : V -> V -> V) (zero : V) : Prop :=
  (forall a b c, add (add a b) c = add a (add b c)) /\ (forall a b, add a b = add b a) /\
  (forall a, add a zero = a).

Section Spec.
  Variables (V : Type) (add : V -> V -> V) (zero : V).
  Notation weak_form := (weak_form V).
  Notation form_input := (form_input V).
  Notation sys := (sys V).

  Definition vsum (l : list V) : V := fold_right add zero l.

  (** One evaluation to be done: form type, weak form, further inputs, item. *)
  Record task : Type := mk_task { tk_type : string; tk_form : weak_form; tk_args : list (arg V); tk_item : item }.
  Definition tasks (forms : list form_input) : list task :=
    flat_map (fun f => map (mk_task (fi_type V f) (fi_form V f) (fi_args V f)) (fi_seq V f)) forms.

  (** [l] is the restriction of the vector [v] to the indices [d]. *)
  Definition restriction (v : list V) (d : list Z) (l : list V) : Prop :=
    Forall2 (fun g x => (0 <= g)%Z /\ nth_error v (Z.to_nat g) = Some x) d l.

  (** What each form type means: destination indices, arguments of evaluate_form. *)
  Inductive local_call (s : sys) : task -> list Z -> call V -> Prop :=
  | LForm : forall w a i d al, wf_dest V w i = Ok d -> restriction (vec V s a) d al ->
      local_call s (mk_task "form" w [AVec V a] (Idx i)) d (Call2 V i al)
  | LBc : forall w a i d al, wf_bc_dest V w i = Ok d -> restriction (vec V s a) d al ->
      local_call s (mk_task "bc_form" w [AVec V a] (Idx i)) d (Call2 V i al)
  | LInterface : forall w a i p q dp dq ap aq, wf_dest V w p = Ok dp -> wf_dest V w q = Ok dq ->
      restriction (vec V s a) dp ap -> restriction (vec V s a) dq aq ->
      local_call s (mk_task "interface_form" w [AVec V a] (Triplet i p q)) (dp ++ dq) (CallPair V i p q ap aq)
  | LBcInterface : forall w a i p d al, wf_dest V w p = Ok d -> restriction (vec V s a) d al ->
      local_call s (mk_task "bc_interface_form" w [AVec V a] (Pair i p)) d (Call3p V i p al)
  | LTime : forall w an a t i d aln al, wf_dest V w i = Ok d -> restriction (vec V s an) d aln ->
      restriction (vec V s a) d al ->
      local_call s (mk_task "time_dependent_form" w [ATuple V [an; a]; ANum V t] (Idx i)) d (Call4 V i aln al t)
  (** as the code does it: the previous solution, see C28 *)
  | LTimeBc : forall w an a t i d aln, wf_bc_dest V w i = Ok d -> restriction (vec V s an) d aln ->
      local_call s (mk_task "time_dependent_bc_form" w [ATuple V [an; a]; ANum V t] (Idx i)) d (Call3t V i aln t).

  (** The local result of a task: destinations, residual entries and a square matrix. *)
  Record local : Type := mk_local { lo_dest : list Z; lo_call : call V; lo_res : list V; lo_jac : list (list V) }.
  Definition local_ok (s : sys) (n : nat) (t : task) (w : local) : Prop :=
    local_call s t (lo_dest w) (lo_call w) /\
    wf_eval V (tk_form t) (lo_call w) = Ok (lo_res w, lo_jac w) /\
    (forall g, In g (lo_dest w) -> (0 <= g < Z.of_nat n)%Z) /\
    List.length (lo_res w) = List.length (lo_dest w) /\
    List.length (lo_jac w) = List.length (lo_dest w) /\
    Forall (fun row => List.length row = List.length (lo_dest w)) (lo_jac w).

  (** Sum of the local residual entries whose destination is [g]. *)
  Definition res_contrib (g : Z) (w : local) : V :=
    vsum (map snd (filter (fun p => Z.eqb (fst p) g) (combine (lo_dest w) (lo_res w)))).
  (** Sum of the local matrix entries (k, l) with destinations [g], [h]. *)
  Definition jac_contrib (g h : Z) (w : local) : V :=
    vsum (flat_map (fun p => map snd (filter (fun c => Z.eqb (fst c) h) (combine (lo_dest w) (snd p))))
                   (filter (fun p => Z.eqb (fst p) g) (combine (lo_dest w) (lo_jac w)))).

  (** The six documented form types with their inputs. *)
  Definition plain_types : list string := ["form"; "bc_form"; "interface_form"; "bc_interface_form"]%string.
  Definition timed_types : list string := ["time_dependent_form"; "time_dependent_bc_form"]%string.
  Definition valid_input (f : form_input) : Prop :=
    (In (fi_type V f) plain_types /\ exists a, fi_args V f = [AVec V a]) \/
    (In (fi_type V f) timed_types /\ exists an a t, fi_args V f = [ATuple V [an; a]; ANum V t]).

  (** The solution vectors of the forms are not the residual vector. *)
  Definition refs (f : form_input) : list nat :=
    flat_map (fun a => match a with AVec _ r => [r] | ATuple _ l => l | ANum _ _ => [] end) (fi_args V f).
  Definition no_alias (res_g : nat) (forms : list form_input) : Prop :=
    forall f, In f forms -> ~ In res_g (refs f).

  (** The situation in which an assembly is meant to run. *)
  Definition well_posed (res_g : nat) (n : nat) (s : sys) (forms : list form_input) (ws : list local) : Prop :=
    res_g < List.length (vecs V s) /\ List.length (vec V s res_g) = n /\
    Forall valid_input forms /\ no_alias res_g forms /\ Forall2 (local_ok s n) (tasks forms) ws.

  (** The destinations of an item of a form of the given type. *)
  Inductive item_dest (w : weak_form) : string -> item -> list Z -> Prop :=
  | DForm : forall i d, wf_dest V w i = Ok d -> item_dest w "form" (Idx i) d
  | DBc : forall i d, wf_bc_dest V w i = Ok d -> item_dest w "bc_form" (Idx i) d
  | DInterface : forall i p q dp dq, wf_dest V w p = Ok dp -> wf_dest V w q = Ok dq ->
      item_dest w "interface_form" (Triplet i p q) (dp ++ dq)
  | DBcInterface : forall i p d, wf_dest V w p = Ok d -> item_dest w "bc_interface_form" (Pair i p) d
  | DTime : forall i d, wf_dest V w i = Ok d -> item_dest w "time_dependent_form" (Idx i) d
  | DTimeBc : forall i d, wf_bc_dest V w i = Ok d -> item_dest w "time_dependent_bc_form" (Idx i) d.
  (** [d] is the destination list of some item of [forms]. *)
  Definition dest_of (forms : list form_input) (d : list Z) : Prop :=
    exists f x, In f forms /\ In x (fi_seq V f) /\ item_dest (fi_form V f) (fi_type V f) x d.

  (** The same forms in another order, each with its items in another order. *)
  Definition same_form (f f' : form_input) : Prop :=
    fi_type V f = fi_type V f' /\ fi_form V f = fi_form V f' /\ fi_args V f = fi_args V f' /\
    Permutation (fi_seq V f) (fi_seq V f').
  Definition reordered (forms forms' : list form_input) : Prop :=
    exists forms1, Permutation forms forms1 /\ Forall2 same_form forms1 forms'.

  (** Inputs that are not documented, and what is raised. *)
  Definition occurs (s t : string) : Prop := exists m, String.substring m (String.length s) t = s.
  Inductive rejected (f : form_input) : err -> Prop :=
  | RPlainCount : ~ occurs "time_dependent" (fi_type V f) -> List.length (fi_args V f) <> 1 -> rejected f ValueError
  | RTimedCount : occurs "time_dependent" (fi_type V f) -> List.length (fi_args V f) <> 2 -> rejected f ValueError
  | RPlainType : ~ occurs "time_dependent" (fi_type V f) -> List.length (fi_args V f) = 1 ->
      ~ In (fi_type V f) plain_types -> rejected f KeyError
  | RTimedType : forall an a t, occurs "time_dependent" (fi_type V f) -> fi_args V f = [ATuple V [an; a]; ANum V t] ->
      ~ In (fi_type V f) timed_types -> rejected f KeyError.
End Spec.
