(** * Specification vocabulary for the L2 projection *)
From Coq Require Import List Arith ZArith Bool.
From Verif Require Import Base AssemblyModel AssemblySpec.
Import ListNotations.
Open Scope list_scope.

(** Local results of the elements: shifted destinations in range and without repetition, a
    residual and a symmetric local matrix of their size, computed from zero coefficients. *)
Definition element_ok {V} (zero : V) (n : nat) (dest_map : nat -> res (list Z))
    (eval : nat -> list V -> res (list V * list (list V))) (shift : Z) (i : nat) (w : local V) : Prop :=
  (exists d, dest_map i = Ok d /\ lo_dest V w = map (fun g => (g + shift)%Z) d) /\
  eval i (repeat zero (List.length (lo_dest V w))) = Ok (lo_res V w, lo_jac V w) /\
  NoDup (lo_dest V w) /\ (forall g, In g (lo_dest V w) -> (0 <= g < Z.of_nat n)%Z) /\
  List.length (lo_res V w) = List.length (lo_dest V w) /\
  List.length (lo_jac V w) = List.length (lo_dest V w) /\
  Forall (fun row => List.length row = List.length (lo_dest V w)) (lo_jac V w).
Definition symmetric_matrix {V} (m : list (list V)) : Prop :=
  forall a b, (do row <- get_at m a; get_at row b) = (do row <- get_at m b; get_at row a).
(** No entry of the local matrices is lost by the comparison with zero. *)
Definition nothing_lost {V} (zero : V) (close : V -> bool) (w : local V) : Prop :=
  forall row v, In row (lo_jac V w) -> In v row -> close v = true -> v = zero.

