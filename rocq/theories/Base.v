(** * Python-level data used by all models: exceptions, dict, lists, DiGraph.

    Definitions only; lemmas are in [BaseProof.v]. *)
From Coq Require Import List Arith ZArith Bool.
Import ListNotations.

(** ** Exceptions as values *)

(** The Python exception classes the modelled code can raise. *)
Inductive err : Type :=
| ValueError | KeyError | IndexError | TypeError | AttributeError
| AssertionError | NameError | RecursionError | NetworkXError | PETScError.

(** Outcome of a Python call: a value or an exception. *)
Inductive res (A : Type) : Type :=
| Ok : A -> res A
| Err : err -> res A.
Arguments Ok {A} _.
Arguments Err {A} _.

Definition bind {A B : Type} (r : res A) (f : A -> res B) : res B :=
  match r with Ok a => f a | Err e => Err e end.

Notation "'do' x <- r ; k" := (bind r (fun x => k))
  (at level 200, x pattern, r at level 100, k at level 200, right associativity).

(** A Python list comprehension [ [f(x) for x in l] ] whose body may raise. *)
Fixpoint mapM {A B : Type} (f : A -> res B) (l : list A) : res (list B) :=
  match l with
  | [] => Ok []
  | x :: l' => do y <- f x; do ys <- mapM f l'; Ok (y :: ys)
  end.

(** A Python [for] loop with state whose body may raise. *)
Fixpoint foldM {A S : Type} (f : S -> A -> res S) (l : list A) (s : S) : res S :=
  match l with
  | [] => Ok s
  | x :: l' => do s' <- f s x; foldM f l' s'
  end.

(** [a[i]] for a non-negative index: IndexError when out of range. *)
Definition get_at {A : Type} (l : list A) (i : nat) : res A :=
  match nth_error l i with Some x => Ok x | None => Err IndexError end.

(** [a[i] = v] on a Python/numpy list (in-range index). *)
Fixpoint set_at {A : Type} (l : list A) (i : nat) (v : A) : list A :=
  match l, i with
  | [], _ => []
  | _ :: l', 0 => v :: l'
  | x :: l', S i' => x :: set_at l' i' v
  end.

(** ** Decidable equality *)
Class EqDec (A : Type) : Type := eq_dec : forall x y : A, {x = y} + {x <> y}.
#[export] Instance EqDec_nat : EqDec nat := Nat.eq_dec.
#[export] Instance EqDec_Z : EqDec Z := Z.eq_dec.
#[export] Instance EqDec_bool : EqDec bool := bool_dec.
#[export] Instance EqDec_list {A} `{EqDec A} : EqDec (list A) := list_eq_dec eq_dec.
#[export] Instance EqDec_prod {A B} `{EqDec A} `{EqDec B} : EqDec (A * B).
Proof. intros x y; decide equality; apply eq_dec. Defined.
#[export] Instance EqDec_option {A} `{EqDec A} : EqDec (option A).
Proof. intros x y; decide equality; apply eq_dec. Defined.

Definition eqb {A} `{EqDec A} (x y : A) : bool := if eq_dec x y then true else false.

(** Python's [x in l]. *)
Definition memb {A} `{EqDec A} (x : A) (l : list A) : bool := existsb (eqb x) l.

(** Keep the first occurrence of each element, in order
    (the keys of a Python dict filled in the order of [l]). *)
Fixpoint uniq_acc {A} `{EqDec A} (seen l : list A) : list A :=
  match l with
  | [] => []
  | x :: l' => if memb x seen then uniq_acc seen l' else x :: uniq_acc (seen ++ [x]) l'
  end.
Definition uniq {A} `{EqDec A} (l : list A) : list A := uniq_acc [] l.

(** ** dict *)
Definition dict (K V : Type) : Type := list (K * V).

(** [d.get(k)] *)
Fixpoint dget {K V} `{EqDec K} (d : dict K V) (k : K) : option V :=
  match d with
  | [] => None
  | (k', v) :: d' => if eq_dec k k' then Some v else dget d' k
  end.

(** [d[k] = v]: an existing key keeps its place, a new key goes last. *)
Fixpoint dset {K V} `{EqDec K} (d : dict K V) (k : K) (v : V) : dict K V :=
  match d with
  | [] => [(k, v)]
  | (k', v') :: d' => if eq_dec k k' then (k', v) :: d' else (k', v') :: dset d' k v
  end.

(** [dict(pairs)] *)
Definition dict_of {K V} `{EqDec K} (l : list (K * V)) : dict K V :=
  fold_left (fun d kv => dset d (fst kv) (snd kv)) l [].

Definition dkeys {K V} (d : dict K V) : list K := map fst d.
Definition dvals {K V} (d : dict K V) : list V := map snd d.

(** [d[k]]: KeyError when absent. *)
Definition dindex {K V} `{EqDec K} (d : dict K V) (k : K) : res V :=
  match dget d k with Some v => Ok v | None => Err KeyError end.

(** ** Sorting ([np.sort] / [sorted] on integers) *)
Fixpoint insert_sorted (x : nat) (l : list nat) : list nat :=
  match l with
  | [] => [x]
  | y :: l' => if x <=? y then x :: l else y :: insert_sorted x l'
  end.
Definition sort_nat (l : list nat) : list nat := fold_right insert_sorted [] l.

(** [np.add.accumulate]: running sums. *)
Fixpoint accumulate_from (acc : nat) (l : list nat) : list nat :=
  match l with
  | [] => []
  | x :: l' => (acc + x) :: accumulate_from (acc + x) l'
  end.
Definition accumulate (l : list nat) : list nat := accumulate_from 0 l.

(** [np.max] of a list: ValueError on the empty list. *)
Definition np_max (l : list nat) : res nat :=
  match l with [] => Err ValueError | x :: l' => Ok (fold_left Nat.max l' x) end.

(** ** networkx.DiGraph *)
Record digraph (V : Type) : Type := mk_digraph {
  g_nodes : list V;              (* insertion order *)
  g_edges : list (V * V) }.      (* insertion order, no repetition *)
Arguments mk_digraph {V} _ _.
Arguments g_nodes {V} _.
Arguments g_edges {V} _.

(** [nx.from_edgelist(l, create_using=nx.DiGraph)]: arrows (and their end points)
    are added in order; adding a present node or arrow changes nothing. *)
Definition from_edgelist {V} `{EqDec V} (l : list (V * V)) : digraph V :=
  mk_digraph (uniq (flat_map (fun e => [fst e; snd e]) l)) (uniq l).

(** [G.successors(x)] / [G.predecessors(x)]: NetworkXError when [x] is no node. *)
Definition successors {V} `{EqDec V} (g : digraph V) (x : V) : res (list V) :=
  if memb x (g_nodes g)
  then Ok (map snd (filter (fun e => eqb (fst e) x) (g_edges g)))
  else Err NetworkXError.
Definition predecessors {V} `{EqDec V} (g : digraph V) (x : V) : res (list V) :=
  if memb x (g_nodes g)
  then Ok (map fst (filter (fun e => eqb (snd e) x) (g_edges g)))
  else Err NetworkXError.
