(** * Model of the numbering of shapes: src/topology/domain.py:51-65,
      src/mesh/discrete_domain.py:18-29, 94-101, src/mesh/conformal_mesher.py:38-94

    Definitions only.  Shapes are objects, named by natural numbers, because retag_shapes
    changes them in place and an object can be both in the domain and immersed in others. *)
From Coq Require Import List Arith ZArith Bool.
From Verif Require Import Base.
Import ListNotations.

(** ** retag_shapes *)
Section Retag.
  (** dimension and immersed_shapes of an object *)
  Variable dim_of : nat -> nat.
  Variable immersed_of : nat -> list nat.
  (** the attribute [tag] of every object *)
  Definition tags : Type := nat -> Z.
  Definition set_tag (h : tags) (x : nat) (t : Z) : tags := fun y => if (y =? x)%nat then t else h y.
  (** retag_shapes_with_dimension, domain.py:51-61.  Line 57 tests the dimension of the host
      [shape] and not that of [ishape]. *)
  Definition retag_immersed (dim shape : nat) (st : tags * Z) (ishape : nat) : tags * Z :=
    if negb (dim_of shape =? dim)%nat then st else (set_tag (fst st) ishape (snd st), snd st + 1)%Z.
  Definition retag_shape (dim : nat) (st : tags * Z) (shape : nat) : tags * Z :=
    fold_left (retag_immersed dim shape) (immersed_of shape) (set_tag (fst st) shape (snd st), snd st + 1)%Z.
  Definition retag_with_dimension (D : list (list nat)) (dim : nat) (h : tags) : tags :=
    fst (fold_left (retag_shape dim) (nth dim D []) (h, 0%Z)).
  (** retag_shapes, domain.py:63-65 *)
  Definition retag_shapes (dimension : nat) (D : list (list nat)) (h : tags) : tags :=
    fold_left (fun h d => retag_with_dimension D d h) (seq 0 (S dimension)) h.
End Retag.

(** ** DiscreteDomain *)
(** __compute_entities_strides, discrete_domain.py:18-29: the loop up to the first dimension
    without shapes, then the accumulated sums.  [counts] are the lengths of domain.shapes. *)
Fixpoint count_loop (counts : list nat) (room : nat) : res (list nat) :=
  match counts, room with
  | [], _ => Ok (repeat 0 room)
  | _ :: _, 0 => Err IndexError
  | n :: l, S room' => if (n =? 0)%nat then Ok (repeat 0 room) else do r <- count_loop l room'; Ok (n :: r)
  end.
Fixpoint accumulate (acc : nat) (l : list nat) : list nat :=
  match l with [] => [] | n :: r => (acc + n) :: accumulate (acc + n) r end.
Definition compute_strides (counts : list nat) : res (list nat) := do s <- count_loop counts 4; Ok (accumulate 0 s).
(** stride_tag, discrete_domain.py:94-101 *)
Definition stride_tag (strides : list nat) (dim : nat) (tag : Z) : res Z :=
  do s <- get_at strides dim; Ok (Z.of_nat s + tag + 1)%Z.

(** ** ConformalMesher.transfer_domain_descritpion, conformal_mesher.py:39-42: the variable
    [dimension] after the loop *)
Fixpoint first_empty (counts : list nat) (d : nat) : nat :=
  match counts with
  | [] => d - 1
  | n :: l => if (n =? 0)%nat then d else first_empty l (S d)
  end.
(** Number given to the shape with tag [tag] of dimension [dim]; None when shapes of this
    dimension are not transferred.  Lines 44-45, 54, 61, 71-74, 87-90. *)
Definition conformal_tag (counts : list nat) (dim : nat) (tag : Z) : option Z :=
  let n d := Z.of_nat (nth d counts 0) in
  let dimension := first_empty counts 0 in
  match dim with
  | 0 => Some (tag + 1)%Z
  | 1 => Some (n 0%nat + tag + 1)%Z
  | 2 => if (1 <? dimension)%nat then Some (n 0%nat + n 1%nat + tag + 1)%Z else None
  | 3 => if (2 <? dimension)%nat then Some (n 0%nat + n 1%nat + n 2%nat + tag + 1)%Z else None
  | _ => None
  end.
