(** * Model of the segment test used for fracture networks:
    src/geometry/operations/triangle_triangle_intersection_test.py:11-12, 20-30, 72-130
    and of the distance tests of src/geometry/fracture_network.py:49-51, 261-263

    Definitions only.  Coordinates are rational numbers with exact arithmetic (every float
    is one; rounding is not modelled).  Lengths occur only in comparisons and are replaced
    by their squares; [tau] (lines 95-98) is used through the order of |tau[0]|, |tau[1]|,
    which scaling does not change. *)
From Coq Require Import List Arith ZArith Bool QArith Qabs.
From Verif Require Import Base FracModel.
Import ListNotations.
Local Open Scope Q_scope.

Record point : Type := mk_point { px : Q; py : Q; pz : Q }.
(** [x[i]] for i in {0, 1, 2} *)
Definition coord (p : point) (i : nat) : Q := match i with 0%nat => px p | 1%nat => py p | _ => pz p end.
Definition psub (p q : point) : point := mk_point (px p - px q) (py p - py q) (pz p - pz q).
(** [a + t * (b - a)] *)
Definition along (a b : point) (t : Q) : point :=
  mk_point (px a + t * (px b - px a)) (py a + t * (py b - py a)) (pz a + t * (pz b - pz a)).
Definition sqnorm (p : point) : Q := px p * px p + py p * py p + pz p * pz p.
Definition Qltb (x y : Q) : bool := negb (Qle_bool y x).

Section Test.
  Variable eps : Q.          (* self.eps *)
  Variable i j : nat.        (* pos = [i, j] *)
  (** [np.linalg.det(np.array([u, v]).T)] of the projections *)
  Definition det2 (u v : point) : Q := coord u i * coord v j - coord v i * coord u j.
  (** colinear_measurement, lines 20-30 *)
  Definition colinear_measurement (a b p : point) : Q := (1 # 2) * Qabs (det2 (psub a p) (psub b p)).
  (** line_line_intersection, lines 72-130: None stands for (False, ..) *)
  Definition line_line_intersection (a b p q : point) : option (point * option point) :=
    let dv := det2 (psub a b) (psub p q) in
    if Qltb (Qabs dv) eps then
      if negb (Qltb (colinear_measurement a b p) eps) && negb (Qltb (colinear_measurement a b q) eps) then None
      else
        let t0 := Qabs (coord a i - coord b i) in
        let t1 := Qabs (coord a j - coord b j) in
        let k := if Qle_bool t0 t1 then j else i in (* the coordinate that is kept *)
        let a_in := Qle_bool (coord p k) (coord a k) && Qle_bool (coord a k) (coord q k) in
        let b_in := Qle_bool (coord p k) (coord b k) && Qle_bool (coord b k) (coord q k) in
        if a_in && b_in then Some (a, Some b)
        else if a_in then Some (a, Some q)
        else if b_in then Some (p, Some b)
        else Some (p, Some q)
    else
      let tv := det2 (psub a p) (psub p q) / dv in
      let uv := det2 (psub a p) (psub a b) / dv in
      if Qle_bool 0 tv && Qle_bool tv 1 && (Qle_bool 0 uv && Qle_bool uv 1)
      then Some (along a b tv, None) else None.
  (** the point used at fracture_network.py:243-247 *)
  Definition line_line (a b p q : point) : option point := option_map fst (line_line_intersection a b p q).
End Test.

(** [la.norm(p - x) < eps], fracture_network.py:50-51 *)
Definition near_q (eps : Q) (p x : point) : bool := Qltb (sqnorm (psub p x)) (eps * eps).
(** [np.argsort(la.norm(points - o, axis=1))], fracture_network.py:261-263 (ties in the order
    of the list) *)
Fixpoint insert_by (key : nat -> Q) (x : nat) (l : list nat) : list nat :=
  match l with
  | [] => [x]
  | y :: l' => if Qle_bool (key x) (key y) then x :: l else y :: insert_by key x l'
  end.
Definition argsort_q (xs : list point) (o : point) : list nat :=
  let key k := match nth_error xs k with Some x => sqnorm (psub x o) | None => 0 end in
  fold_right (insert_by key) [] (seq 0 (length xs)).

(** intersect_1D_fractures on rational points with [pos = [0, 1]] and eps = 1e-12 *)
Definition eps_12 : Q := 1 # 1000000000000.
Definition intersect_fractures_q (fractures : list (list point)) (shift : Z) : res (network point) :=
  intersect_1D_fractures point (line_line eps_12 0 1) (near_q eps_12) argsort_q fractures shift.
