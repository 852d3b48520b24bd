(** * Model of the triangle-triangle and polygon-polygon tests:
    src/geometry/operations/triangle_triangle_intersection_test.py:14-60, 132-443 and
    src/geometry/operations/polygon_polygon_intersection_test.py:10-15, 44-112

    Definitions only.  As in SegModel coordinates are rational numbers with exact arithmetic,
    lengths occur only in comparisons and are replaced by their squares.  Messages are not
    modelled, except for the call of warnings.warn at line 203, whose second argument (an
    integer) is not a category: TypeError.  [None] stands for the (False, ..) results; inside
    a (True, ..) result it stands for Python's None and for the placeholder [np.array]. *)
From Coq Require Import List Arith ZArith Bool QArith Qabs.
From Verif Require Import Base FracModel SegModel.
Import ListNotations.
Local Open Scope Q_scope.

Definition row : Type := (Q * Q * Q * Q)%type.
(** [np.linalg.det] of a 3 x 3 and of a 4 x 4 matrix given by its rows *)
Definition det3 (a1 a2 a3 b1 b2 b3 c1 c2 c3 : Q) : Q :=
  a1 * (b2 * c3 - b3 * c2) - a2 * (b1 * c3 - b3 * c1) + a3 * (b1 * c2 - b2 * c1).
Definition det4 (a b c d : row) : Q :=
  let '(a1, a2, a3, a4) := a in let '(b1, b2, b3, b4) := b in
  let '(c1, c2, c3, c4) := c in let '(d1, d2, d3, d4) := d in
  a1 * det3 b2 b3 b4 c2 c3 c4 d2 d3 d4 - a2 * det3 b1 b3 b4 c1 c3 c4 d1 d3 d4
  + a3 * det3 b1 b2 b4 c1 c2 c4 d1 d2 d4 - a4 * det3 b1 b2 b3 c1 c2 c3 d1 d2 d3.

(** coplanar_measurement, triangle_triangle_intersection_test.py:14-19 *)
Definition coplanar_measurement (a b c p : point) : Q :=
  let r x : row := (px x, py x, pz x, 1) in det4 (r a) (r b) (r c) (r p) / 6.

(** [np.cross] *)
Definition pcross (u v : point) : point :=
  mk_point (py u * pz v - pz u * py v) (pz u * px v - px u * pz v) (px u * py v - py u * px v).
(** [np.argmax(np.abs(n))] of three numbers; dividing by the norm (triangle_..._test.py:362)
    does not change it *)
Definition argmax_abs (n : point) : nat :=
  let x := Qabs (px n) in let y := Qabs (py n) in let z := Qabs (pz n) in
  if Qle_bool y x && Qle_bool z x then 0%nat else if Qle_bool z y then 1%nat else 2%nat.
(** drop, triangle_triangle_intersection_test.py:361-363 *)
Definition drop_of (p q r : point) : nat := argmax_abs (pcross (psub p q) (psub r q)).
(** [pos = list({0, 1, 2} - {drop})], lines 152-161, 211-220 *)
Definition pos_of (drop : nat) : nat * nat :=
  match drop with 0%nat => (1, 2)%nat | 1%nat => (0, 2)%nat | _ => (0, 1)%nat end.

(** a result (True, x, y) or (False, ..) *)
Definition intersection : Type := option (option point * option point).
Definition hit (x y : point) : intersection := Some (Some x, Some y).
(** [chunk[0]] *)
Definition is_hit {A} (o : option A) : bool := match o with Some _ => true | None => false end.
(** [math.copysign(1, x)], lines 321-322; zero is taken to be +0.0 *)
Definition sign (x : Q) : Z := if Qle_bool 0 x then 1%Z else (-1)%Z.

Section Triangles.
  Variable eps : Q. (* self.eps *)

  Section Projected.
    Variable i j : nat. (* pos *)
    (** point_in_triangle, lines 32-60.  Where [dv] is zero, [u] and [v] are infinite or not a
        number and the test of line 59 fails. *)
    Definition point_in_triangle (a b c p : point) : bool :=
      if existsb (fun x => Qltb (sqnorm (psub x p)) (eps * eps)) [a; b; c] then true
      else if existsb (fun m => Qltb (Qabs m) eps)
        [colinear_measurement i j a b p; colinear_measurement i j b c p; colinear_measurement i j c a p] then true
      else
        let dot2 u v := coord u i * coord v i + coord u j * coord v j in
        let v0 := psub c a in let v1 := psub b a in let v2 := psub p a in
        let dot00 := dot2 v0 v0 in let dot01 := dot2 v0 v1 in let dot02 := dot2 v0 v2 in
        let dot11 := dot2 v1 v1 in let dot12 := dot2 v1 v2 in
        let dv := dot00 * dot11 - dot01 * dot01 in
        let u := (dot11 * dot02 - dot01 * dot12) / dv in
        let v := (dot00 * dot12 - dot01 * dot02) / dv in
        negb (Qeq_bool dv 0) && Qle_bool 0 u && Qle_bool 0 v && Qltb (u + v) 1.

    (** [norm(p - x) < eps], lines 282, 297, 302, 307 *)
    Definition same_point (p x : point) : bool := Qltb (sqnorm (psub p x)) (eps * eps).
    (** the second half of intersect_with_coplanar_segment, lines 289-316: [pti] is the end
        point that is a member *)
    Definition last_crossing (pti : point) (ab bc ca : option (point * option point)) : option point :=
      let upd qti o := match o with
        | Some (x, _) => if same_point pti x then qti else Some x
        | None => qti
        end in
      upd (upd (upd None ab) bc) ca.
    (** intersect_with_coplanar_segment, lines 208-316 *)
    Definition coplanar_segment (a b c p q : point) : intersection :=
      let col x y z := Qltb (Qabs (colinear_measurement i j x y z)) eps in
      let ab := line_line_intersection eps i j a b p q in
      let bc := line_line_intersection eps i j b c p q in
      let ca := line_line_intersection eps i j c a p q in
      let on o := match o with Some (x, y) => Some (Some x, y) | None => None end in
      if col a b p && col a b q then on ab
      else if col b c p && col b c q then on bc
      else if col c a p && col c a q then on ca
      else
        let p_in := point_in_triangle a b c p in
        let q_in := point_in_triangle a b c q in
        if p_in && q_in then hit p q
        else if negb p_in && negb q_in then
          match filter is_hit [ab; bc; ca] with
          | [Some (x, _); Some (y, _)] =>
              (* line 282 subtracts the list [1], not the second point *)
              if same_point x (mk_point 1 1 1) then None else hit x y
          | _ => None
          end
        else
          let pti := if p_in then p else q in
          match last_crossing pti ab bc ca with Some qti => hit pti qti | None => None end.
  End Projected.

  (** line_plane_intersection, lines 132-146 *)
  Definition line_plane_intersection (a b c p q : point) : point :=
    let n_equ := det4 (1, 1, 1, 1) (px a, px b, px c, px p) (py a, py b, py c, py p) (pz a, pz b, pz c, pz p) in
    let d := psub q p in
    let d_equ := det4 (1, 1, 1, 0) (px a, px b, px c, px d) (py a, py b, py c, py d) (pz a, pz b, pz c, pz d) in
    along p q (- n_equ / d_equ).

  (** intersect_with_coplanar_segment, lines 208-316 *)
  Definition intersect_with_coplanar_segment (a b c p q : point) (drop : nat) : intersection :=
    coplanar_segment (fst (pos_of drop)) (snd (pos_of drop)) a b c p q.

  (** intersect_with_coplanar_point_and_segment, lines 148-206 *)
  Definition intersect_with_coplanar_point_and_segment (a b c p ps qs : point) (drop : nat) : res intersection :=
    let i := fst (pos_of drop) in let j := snd (pos_of drop) in
    let p_in := point_in_triangle i j a b c p in
    let q := line_plane_intersection a b c ps qs in
    let ab := option_map fst (line_line_intersection eps i j a b p q) in
    let bc := option_map fst (line_line_intersection eps i j b c p q) in
    let ca := option_map fst (line_line_intersection eps i j c a p q) in
    let n := List.length (filter is_hit [ab; bc; ca]) in
    if (n =? 1)%nat || (n =? 2)%nat then
      if p_in then
        Ok (Some (Some p, if is_hit ca then ca else if is_hit bc then bc else ab))
      else
        Ok (Some (if is_hit ca && is_hit ab then (ca, ab) else if is_hit bc && is_hit ca then (bc, ca)
                  else if is_hit ab && is_hit bc then (ab, bc) else (None, None)))
    else Err TypeError.

  (** lines 395-443 *)
  Definition coplanar_cases (p1 q1 r1 p2 q2 r2 : point) (volp1 volq1 volr1 : Q) (drop : nat) : res intersection :=
    let cop v := Qltb (Qabs v) eps in
    let pq := cop volp1 && cop volq1 in let qr := cop volq1 && cop volr1 in let rp := cop volr1 && cop volp1 in
    if pq || qr || rp then
      let '(x, y) := if rp then (r1, p1) else if qr then (q1, r1) else (p1, q1) in
      Ok (intersect_with_coplanar_segment p2 q2 r2 x y drop)
    else if cop volp1 || cop volq1 || cop volr1 then
      let '(p, x, y) := if cop volr1 then (r1, p1, q1) else if cop volq1 then (q1, r1, p1) else (p1, q1, r1) in
      intersect_with_coplanar_point_and_segment p2 q2 r2 p x y drop
    else Ok None.

  (** triangle_triangle_intersection, lines 318-443; [tail] is the part from line 395 on *)
  Definition triangle_triangle_with (tail : Q -> Q -> Q -> nat -> res intersection)
      (p1 q1 r1 p2 q2 r2 : point) : res intersection :=
    let volp1 := coplanar_measurement p2 q2 r2 p1 in
    let volq1 := coplanar_measurement p2 q2 r2 q1 in
    let volr1 := coplanar_measurement p2 q2 r2 r1 in
    let volp2 := coplanar_measurement p1 q1 r1 p2 in
    let volq2 := coplanar_measurement p1 q1 r1 q2 in
    let volr2 := coplanar_measurement p1 q1 r1 r2 in
    let t1_no := (sign volp1 =? sign volq1)%Z && (sign volq1 =? sign volr1)%Z in
    let t2_no := (sign volp2 =? sign volq2)%Z && (sign volq2 =? sign volr2)%Z in
    if t1_no || t2_no then Ok None
    else
      let drop := drop_of p2 q2 r2 in
      let discard x y := (sign x =? sign y)%Z && negb (sign y =? 0)%Z in
      let pq := discard volp1 volq1 in let qr := discard volq1 volr1 in let rp := discard volr1 volp1 in
      if pq || qr || rp then
        let cut := line_plane_intersection p2 q2 r2 in
        let '(p, q) :=
          if rp then (cut p1 q1, cut q1 r1)
          else if qr then (cut p1 q1, cut r1 p1)
          else (cut q1 r1, cut r1 p1) in
        Ok (intersect_with_coplanar_segment p2 q2 r2 p q drop)
      else tail volp1 volq1 volr1 drop.
  Definition triangle_triangle_intersection (p1 q1 r1 p2 q2 r2 : point) : res intersection :=
    triangle_triangle_with (coplanar_cases p1 q1 r1 p2 q2 r2) p1 q1 r1 p2 q2 r2.

  (** ** polygon_polygon_intersection_test.py *)
  (** [np.argmin], [np.argmax] of a column: the first row with the least or greatest entry *)
  Fixpoint best_from (better : Q -> Q -> bool) (k : nat) (best : point) (l : list point) : point :=
    match l with
    | [] => best
    | x :: l' => best_from better k (if better (coord x k) (coord best k) then x else best) l'
    end.
  (** reduce_poly_line, lines 44-79: the first and the last of the points along the line *)
  Definition reduce_poly_line (p q r : point) (line : list point) : res (point * point) :=
    let '(i, j) := pos_of (drop_of p q r) in
    match line with
    | a :: b :: _ =>
        let k := if Qle_bool (Qabs (coord a i - coord b i)) (Qabs (coord a j - coord b j)) then j else i in
        Ok (best_from Qltb k a (tl line), best_from (fun x y => Qltb y x) k a (tl line))
    | _ => Err IndexError (* self.poly_line[1] at line 107 *)
    end.
  (** polygon_polygon_intersection, lines 81-112.  Points that are not numbers make
      [np.array(points)] at line 105 fail. *)
  Definition points_of (data : list intersection) : res (list point) :=
    let one o := match o with
      | None => Ok []
      | Some (Some x, Some y) => Ok [x; y]
      | Some _ => Err ValueError
      end in
    do l <- mapM one data; Ok (concat l).
  Definition polygon_polygon_intersection (o t : list point) : res intersection :=
    do o0 <- get_at o 0; do o1 <- get_at o 1; do o2 <- get_at o 2; do o3 <- get_at o 3;
    do t0 <- get_at t 0; do t1 <- get_at t 1; do t2 <- get_at t 2; do t3 <- get_at t 3;
    do d1 <- triangle_triangle_intersection o0 o1 o3 t0 t1 t3;
    do d2 <- triangle_triangle_intersection o0 o1 o3 t1 t2 t3;
    do d3 <- triangle_triangle_intersection o1 o2 o3 t0 t1 t3;
    do d4 <- triangle_triangle_intersection o1 o2 o3 t1 t2 t3;
    do points <- points_of [d1; d2; d3; d4];
    match points with
    | [] => Ok None
    | _ => do e <- reduce_poly_line o0 o1 o3 points; Ok (hit (fst e) (snd e))
    end.
End Triangles.
