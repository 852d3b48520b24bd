(** * Model of networks of fractures in space: src/geometry/fracture_network.py:70-199
    with GeometryCell, src/geometry/geometry_cell.py:13-29

    Definitions only.  As in FracModel, points are elements of an arbitrary type [P],
    boundary_cells and immersed_cells hold objects of [self.cells], represented by their
    positions.  The test of two polygons, the choice of the coordinates [pos] and the tests of
    the network of lines are parameters. *)
From Coq Require Import List Arith ZArith Bool QArith.
From Verif Require Import Base FracModel SegModel TriModel.
Import ListNotations.
Local Open Scope nat_scope.

(** GeometryCell: dimension, id, physical tag (None by default), point id, boundary cells,
    immersed cells *)
Record scell : Type := mk_scell {
  sc_dim : nat; sc_id : nat; sc_tag : option Z; sc_pid : option nat; sc_bc : list nat; sc_imm : list nat }.
(** [cell.immersed_cells = np.append(cell.immersed_cells, other)] *)
Definition immerse (c : scell) (v : nat) : scell := mk_scell (sc_dim c) (sc_id c) (sc_tag c) (sc_pid c) (sc_bc c) (sc_imm c ++ [v]).
(** a cell of the network of lines put behind [dc] cells and [dp] points,
    fracture_network.py:162-166 *)
Definition shift_cell (dc dp : nat) (c : gcell) : scell :=
  mk_scell (gc_dim c) (gc_id c + dc) (Some (gc_tag c)) (option_map (fun p => p + dp) (gc_pid c))
    (map (fun b => b + dc) (gc_bc c)) (map (fun b => b + dc) (gc_imm c)).

Section Surfaces.
  Variable P X : Type.
  (** polygon_polygon_intersection: None stands for (False, ..) *)
  Variable pp : list P -> list P -> res (option (P * P)).
  (** the coordinates kept, fracture_network.py:132-145 *)
  Variable pos : P -> P -> P -> X.
  (** line_line_intersection, the distance test and the sorting of the network of lines *)
  Variable isect : X -> P -> P -> P -> P -> option P.
  Variable near : P -> P -> bool.
  Variable argsort : list P -> P -> list nat.

  Definition state : Type := (list scell * list P)%type.

  (** ** insert_fracture_cell, lines 70-97.  The first cells get as point id their own id
      (geometry_cell.py:24-26). *)
  (** the loop of lines 87-92 *)
  Fixpoint insert_edges (cs : list scell) (cell_id : nat) (tag : Z) (cons : list (nat * nat)) : res (list scell * list nat * nat) :=
    match cons with
    | [] => Ok (cs, [], cell_id)
    | (a, b) :: cons' =>
        do _ <- get_at cs a; do _ <- get_at cs b;
        do r <- insert_edges (cs ++ [mk_scell 1 cell_id (Some tag) None [a; b] []]) (cell_id + 1) tag cons';
        let '(cs', ids, cid) := r in Ok (cs', cell_id :: ids, cid)
    end.
  Definition insert_fracture_cell (s : state) (cell_id : nat) (fracture : list P) (tag : Z) : res (state * nat) :=
    let (cs, ps) := s in
    match fracture with
    | [] => Err ValueError (* np.append of an array of shape (0,) *)
    | _ =>
        let loop := map (fun i => i + cell_id) (seq 0 (length fracture)) in
        let cs1 := cs ++ map (fun index => mk_scell 0 index None (Some index) [] []) loop in
        do l0 <- get_at loop 0;
        do r <- insert_edges cs1 (cell_id + length fracture) tag (consecutive (loop ++ [l0]));
        let '(cs2, edges, cid) := r in
        do _ <- mapM (get_at cs2) edges;
        Ok ((cs2 ++ [mk_scell 2 cid None None edges []], ps ++ fracture), cid)
    end.
  (** lines 103-107 *)
  Definition insert_fractures (fractures : list (list P)) : res (state * nat) :=
    foldM (fun (sc : state * nat) fracture =>
      do r <- insert_fracture_cell (fst sc) (snd sc) fracture (Z.of_nat (snd sc));
      Ok (fst r, snd r + 1)) fractures (([], []), 0).

  (** positions of the cells with a property *)
  Definition positions {A} (f : A -> bool) (l : list A) : list nat :=
    map snd (filter (fun ci => f (fst ci)) (combine l (seq 0 (length l)))).

  (** lines 109-125; [(False, ..)] where i >= j *)
  Definition intersection_data (fractures : list (list P)) : res (list (list (option (P * P)))) :=
    let l := combine (seq 0 (length fractures)) fractures in
    mapM (fun fi : nat * list P => mapM (fun fj : nat * list P =>
      if fst fj <=? fst fi then Ok None else pp (snd fi) (snd fj)) l) l.

  (** lines 182-193: [lines] is f_cell_1d, [surfaces] is cells_2d *)
  Fixpoint immerse_lines (i : nat) (surfaces lines : list nat) (cs : list scell) (cj : nat) (data : list (nat * option (P * P))) : res (list scell) :=
    match data with
    | [] => Ok cs
    | (j, None) :: data' => immerse_lines i surfaces lines cs cj data'
    | (j, Some _) :: data' =>
        do f <- get_at lines cj;
        do pj <- get_at surfaces j;
        do pi <- get_at surfaces i;
        do ci <- get_at cs pi;
        let cs1 := set_at cs pi (immerse ci f) in
        do cj' <- get_at cs1 pj;
        immerse_lines i surfaces lines (set_at cs1 pj (immerse cj' f)) (cj + 1) data'
    end.
  (** the loop body of lines 127-193 *)
  Definition treat_fracture (surfaces : list nat) (s : state) (ifd : nat * (list P * list (option (P * P)))) : res state :=
    let (cs, ps) := s in
    let '(i, (fracture, data)) := ifd in
    let found := flat_map (fun o => match o with Some e => [e] | None => [] end) data in
    match found with
    | [] => Ok s
    | _ =>
        do p <- get_at fracture 0; do q <- get_at fracture 1; do r <- get_at fracture 3;
        do net <- intersect_1D_fractures P (isect (pos p q r)) near argsort (map (fun e => [fst e; snd e]) found) 1;
        let dc := length cs in
        let dp := length ps in
        let cs1 := cs ++ map (shift_cell dc dp) (n_cells P net) in
        let lines := positions (fun c => (gc_dim c =? 1) &&
          ((length found =? 1) || match gc_imm c with [] => false | _ => true end)) (n_cells P net) in
        do cs2 <- immerse_lines i surfaces (map (fun v => v + dc) lines) cs1 0 (combine (seq 0 (length data)) data);
        Ok (cs2, ps ++ n_points P net)
    end.
  (** ** intersect_2D_fractures, lines 99-193 *)
  Definition intersect_2D_fractures (fractures : list (list P)) : res state :=
    do r <- insert_fractures fractures;
    let s := fst r in
    let surfaces := positions (fun c => sc_dim c =? 2) (fst s) in
    do data <- intersection_data fractures;
    foldM (treat_fracture surfaces) (combine (seq 0 (length fractures)) (combine fractures data)) s.
End Surfaces.

(** ** on rational points with the tests of the code (TriModel, SegModel) *)
Definition pp_q (f g : list point) : res (option (point * point)) :=
  do r <- polygon_polygon_intersection eps_12 f g;
  match r with
  | None => Ok None
  | Some (Some x, Some y) => Ok (Some (x, y))
  | Some _ => Err ValueError (* not reached: line 104 of the polygon test gives two points *)
  end.
(** lines 132-145 *)
Definition pos_q (p q r : point) : nat * nat := pos_of (drop_of p q r).
Definition intersect_surfaces_q (fractures : list (list point)) : res (list scell * list point) :=
  intersect_2D_fractures point (nat * nat) pp_q pos_q (fun ij => line_line eps_12 (fst ij) (snd ij)) (near_q eps_12) argsort_q fractures.
