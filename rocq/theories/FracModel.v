(** * Model of src/geometry/fracture_network.py: lines 48-68, 200-302, 313-344
    with GeometryCell, src/geometry/geometry_cell.py:13-30

    Definitions only.  Simplifications: points are elements of an arbitrary type [P]; the
    intersection of two segments, the test [norm(points - point) < eps] and the sorting by
    distance are parameters; boundary_cells and immersed_cells hold objects of [self.cells],
    represented by their positions (equal to their ids, see the theorems). *)
From Coq Require Import List Arith ZArith Bool Reals.
From Verif Require Import Base.
Import ListNotations.

(** FractureNetwork.pair_intergers, fracture_network.py:285-292: [max(x, y)] returns [x]
    itself unless y > x, so [max(x, y) is not x] means y > x. *)
Definition pair_integers (x y : Z) : Z :=
  (if x <? y then y ^ 2 + x else x ^ 2 + x + y)%Z.

(** FractureNetwork.unpair_intergers, fracture_network.py:294-302, in exact arithmetic
    (np.sqrt is not rounded down). *)
Definition unpair_integers (z : R) : R * R :=
  if Rlt_dec (z - sqrt z ^ 2) (sqrt z)
  then (z - sqrt z ^ 2, sqrt z)%R
  else (sqrt z, z - sqrt z ^ 2 - sqrt z)%R.

(** GeometryCell, geometry_cell.py:13-30: dimension, id, physical tag, point id,
    boundary cells, immersed cells *)
Record gcell : Type := mk_gcell {
  gc_dim : nat; gc_id : nat; gc_tag : Z; gc_pid : option nat; gc_bc : list nat; gc_imm : list nat }.
Definition add_immersed (c : gcell) (v : nat) : gcell :=
  mk_gcell (gc_dim c) (gc_id c) (gc_tag c) (gc_pid c) (gc_bc c) (gc_imm c ++ [v]).
Definition clear_immersed (c : gcell) : gcell :=
  mk_gcell (gc_dim c) (gc_id c) (gc_tag c) (gc_pid c) (gc_bc c) [].

Section Network.
  Variable P : Type.
  (** tt_test.line_line_intersection(a, b, p, q): the point when the test succeeds *)
  Variable isect : P -> P -> P -> P -> option P.
  (** [la.norm(p - point) < eps] *)
  Variable near : P -> P -> bool.
  (** [np.argsort(la.norm(points - origin, axis=1))] *)
  Variable argsort : list P -> P -> list nat.

  Record network : Type := mk_network { n_cells : list gcell; n_points : list P }.

  (** [cell.attribute = ...] on an object of self.cells *)
  Definition modify (cs : list gcell) (i : nat) (f : gcell -> gcell) : res (list gcell) :=
    do c <- get_at cs i; Ok (set_at cs i (f c)).

  (** The disjoint description, fracture_network.py:209-231.  The state holds cells, points
      and the counters cell_id, point_id. *)
  Fixpoint insert_ends (tag : Z) (pts : list P) (s : list gcell * list P * nat * nat)
    : (list gcell * list P * nat * nat) * list nat :=
    match pts with
    | [] => (s, [])
    | x :: pts' =>
        let '(cs, ps, cid, pid) := s in
        let (s', ids) := insert_ends tag pts'
          (cs ++ [mk_gcell 0 cid tag (Some pid) [] []], ps ++ [x], cid + 1, pid + 1) in
        (s', cid :: ids)
    end.
  Definition insert_line (s : list gcell * list P * nat * nat) (ft : list P * Z)
    : list gcell * list P * nat * nat :=
    let '((cs, ps, cid, pid), ids) := insert_ends (snd ft) (fst ft) s in
    (cs ++ [mk_gcell 1 cid (snd ft) None ids []], ps, cid + 1, pid).
  Definition disjoint (fractures : list (list P)) (shift : Z) : res network :=
    let tags := map (fun i => (Z.of_nat i + shift)%Z) (seq 0 (length fractures)) in
    let '(cs, ps, _, _) := fold_left insert_line (combine fractures tags) ([], [], 0, 0) in
    match ps with
    | [] => Err ValueError (* np.stack of an empty list *)
    | _ => Ok (mk_network cs ps)
    end.

  (** The two end points of a line cell, fracture_network.py:237-238 and 240-241: unpacking
      needs exactly two *)
  Definition ends (n : network) (i : nat) : res (P * P) :=
    do c <- get_at (n_cells n) i;
    do ids <- mapM (fun b => do v <- get_at (n_cells n) b;
                             match gc_pid v with None => Err IndexError | Some p => Ok p end) (gc_bc c);
    do xs <- mapM (get_at (n_points n)) ids;
    match xs with [a; b] => Ok (a, b) | _ => Err ValueError end.

  (** insert_vertex_cell, fracture_network.py:48-68; returns the position of the vertex.
      The loop over the cells that finds nothing leaves None, which fails later. *)
  Fixpoint find_index {A} (f : A -> bool) (l : list A) : option nat :=
    match l with
    | [] => None
    | x :: l' => if f x then Some 0 else option_map S (find_index f l')
    end.
  Definition insert_vertex_cell (n : network) (x : P) (tag : Z) : res (network * nat) :=
    match find_index (fun p => near p x) (n_points n) with
    | None =>
        let pid := length (n_points n) in
        let cid := length (n_cells n) in
        Ok (mk_network (n_cells n ++ [mk_gcell 0 cid tag (Some pid) [] []]) (n_points n ++ [x]), cid)
    | Some t =>
        match find_index (fun c => (gc_dim c =? 0) && eqb (gc_pid c) (Some t)) (n_cells n) with
        | None => Err AttributeError
        | Some v => Ok (n, v)
        end
    end.

  (** The loop body for a pair of lines, fracture_network.py:239-253; [ij] are positions of
      the line cells, [a b] the end points of the first one *)
  Definition intersect_pair (a b : P) (i : nat) (n : network) (j : nat) : res network :=
    do (p, q) <- ends n j;
    match isect a b p q with
    | None => Ok n
    | Some x =>
        do ci <- get_at (n_cells n) i;
        do cj <- get_at (n_cells n) j;
        do (n', v) <- insert_vertex_cell n x (pair_integers (gc_tag ci) (gc_tag cj));
        do cs1 <- modify (n_cells n') i (fun c => add_immersed c v);
        do cs2 <- modify cs1 j (fun c => add_immersed c v);
        Ok (mk_network cs2 (n_points n'))
    end.
  (** fracture_network.py:235-253: every j is unpacked, only j > i is intersected *)
  Fixpoint intersect_all (lines : list nat) (all : list nat) (n : network) : res network :=
    match lines with
    | [] => Ok n
    | i :: later =>
        do (a, b) <- ends n i;
        do _ <- mapM (ends n) all;
        do n' <- foldM (intersect_pair a b i) later n;
        intersect_all later all n'
    end.

  (** [ [l[k], l[k+1]] for k in range(len(l) - 1) ], fracture_network.py:271-276 *)
  Fixpoint consecutive (l : list nat) : list (nat * nat) :=
    match l with
    | x :: ((y :: _) as l') => (x, y) :: consecutive l'
    | _ => []
    end.

  (** Insertion of the pieces, fracture_network.py:278-283; [self.cells[con]] *)
  Definition insert_piece (i : nat) (tag : Z) (s : list gcell * nat) (con : nat * nat)
    : res (list gcell * nat) :=
    let (cs, cid) := s in
    do c1 <- get_at cs (fst con);
    do c2 <- get_at cs (snd con);
    let cs1 := cs ++ [mk_gcell 1 cid tag None [fst con; snd con] []] in
    do cs2 <- modify cs1 i (fun c => add_immersed c cid);
    Ok (cs2, cid + 1).

  (** fracture_network.py:256-283 for one line; the state is (cells, cell_id) *)
  Definition split_line (points : list P) (s : list gcell * nat) (i : nat) : res (list gcell * nat) :=
    let (cs, cid) := s in
    do c <- get_at cs i;
    do bcs <- mapM (get_at cs) (gc_bc c);
    match map gc_id bcs with
    | [b; e] =>
        do imm <- mapM (get_at cs) (gc_imm c);
        match imm with
        | [] => Ok s
        | _ =>
            do pids <- mapM (fun v => match gc_pid v with None => Err TypeError | Some t => Ok t end) imm;
            do xs <- mapM (get_at points) pids;
            do vb <- get_at cs b;
            do ob <- match gc_pid vb with None => Err TypeError | Some t => get_at points t end;
            do sorted <- mapM (fun k => do v <- get_at imm k; Ok (gc_id v)) (argsort xs ob);
            let l0 := uniq sorted in
            let l1 := if memb b l0 then l0 else b :: l0 in
            let l2 := if memb e l1 then l1 else l1 ++ [e] in
            do cs1 <- modify cs i clear_immersed;
            foldM (insert_piece i (gc_tag c)) (consecutive l2) (cs1, cid)
        end
    | _ => Err ValueError
    end.

  (** FractureNetwork.intersect_1D_fractures, fracture_network.py:200-283 *)
  Definition line_positions (cs : list gcell) : list nat :=
    map snd (filter (fun ci => gc_dim (fst ci) =? 1) (combine cs (seq 0 (length cs)))).
  Definition intersect_1D_fractures (fractures : list (list P)) (shift : Z) : res network :=
    do n0 <- disjoint fractures shift;
    let lines := line_positions (n_cells n0) in
    do n1 <- intersect_all lines lines n0;
    do (cs, _) <- foldM (split_line (n_points n1)) lines (n_cells n1, length (n_cells n1));
    Ok (mk_network cs (n_points n1)).
End Network.

(** FractureNetwork.gather_graph_edges, fracture_network.py:313-322: boundary cells first,
    then immersed cells, recursively; [fuel] is Python's recursion limit *)
Fixpoint gather_network_edges (fuel : nat) (cs : list gcell) (i : nat) : res (list (nat * nat)) :=
  match fuel with
  | 0 => Err RecursionError
  | S f =>
      do c <- get_at cs i;
      do parts <- mapM (fun k =>
          do c' <- get_at cs k;
          if gc_dim c' =? 0 then Ok [(gc_id c, gc_id c')]
          else do rest <- gather_network_edges f cs k; Ok ((gc_id c, gc_id c') :: rest))
        (gc_bc c ++ gc_imm c);
      Ok (concat parts)
  end.
(** FractureNetwork.build_grahp, fracture_network.py:324-344, for a network of dimension 2 *)
Definition build_network_graph (fuel : nat) (cs : list gcell) (all_q : bool) : res (digraph nat) :=
  let lines := map snd (filter (fun ci => (gc_dim (fst ci) =? 1) &&
                  (all_q || match gc_imm (fst ci) with [] => true | _ => false end))
                (combine cs (seq 0 (length cs)))) in
  do parts <- mapM (gather_network_edges fuel cs) lines;
  Ok (from_edgelist (concat parts)).
