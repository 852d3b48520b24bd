(** * Model of the queries of a domain: src/topology/domain.py:22-48, 67-83

    Definitions only.  Domains and shapes are those of ShapeModel; [pclose x y] is
    [np.all(np.isclose(x, y))]. *)
From Coq Require Import List Arith ZArith Bool.
From Verif Require Import Base ShapeModel.
Import ListNotations.

Section Query.
  Context {P : Type}.
  Variable pclose : P -> P -> bool.

  (** [np.max(np.array(l))]; numpy raises ValueError for an empty array *)
  Definition max_of (l : list Z) : res Z := match l with [] => Err ValueError | t :: l => Ok (fold_left Z.max l t) end.
  (** max_tag, domain.py:22-25 *)
  Definition max_tag (D : domain P) : res Z := max_of (flat_map (map s_tag) D).
  (** max_physical_tag, domain.py:27-35 *)
  Definition max_physical_tag (D : domain P) : res Z :=
    max_of (flat_map (fun s => match s_phys s with Some p => [p] | None => [] end) (concat D)).
  (** [x == y] for tags which can be None *)
  Definition same_tag (x y : option Z) : bool :=
    match x, y with Some x, Some y => (x =? y)%Z | None, None => true | _, _ => false end.
  (** shapes_with_physical_tag, domain.py:37-46 *)
  Definition shapes_with_physical_tag (D : domain P) (physical_tag : option Z) : list (shape P) :=
    filter (fun s => same_tag (s_phys s) physical_tag) (concat D).
  (** refresh_wires, domain.py:48-49: the new orientations of the composite shapes *)
  Definition refresh_wires (fuel : nat) (D : domain P) : res (list (list Z)) :=
    do edges <- get_at D 1;
    mapM (orient_immersed_edges pclose fuel) (filter s_composite edges).
  (** lookup_vertex, domain.py:67-76; all shapes of dimension 0 are vertices *)
  Definition lookup_vertex (D : domain P) (point : P) : res (option (shape P)) :=
    do vertices <- get_at D 0;
    do close <- mapM (fun v => match s_point v with Some p => Ok (pclose p point) | None => Err AttributeError end) vertices;
    let found := map snd (filter fst (combine close vertices)) in
    match found with
    | [] => Ok None
    | [v] => Ok (Some v)
    | _ => Err AssertionError
    end.
  (** remove_vertex, domain.py:78-83; the graph is None before build_grahp *)
  Definition remove_vertex (dimension : nat) (graph : option (digraph (Z * Z))) (D : domain P) : res (domain P) :=
    do vertices <- get_at D 0;
    do kept <- foldM (fun (acc : list (shape P)) v =>
                 match graph with
                 | None => Err AttributeError
                 | Some g => Ok (if memb (Z.of_nat dimension, s_tag v) (g_nodes g) then acc ++ [v] else acc)
                 end) vertices [];
    Ok (set_at D 0 kept).
End Query.
