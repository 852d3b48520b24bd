(** * Model of src/topology/shape_manipulation.py: the edges made by intersect_faces (lines 359-382)

    Definitions only.  Exact real arithmetic; vertices are named by their position in the heap. *)
From Coq Require Import List Arith ZArith Bool Reals.
From Verif Require Import Base VecBase EmbedModel VertexModel LinesModel FaceCutModel.
Import ListNotations.

(** [np.unique(point_pairs, return_inverse=True, axis=0)], lines 361-363: the rows in lexicographic
    order of their six coordinates, and the place of a row *)
Definition pair_compare (s t : segment) : comparison :=
  match vec_compare (fst s) (fst t) with Eq => vec_compare (snd s) (snd t) | c => c end.
Fixpoint insert_pair (s : segment) (l : list segment) : list segment :=
  match l with
  | [] => [s]
  | t :: l' => match pair_compare s t with Eq => l | Lt => s :: l | Gt => t :: insert_pair s l' end
  end.
Definition unique_pairs (pairs : list segment) : list segment := fold_right insert_pair [] pairs.
Fixpoint pair_place (s : segment) (l : list segment) : nat :=
  match l with [] => 0 | t :: l' => match pair_compare s t with Eq => 0 | _ => S (pair_place s l') end end.

Section Edges.
  Variable argsort : list Z -> list nat.
  (** Lines 359-382: the heap with the new vertices, the edges with their physical tags, and
      edge_map: for each case the position of its edge.  The body of the loop (366-379) is that
      of build_disjoint_lines, domain_market.py:305-322. *)
  Definition create_edges (h : heap) (point_pairs : list segment) (e_tag_shift v_tag_shift p_tag_shift : Z)
      : res (heap * list (Z * list nat * Z) * list nat) :=
    let unique := unique_pairs point_pairs in
    do out <- build_disjoint_lines argsort h unique e_tag_shift v_tag_shift (p_tag_shift + 1);
    Ok (fst out, snd out, map (fun s => pair_place s unique) point_pairs).
End Edges.
