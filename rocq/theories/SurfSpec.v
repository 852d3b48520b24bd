(** * Specification vocabulary for networks of fractures in space, C95 *)
From Coq Require Import List Arith ZArith Bool.
From Verif Require Import Base FracModel FracSpec SurfModel.
Import ListNotations.

Section Spec.
  Variable P : Type.
  (** [data i j]: the common segment of the fractures [i < j] *)
  Variable data : nat -> nat -> option (P * P).
  Variable N : nat. (* number of fractures *)

  Definition hit (i j : nat) : bool := (i <? j) && match data i j with Some _ => true | None => false end.
  (** the fractures [k], [i < k < j], that meet fracture [i] *)
  Definition partners (i j : nat) : list nat := filter (hit i) (seq 0 j).
  (** the segments of fracture [i] shared with later fractures *)
  Definition segments (i : nat) : list (P * P) := flat_map (fun j => if i <? j then match data i j with Some e => [e] | None => [] end else []) (seq 0 N).
  (** one segment, or every segment meets another one *)
  Definition all_cross (isect : P -> P -> P -> P -> option P) (segs : list (P * P)) : Prop :=
    length segs <= 1 \/ forall k, k < length segs -> exists l x, meets P isect segs k l x.

  (** where the cells and the corners of fracture [k] begin *)
  Definition cell_start (fs : list (list P)) (k : nat) : nat := list_sum (map (fun f => 2 * length f + 1) (firstn k fs)).
  Definition point_start (fs : list (list P)) (k : nat) : nat := list_sum (map (@length P) (firstn k fs)).

  (** fracture [f] whose cells begin at [s]: its corners, the edges between consecutive
      corners (the last one back to the first), and the surface *)
  Record surface (cs : list scell) (s : nat) (f : list P) (imm : list nat) : Prop := {
    su_corner : forall t, t < length f -> nth_error cs (s + t) = Some (mk_scell 0 (s + t) None (Some (s + t)) [] []);
    su_edge : forall t, t < length f -> nth_error cs (s + length f + t) =
      Some (mk_scell 1 (s + length f + t) (Some (Z.of_nat s)) None [s + t; s + (t + 1) mod length f] []);
    su_surface : nth_error cs (s + 2 * length f) = Some (mk_scell 2 (s + 2 * length f) None None (seq (s + length f) (length f)) imm) }.

  (** the network [n] of lines, behind [dc] cells and [dp] points *)
  Record copied (n : network P) (cs : list scell) (ps : list P) (dc dp : nat) : Prop := {
    co_cell : forall v c, nth_error (n_cells P n) v = Some c -> exists c', nth_error cs (dc + v) = Some c' /\
      sc_dim c' = gc_dim c /\ sc_id c' = dc + gc_id c /\ sc_tag c' = Some (gc_tag c) /\ sc_pid c' = option_map (Nat.add dp) (gc_pid c) /\
      sc_bc c' = map (Nat.add dc) (gc_bc c) /\ sc_imm c' = map (Nat.add dc) (gc_imm c);
    co_point : forall t x, nth_error (n_points P n) t = Some x -> nth_error ps (dp + t) = Some x }.

  (** cell [v] is a vertex at [x] *)
  Definition vertex_of (cs : list scell) (ps : list P) (v : nat) (x : P) : Prop :=
    exists c t, nth_error cs v = Some c /\ sc_dim c = 0 /\ sc_pid c = Some t /\ nth_error ps t = Some x.

  (** the test that the code uses for the lines in fracture [f]: its first, second and
      fourth corners give the coordinates *)
  Definition test_of {X} (pos : P -> P -> P -> X) (isect : X -> P -> P -> P -> P -> option P) (f : list P) : P -> P -> P -> P -> option P :=
    match nth_error f 0, nth_error f 1, nth_error f 3 with
    | Some p, Some q, Some r => isect (pos p q r)
    | _, _, _ => fun _ _ _ _ => None
    end.

  (** The cells [cs] and points [ps]: first the fractures, then for each fracture [i] the
      network [nets i] of the segments that it shares with later ones, behind [dc i] cells and
      [dp i] points; [make f segs n]: [n] is the network of the lines [segs] in fracture [f]. *)
  Record assembled (make : list P -> list (P * P) -> network P -> Prop) (fs : list (list P)) (cs : list scell) (ps : list P)
      (nets : nat -> network P) (dc dp : nat -> nat) : Prop := {
    as_start : dc 0 = cell_start fs N /\ dp 0 = point_start fs N;
    as_next : forall i, i < N -> dc (S i) = dc i + length (n_cells P (nets i)) /\ dp (S i) = dp i + length (n_points P (nets i));
    as_end : length cs = dc N /\ length ps = dp N;
    as_ids : forall v c, nth_error cs v = Some c -> sc_id c = v;
    as_net : forall i f, nth_error fs i = Some f -> copied (nets i) cs ps (dc i) (dp i) /\
      if length (segments i) =? 0 then n_cells P (nets i) = [] /\ n_points P (nets i) = [] else make f (segments i) (nets i);
    as_corner : forall k f t x, nth_error fs k = Some f -> nth_error f t = Some x -> nth_error ps (point_start fs k + t) = Some x;
    (** the lines shared with earlier fractures, then those shared with later ones *)
    as_surface : forall k f, nth_error fs k = Some f -> surface cs (cell_start fs k) f
      (map (fun i => dc i + 3 * length (partners i k) + 2) (filter (fun i => hit i k) (seq 0 k)) ++
       map (fun j => dc k + 3 * length (partners k j) + 2) (partners k N));
    (** the line shared by [i] and [j] joins the two points found *)
    as_line : forall i j x y, i < j -> j < N -> data i j = Some (x, y) ->
      let v := dc i + 3 * length (partners i j) in
      (exists imm, nth_error cs (v + 2) = Some (mk_scell 1 (v + 2) (Some (Z.of_nat (length (partners i j)) + 1)%Z) None [v; v + 1] imm)) /\
      vertex_of cs ps v x /\ vertex_of cs ps (v + 1) y }.
End Spec.
