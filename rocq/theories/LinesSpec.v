(** * Specification vocabulary for a box with lines *)
From Coq Require Import List Arith ZArith Reals.
From Verif Require Import Base VecBase ShapeModel VertexModel EmbedModel EmbedSpec IntersectSpec.
Import ListNotations.

(** Corners and ends of the lines, numbered in order. *)
Definition given (box : list vec) (lines : list (vec * vec)) : heap :=
  let all := box ++ flat_map (fun l => [fst l; snd l]) lines in combine (consecutive 0 (length all)) all.
(** The sides of a box with [n] corners: every corner with the next one, the last with the
    first. *)
Definition side (n i : nat) : list nat := if S i =? n then [0; i] else [i; S i].
(** Sides, the wire, and [m] lines. *)
Definition network (n m : nat) : list (option host) :=
  map (fun i => Some (mk_host (side n i) [])) (seq 0 n) ++ None :: map (fun k => Some (mk_host [n + 2 * k; n + 2 * k + 1] [])) (seq 0 m).

(** The edges of the wire: of each of the [n] sides its immersed edges, or itself if it has
    none. *)
Definition ring (n : nat) (hosts : list (option host)) : list (list nat) :=
  flat_map (fun e => match e with
                     | Some e => match h_immersed e with [] => [h_ends e] | es => map snd es end
                     | None => [] end) (firstn n hosts).
(** The edges [es], each in the direction given by its sign, lead round along the vertices [l]. *)
Definition round (es : list (list nat)) (signs : list Z) (l : list nat) : Prop :=
  length l = S (length es) /\ length signs = length es /\ hd_error l = nth_error l (length es) /\
  forall k e x y, nth_error es k = Some e -> nth_error l k = Some x -> nth_error l (S k) = Some y ->
    (nth_error signs k = Some 1%Z /\ e = [x; y]) \/ (nth_error signs k = Some (-1)%Z /\ e = [y; x]).

(** The edge [e] has the vertices [ends], of the heap [h] and with the tags [t], at its ends. *)
Definition drawn (h : heap) (t : nat -> Z) (e : shape vec) (ends : list nat) : Prop :=
  s_kind e = Edge /\ map s_tag (s_boundary e) = map t ends /\ map s_point (s_boundary e) = map (fun x => Some (pt h x)) ends.
(** and the immersed edges of the entry [eo]. *)
Definition drawn_host (h : heap) (t : nat -> Z) (e : shape vec) (eo : option host) : Prop :=
  exists host, eo = Some host /\ drawn h t e (h_ends host) /\ Forall2 (fun c s => drawn h t c (snd s)) (immersed e) (h_immersed host).
