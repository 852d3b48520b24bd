(** * Property: a box with lines (src/topology/domain_market.py, build_box_2D_with_lines) *)
From Coq Require Import List Arith ZArith Bool Reals Lia Sorted.
From Verif Require Import Base VecBase GeoExamples ShapeModel ShapeSpec ShapeExamples VertexModel VertexSpec VertexExamples EmbedModel EmbedSpec IntersectSpec IntersectExamples QuerySpec LinesModel LinesSpec LinesProof5 LinesProof6 LinesExamples.
Import ListNotations.

(** ** C104 *)
Theorem C104_lines : forall argsort_R argsort, is_argsort_R argsort_R -> is_argsort argsort ->
  forall eps fuel box lines area bc, 2 <= length box -> 5 <= fuel -> area <> None \/ (exists i, i < length box /\ bc i <> None) ->
  let n := length box in let m := length lines in let h0 := given box lines in let edges := network n m in
  clear_network h0 edges eps 2 ->
  exists N top new kept t o V sides wire ls subs face g,
    build_box_2D_with_lines argsort_R argsort eps fuel box lines area bc = Ok (N, kept, t, [o], ([V; sides ++ wire :: ls ++ subs; [face]], g)) /\
    (* the edges are cut where they cross *)
    n_heap N = h0 ++ new /\ StronglySorted lex (map snd new) /\ (forall x, In x (map snd new) <-> exists i, cut_point h0 edges i x) /\
    length (n_hosts N) = n + 1 + m /\ nth_error (n_hosts N) n = Some None /\
    (forall i a b, edge_at edges i a b -> exists a' b' es, nth_error (n_hosts N) i = Some (Some (mk_host [a'; b'] es)) /\
      cut (h0 ++ new) (length h0) (cut_point h0 edges i) a b a' b' es) /\
    (* the vertices that remain, and their tags *)
    StronglySorted lt kept /\
    (forall x, In x kept <-> x = 0 \/ length h0 <= x < length h0 + length new \/
       exists i a b, edge_at edges i a b /\ In x [a; b] /\ ~ cut_point h0 edges i (pt h0 x)) /\
    map t kept = consecutive 0 (length kept) /\ map s_tag V = map t kept /\ map s_point V = map (fun x => Some (pt (h0 ++ new) x)) kept /\
    (forall z, memb (2%Z, z) (g_nodes g) = true <-> In z (map s_tag V)) /\
    (* physical tags *)
    largest (fun p => area = Some p \/ exists i, i < n /\ bc i = Some p) top /\
    map s_phys V = map (fun x => if x <? length h0 then None else Some (top + Z.of_nat m + 1 + Z.of_nat (x - length h0))%Z) kept /\
    map s_phys sides = map bc (seq 0 n) /\ map s_phys ls = map Some (consecutive (top + 1) m) /\ s_phys face = area /\
    (* the shapes *)
    Forall2 (drawn_host (h0 ++ new) t) sides (firstn n (n_hosts N)) /\
    Forall2 (drawn_host (h0 ++ new) t) ls (skipn (S n) (n_hosts N)) /\
    Forall2 (fun e s => drawn (h0 ++ new) t e (snd s)) subs (concat (map immersed_in (n_hosts N))) /\
    s_kind wire = Wire /\ map s_tag (s_boundary wire) = [t 0; t 0] /\ Forall2 (drawn (h0 ++ new) t) (immersed wire) (ring n (n_hosts N)) /\
    s_kind face = Face /\ s_boundary face = [wire] /\ immersed face = ls /\
    (* tags of the edges *)
    map s_tag ls = consecutive 1 m /\ NoDup (map s_tag (sides ++ wire :: subs)).
Proof. exact lines_theorem. Qed.
Print Assumptions C104_lines.
Example C104_lines_example : clear_network (given square through_lines) (network (length square) (length through_lines)) tiny 2 /\
  cut_point (given square through_lines) (network (length square) (length through_lines)) 3 (P 0 1 0).
Proof. exact (conj through_clear through_left). Qed.

Theorem C104_wire : forall argsort_R argsort eps fuel box lines area bc, is_argsort_R argsort_R -> is_argsort argsort ->
  2 <= length box -> 5 <= fuel -> area <> None \/ (exists i, i < length box /\ bc i <> None) ->
  clear_network (given box lines) (network (length box) (length lines)) eps 2 ->
  (* the first corner is not touched, and the last side not cut *)
  ~ cut_point (given box lines) (network (length box) (length lines)) 0 (pt (given box lines) 0) ->
  (forall x, cut_point (given box lines) (network (length box) (length lines)) (length box - 1) x ->
     x = pt (given box lines) 0 \/ x = pt (given box lines) (length box - 1)) ->
  exists N kept t o D g l, build_box_2D_with_lines argsort_R argsort eps fuel box lines area bc = Ok (N, kept, t, [o], (D, g)) /\
    round (ring (length box) (n_hosts N)) o l /\ hd_error l = Some 0.
Proof. exact wire_theorem. Qed.
Print Assumptions C104_wire.
Example C104_wire_example : cut_point (given square halfway_lines) (network (length square) (length halfway_lines)) 1 (P 2 1 0) /\
  exists N kept t o D g l, build_box_2D_with_lines argsort_R_example argsort_example tiny 5 square halfway_lines (Some 1%Z) bc_example = Ok (N, kept, t, [o], (D, g)) /\
    round (ring 4 (n_hosts N)) o l /\ hd_error l = Some 0.
Proof. exact (conj halfway_right halfway_example). Qed.

(** Without these, the edges of the wire need not lead round, whatever the signs; and entries
    of domain.shapes[1] can have the same tag. *)
Theorem C104_wire_refuted : ~ (forall argsort_R argsort eps fuel box lines area bc N kept t o D g, is_argsort_R argsort_R -> is_argsort argsort ->
  2 <= length box -> 5 <= fuel -> clear_network (given box lines) (network (length box) (length lines)) eps 2 ->
  ~ cut_point (given box lines) (network (length box) (length lines)) 0 (pt (given box lines) 0) ->
  build_box_2D_with_lines argsort_R argsort eps fuel box lines area bc = Ok (N, kept, t, o, (D, g)) ->
  exists signs l, round (ring (length box) (n_hosts N)) signs l).
Proof. exact wire_refuted. Qed.
Print Assumptions C104_wire_refuted.
Theorem C104_tags_refuted : ~ (forall argsort_R argsort eps fuel box lines area bc N kept t o D g, is_argsort_R argsort_R -> is_argsort argsort ->
  2 <= length box -> 5 <= fuel -> clear_network (given box lines) (network (length box) (length lines)) eps 2 ->
  build_box_2D_with_lines argsort_R argsort eps fuel box lines area bc = Ok (N, kept, t, o, (D, g)) -> NoDup (map s_tag (nth 1 D []))).
Proof. exact tags_refuted. Qed.
Print Assumptions C104_tags_refuted.
Example C104_refuted_example : exists N kept t o D g, build_box_2D_with_lines argsort_R_example argsort_example tiny 5 square through_lines (Some 1%Z) bc_example = Ok (N, kept, t, o, (D, g)) /\
  (forall signs l, ~ round (ring 4 (n_hosts N)) signs l) /\ ~ NoDup (map s_tag (nth 1 D [])).
Proof. exact through_refuted. Qed.

Theorem C104_untagged : forall argsort_R argsort eps fuel box lines bc, is_argsort argsort -> 2 <= length box -> 4 <= fuel -> (forall i, i < length box -> bc i = None) ->
  build_box_2D_with_lines argsort_R argsort eps fuel box lines None bc = Err ValueError.
Proof. exact untagged. Qed.
Print Assumptions C104_untagged.
Example C104_untagged_example : build_box_2D_with_lines argsort_R_example argsort_example tiny 5 square through_lines None (fun _ => None) = Err ValueError.
Proof. exact (C104_untagged argsort_R_example argsort_example tiny 5 square through_lines _ argsort_example_ok ltac:(cbn; lia) ltac:(lia) (fun _ _ => eq_refl)). Qed.
