(** * C100: vertices embedded in an edge *)
From Coq Require Import List Arith ZArith Bool Reals Permutation Sorted.
From Verif Require Import Base VecBase GeoSpec GeoExamples VertexModel ShapeSpec ShapeExamples VertexSpec VertexExamples EmbedModel EmbedSpec EmbedProof2 EmbedProof3 EmbedExamples.
Import ListNotations.
Local Open Scope R_scope.

(** The call succeeds, whatever the vertices are; no vertex is moved or renumbered. *)
Theorem C100_total : forall (argsort_R : list R -> list nat) (argsort : list Z -> list nat), is_argsort_R argsort_R -> is_argsort argsort ->
  forall (h : heap) (vs : list nat) (e : host) (shift : Z) (a b : nat), live h (a :: b :: vs) -> h_ends e = [a; b] ->
  exists e' out, embed_vertex_in_edge argsort_R argsort h vs e shift = Ok (h, e', out) /\
    live h (h_ends e') /\ length (h_ends e') = 2%nat /\ incl out vs.
Proof. exact embed_total. Qed.
Print Assumptions C100_total.

(** [us] are the vertices without repeated points, [a'] and [b'] the ends after the vertices
    near an end have taken its place.  The vertices returned are those at a distance from the
    first end within the length of the edge; the new immersed edges join the ends through
    these, in order of that distance. *)
Theorem C100_embed : forall (argsort_R : list R -> list nat) (argsort : list Z -> list nat), is_argsort_R argsort_R -> is_argsort argsort ->
  forall (h : heap) (vs : list nat) (e : host) (shift : Z) (a b : nat) (us : list nat) (a' b' : nat),
  live h (a :: b :: vs) -> h_ends e = [a; b] -> first_of_each h vs us ->
  replaced h (fun u => In u us) a a' -> replaced h (fun u => In u us /\ u <> a') b b' ->
  exists es out, embed_vertex_in_edge argsort_R argsort h vs e shift = Ok (h, mk_host [a'; b'] (h_immersed e ++ es), out) /\
    (forall u, In u out <-> In u us /\ u <> a' /\ u <> b' /\ within (dist h a' u) (dist h a' b')) /\
    StronglySorted lex (map (pt h) out) /\
    (out = [] -> es = []) /\
    (out <> [] -> exists mid, Permutation mid out /\ StronglySorted (fun x y => dist h a' x <= dist h a' y) mid /\ joined h shift (a' :: mid ++ [b']) es).
Proof. exact embed_lemma. Qed.
Print Assumptions C100_embed.
Example C100_embed_example : embed_vertex_in_edge argsort_R_example argsort_example row [3%nat; 2%nat; 5%nat; 4%nat] whole 1 =
  Ok (row, mk_host [0%nat; 1%nat] [(1%Z, [0%nat; 2%nat]); (2%Z, [2%nat; 3%nat]); (3%Z, [1%nat; 3%nat])], [2%nat; 3%nat]).
Proof. exact row_example. Qed.
(** its hypotheses *)
Example C100_embed_hypotheses : first_of_each row [3%nat; 2%nat; 5%nat; 4%nat] [2%nat; 3%nat; 4%nat] /\
  live row [0%nat; 1%nat; 3%nat; 2%nat; 5%nat; 4%nat] /\ replaced row (fun u => In u [2%nat; 3%nat; 4%nat]) 0 0 /\
  replaced row (fun u => In u [2%nat; 3%nat; 4%nat] /\ u <> 0%nat) 1 1.
Proof. exact (conj row_first row_ends). Qed.
(** A vertex which takes the place of an end. *)
Example C100_end_example : embed_vertex_in_edge argsort_R_example argsort_example beside [2%nat] whole 1 = Ok (beside, mk_host [0%nat; 2%nat] [], []).
Proof. exact beside_example. Qed.

(** Vertices on the ray from the first end through the second: those on the edge are returned,
    and the new edges together are the edge. *)
Theorem C100_line : forall (argsort_R : list R -> list nat) (argsort : list Z -> list nat), is_argsort_R argsort_R -> is_argsort argsort ->
  forall (h : heap) (vs : list nat) (e : host) (shift : Z) (a b : nat) (us : list nat) (a' b' : nat),
  live h (a :: b :: vs) -> h_ends e = [a; b] -> first_of_each h vs us ->
  replaced h (fun u => In u us) a a' -> replaced h (fun u => In u us /\ u <> a') b b' ->
  (forall u, In u us -> on_ray (pt h a') (pt h b') (pt h u)) ->
  exists es out, embed_vertex_in_edge argsort_R argsort h vs e shift = Ok (h, mk_host [a'; b'] (h_immersed e ++ es), out) /\
    (forall u, In u out -> on_segment (pt h a') (pt h b') (pt h u)) /\
    (forall u, In u us -> on_segment (pt h a') (pt h b') (pt h u) -> ~ near (dist h a' u) 0 -> ~ near (dist h a' u) (dist h a' b') -> In u out) /\
    (out <> [] -> forall q, on_segment (pt h a') (pt h b') q <-> exists k ends, In (k, ends) es /\ on_edge h ends q).
Proof. exact embed_line. Qed.
Print Assumptions C100_line.
Example C100_line_example : forall u, In u [2%nat; 3%nat; 4%nat] -> on_ray (pt row 0) (pt row 1) (pt row u).
Proof. exact row_ray. Qed.

(** A vertex off the line of the edge is embedded all the same, *)
Theorem C100_off_line_refuted : ~ (forall argsort_R argsort h vs e shift a b h' e' out, is_argsort_R argsort_R -> is_argsort argsort ->
  live h (a :: b :: vs) -> h_ends e = [a; b] -> embed_vertex_in_edge argsort_R argsort h vs e shift = Ok (h', e', out) ->
  forall u, In u out -> exists t, pt h u = between (pt h a) (pt h b) t).
Proof. exact off_refuted. Qed.
Print Assumptions C100_off_line_refuted.
(** and so is one on the line behind the first end. *)
Theorem C100_behind_refuted : ~ (forall argsort_R argsort h vs e shift a b h' e' out, is_argsort_R argsort_R -> is_argsort argsort ->
  live h (a :: b :: vs) -> h_ends e = [a; b] -> (forall u, In u vs -> exists t, pt h u = between (pt h a) (pt h b) t) ->
  embed_vertex_in_edge argsort_R argsort h vs e shift = Ok (h', e', out) ->
  forall u, In u out -> on_segment (pt h a) (pt h b) (pt h u)).
Proof. exact behind_refuted. Qed.
Print Assumptions C100_behind_refuted.
