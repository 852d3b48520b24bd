(** * Lemmas about boxes with fractures: the stages of the construction, C101 *)
From Coq Require Import List Arith ZArith Bool Reals Lra Lia Permutation Sorted.
From Verif Require Import Base BaseProof VecBase VecProof GeoModel GeoSpec GeoProof GeoProof2 PolyModel PolySpec PolyProof3 LineModel LineSpec LineProof LineProof2 LineProof3 ShapeModel ShapeSpec ShapeProof DomProof BoxProof VertexModel VertexSpec DiffProof DomainModel DomainSpec DomainProof DomainProof2 DomainProof3 MdBoxModel MdBoxSpec MdBoxProof MdBoxProof2 MdBoxProof3.
Import ListNotations.
Local Open Scope nat_scope.

Lemma pick_by {A} argsort (f : A -> R) (data : list A) : is_argsort_R argsort ->
  exists l, mapM (get_at data) (argsort (map f data)) = Ok l /\ Permutation l data /\ StronglySorted (fun x y => (f x <= f y)%R) l.
Proof.
  intros So. destruct (So (map f data)) as (P & O). set (idx := argsort (map f data)) in *. rewrite map_length in P.
  destruct (pick_perm data idx P) as (l & E & Q). exists l. split; [exact E|]. split; [exact Q|].
  assert (G : map (fun i => nth i (map f data) 0%R) idx = map f l).
  { clear O Q P. clearbody idx. revert l E. induction idx as [|i idx IH]; intros l E; [injection E as <-; reflexivity|]. simpl in E. unfold get_at at 1 in E. destruct (nth_error data i) as [x|] eqn:X; [|discriminate].
    cbn [bind] in E. destruct (mapM (get_at data) idx) as [r|] eqn:R; [|discriminate]. injection E as <-. simpl. f_equal; [|apply IH; reflexivity].
    apply nth_error_nth. rewrite nth_error_map, X. reflexivity. }
  rewrite G in O. clear - O. induction l as [|x l IH]; [constructor|]. cbn [map] in O. apply StronglySorted_inv in O as [A' B]. constructor; [apply IH; exact A'|].
  rewrite Forall_forall in *. intros y Y. apply B. apply in_map. exact Y.
Qed.
Lemma mask_map {A} (f : A -> bool) l : mask l (map f l) = filter f l.
Proof. unfold mask. induction l as [|x l IH]; [reflexivity|]. cbn [map combine filter snd]. destruct (f x); cbn [map fst]; rewrite IH; reflexivity. Qed.
Lemma joins_two e' e a b : v_tag a <> v_tag b -> joins e' e a b -> e_ends e' = if (v_tag a <? v_tag b)%Z then [a; b] else [b; a].
Proof.
  intros N (_ & _ & P & S). apply Permutation_sym, Permutation_length_2_inv in P as [E|E]; rewrite E in *; cbn [map] in S; apply StronglySorted_inv in S as [_ F]; apply Forall_inv in F;
    destruct (Z.ltb_spec (v_tag a) (v_tag b)); auto; lia.
Qed.
Lemma midpoint_perm e x y : Permutation (e_ends e) [x; y] -> midpoint e = between (v_point x) (v_point y) (1 / 2).
Proof.
  intros P. unfold midpoint. apply Permutation_sym, Permutation_length_2_inv in P as [E|E]; rewrite E; unfold vmean, vdiv, between; cbn [map vsum fold_right length INR]; unfold vadd, vsub, vscale, vzero; cbn [vx vy vz];
    f_equal; field.
Qed.

(** ** The box as vertices and edges *)
Section Rock.
  Variable box : list vec.
  Variable bc : nat -> option Z.
  Notation n := (length box).
  Hypothesis big : 2 <= n.
  Lemma rock_vertices_ok : mapM vertex_of (map (bvertex box vzero) (seq 0 n)) = Ok (map (corner_at box) (seq 0 n)).
  Proof. rewrite <- map_id at 1. rewrite map_id. generalize (seq 0 n). induction l as [|i l IH]; [reflexivity|]. cbn [map mapM]. rewrite IH. reflexivity. Qed.
  Lemma rock_edges_ok : mapM edge_of (filter (fun s => negb (s_composite s)) (map (bedge box bc vzero) (seq 0 n) ++ [bwire box bc vzero])) = Ok (map (side_edge box bc) (seq 0 n)).
  Proof.
    assert (E : forall i, edge_of (bedge box bc vzero i) = Ok (side_edge box bc i)).
    { intros i. unfold edge_of, bedge, side_edge, side_from, side_to. cbn [s_boundary s_tag s_phys]. destruct (S i =? n); reflexivity. }
    rewrite filter_app. replace (filter _ [_]) with (@nil (shape vec)) by reflexivity. rewrite app_nil_r.
    generalize (seq 0 n). induction l as [|i l IH]; [reflexivity|]. cbn [map]. remember (bedge box bc vzero i) as x eqn:X. cbn [filter].
    replace (negb (s_composite x)) with true by (subst x; reflexivity). cbn [mapM]. rewrite IH, X, E. reflexivity.
  Qed.
  Lemma rock_lines_ok : mapM two_points (map (side_edge box bc) (seq 0 n)) = Ok (side_lines box).
  Proof. unfold side_lines. generalize (seq 0 n). induction l as [|i l IH]; [reflexivity|]. cbn [map mapM]. rewrite IH. reflexivity. Qed.
  Lemma rock_max area : np_max (flat_map (map s_tag) [map (bvertex box vzero) (seq 0 n); map (bedge box bc vzero) (seq 0 n) ++ [bwire box bc vzero]; [bface box area bc vzero]]) = Ok (Z.of_nat n).
  Proof.
    set (l := flat_map _ _). assert (I : In (Z.of_nat n) l).
    { unfold l. apply in_flat_map. eexists. split; [right; left; reflexivity|]. apply in_map_iff. exists (bwire box bc vzero). split; [reflexivity|]. apply in_or_app. right. left. reflexivity. }
    destruct (np_max_ok l) as (m & E); [intros N; rewrite N in I; destruct I|]. rewrite E. f_equal. assert (A := np_max_ge l m E _ I). assert (J := np_max_in l m E).
    enough (m <= Z.of_nat n)%Z by lia. unfold l in J. apply in_flat_map in J as (s & Hs & J). apply in_map_iff in J as (x & <- & J). destruct Hs as [<-|[<-|[<-|[]]]].
    - apply in_map_iff in J as (i & <- & J). apply in_seq in J. cbn. lia.
    - apply in_app_or in J as [J|[<-|[]]]; [|cbn; lia]. apply in_map_iff in J as (i & <- & J). apply in_seq in J. cbn. lia.
    - destruct J as [<-|[]]. cbn. lia.
  Qed.
End Rock.

Section Stages.
  Variable argsort : list Z -> list nat.
  Hypothesis Hsort : is_argsort argsort.
  Lemma make_edge_sorted tag phys v0 v1 : (v_tag v0 < v_tag v1)%Z -> make_edge argsort tag phys v0 v1 = Ok (mk_edge tag phys [v0; v1]).
  Proof.
    intros L. destruct (make_edge_ok argsort Hsort tag phys v0 v1) as (ends & E & P & S). rewrite E. do 2 f_equal.
    apply Permutation_sym, Permutation_length_2_inv in P as [->| ->]; [reflexivity|]. cbn [map] in S. apply StronglySorted_inv in S as [_ F]. apply Forall_inv in F. lia.
  Qed.
  Lemma fracture_edges_gen (i l : Z) lines : forall tag k vs es, exists vs',
    foldM (fun st (line : segment) =>
             let '(tag, vs, es) := st in
             do bc <- key (Some i);
             let v0 := mk_vertex tag bc (fst line) in
             let v1 := mk_vertex (tag + 1) bc (snd line) in
             do phys <- key (Some l);
             do e <- make_edge argsort (tag + 2)%Z phys v0 v1;
             Ok ((tag + 3)%Z, vs ++ [v0; v1], es ++ [e]))
          lines ((tag + 3 * Z.of_nat k)%Z, vs, es) = Ok ((tag + 3 * Z.of_nat (k + length lines))%Z, vs', es ++ map (fun kl => fracture_edge (Some l) (Some i) tag (fst kl) (snd kl)) (combine (seq k (length lines)) lines)).
  Proof.
    induction lines as [|x lines IH]; intros tag k vs es; [exists vs; cbn [foldM length seq combine map]; rewrite app_nil_r, Nat.add_0_r; reflexivity|]. cbn [foldM key bind].
    rewrite make_edge_sorted by (cbn [v_tag]; lia). cbn [bind]. replace (tag + 3 * Z.of_nat k + 3)%Z with (tag + 3 * Z.of_nat (S k))%Z by lia.
    destruct (IH tag (S k) (vs ++ [mk_vertex (tag + 3 * Z.of_nat k) (Some i) (fst x); mk_vertex (tag + 3 * Z.of_nat k + 1) (Some i) (snd x)])
      (es ++ [mk_edge (tag + 3 * Z.of_nat k + 2) (Some l) [mk_vertex (tag + 3 * Z.of_nat k) (Some i) (fst x); mk_vertex (tag + 3 * Z.of_nat k + 1) (Some i) (snd x)]])) as (vs' & E). exists vs'.
    etransitivity; [exact E|]. cbn [length seq combine map fst snd]. rewrite <- app_assoc. replace (S k + length lines) with (k + S (length lines)) by lia. reflexivity.
  Qed.
  Lemma fracture_edges_ok i l tag lines : exists vs, fracture_edges argsort (Some i) (Some l) tag lines = Ok ((tag + 3 * Z.of_nat (length lines))%Z, vs, fractures (Some l) (Some i) tag lines).
  Proof.
    unfold fracture_edges. destruct (fracture_edges_gen i l lines tag 0 [] []) as (vs & E). replace (tag + 3 * Z.of_nat 0)%Z with tag in E by lia. exists vs. exact E.
  Qed.

  (** the orientation of a wire can always be computed *)
  Definition two_ended (e : edge) : Prop := exists a b, e_ends e = [a; b].
  Lemma vertex_eq_total fuel (u v : vertex) : exists q, shape_eq allclose_default (S fuel) (shape_of_vertex u) (shape_of_vertex v) = Ok q.
  Proof. eexists. reflexivity. Qed.
  Lemma orient_total fuel es : Forall two_ended es -> forall v, exists o, orient_loop allclose_default (S fuel) (shape_of_vertex v) (map shape_of_edge es) = Ok o.
  Proof.
    induction 1 as [|e es (a & b & E) F IH]; intros v; [exists []; reflexivity|]. cbn [map orient_loop]. unfold shape_of_edge at 1 2. cbn [s_boundary]. rewrite E. cbn [map get_at nth_error bind].
    destruct (vertex_eq_total fuel v a) as (q & ->). cbn [bind]. destruct q.
    - destruct (IH b) as (o & ->). eexists. reflexivity.
    - destruct (IH a) as (o & ->). eexists. reflexivity.
  Qed.
  Lemma immersed_edges t p b es : immersed (mk_shape Wire t p None b (map shape_of_edge es)) = map shape_of_edge es.
  Proof. cbn [immersed]. induction es as [|e es IH]; [reflexivity|]. cbn [map flat_map]. rewrite IH. reflexivity. Qed.
  Lemma one_boundary (s c : shape vec) : admissible s c -> set_boundary argsort s [c] = Ok (mk_shape (s_kind s) (s_tag s) (s_phys s) (s_point s) [c] (s_embedded s)).
  Proof. intros A. apply boundary_id; [exact Hsort|constructor; [exact A|constructor]|]. cbn [map]. constructor; constructor. Qed.
  Lemma wire_total fuel tag es e0 v : Forall two_ended es -> hd_error es = Some e0 -> hd_error (e_ends e0) = Some v ->
    let wire := mk_shape Wire tag None None [shape_of_vertex v] (map shape_of_edge es) in
    exists o, new_wire allclose_default argsort (S fuel) tag (map shape_of_edge es) [shape_of_vertex v] = Ok (wire, o) /\ orient_immersed_edges allclose_default (S fuel) wire = Ok o.
  Proof.
    intros F H0 Hv wire. unfold new_wire, set_immersed. replace (forallb _ _) with true.
    2:{ symmetry. apply forallb_forall. intros c I. apply in_map_iff in I as (e & <- & _). reflexivity. }
    cbn [bind new_shape s_kind s_tag s_phys s_point s_boundary]. rewrite one_boundary by (unfold admissible; cbn; lia). cbn [bind s_kind s_tag s_phys s_point s_embedded].
    fold wire. unfold orient_immersed_edges. unfold wire. rewrite immersed_edges. fold wire. destruct es as [|e es]; [discriminate|]. injection H0 as ->. destruct (Forall_inv F) as (a & b & E).
    assert (Hs : exists w, seed_vertex (map shape_of_edge (e0 :: es)) = Ok (shape_of_vertex w)).
    { unfold seed_vertex. cbn [map get_at nth_error bind]. unfold shape_of_edge. cbn [s_boundary]. rewrite E. cbn [map get_at nth_error bind]. destruct (_ >? _)%Z; eexists; reflexivity. }
    destruct Hs as (w & ->). cbn [bind]. destruct (orient_total fuel (e0 :: es) F w) as (o & ->). exists o. split; reflexivity.
  Qed.
End Stages.
