(** * Lemmas: shapes and graph of a box with lines *)
From Coq Require Import List Arith ZArith Bool Reals Lia Permutation Sorted.
From Verif Require Import Base BaseProof VecBase GeoModel GeoProof2 ShapeModel ShapeSpec ShapeProof MemberProof BoxProof VertexModel EmbedModel EmbedSpec IntersectSpec QueryModel QuerySpec QueryProof LinesModel LinesSpec.
Import ListNotations.

Lemma firstn_split {A} (l : list A) k x : nth_error l k = Some x -> l = firstn k l ++ x :: skipn (S k) l.
Proof. revert k. induction l as [|y l IH]; intros [|k] H; try discriminate; cbn in *; [congruence|]. f_equal. auto. Qed.
Lemma nth_block {A} (d : A) (l1 l l2 : list A) : map (fun j => nth j (l1 ++ l ++ l2) d) (seq (length l1) (length l)) = l.
Proof.
  revert l1. induction l as [|x l IH]; intros l1; auto. cbn [length seq map]. f_equal.
  - rewrite app_nth2 by lia. rewrite Nat.sub_diag. reflexivity.
  - specialize (IH (l1 ++ [x])). rewrite app_length, <- app_assoc in IH. cbn [length app] in IH. rewrite Nat.add_1_r in IH. exact IH.
Qed.
(** The nodes of the graph which stand for vertices *)
Lemma node_lemma {P} dimension fuel (D : domain P) shapes : 0 < dimension -> nth_error D dimension = Some shapes -> Forall (fun s => depth s <= fuel) shapes ->
  Forall (fun s => 0 < s_dim s) shapes ->
  exists g, build_graph dimension fuel D None = Ok g /\
    forall z, memb (Z.of_nat dimension, z) (g_nodes g) = true <-> exists s t c, In s shapes /\ reach s t /\ child t c /\ s_dim c = 0 /\ s_tag c = z.
Proof.
  intros Ld Hd Hf Hk. destruct (graph_arg dimension fuel D None dimension shapes (or_intror (conj eq_refl eq_refl)) Hd Hf) as (g & E & Ge & Gn). exists g. split; auto.
  assert (RD : forall s t, In s shapes -> reach s t -> 0 < s_dim t).
  { intros s t Hs R. destruct R as [|t c R C D0]; [|lia]. rewrite Forall_forall in Hk. auto. }
  intros z. rewrite memb_In, Gn. split.
  - intros [(y & [K|K])|(Z & _)]; [| |lia]; apply Ge in K as (s & t & c & Hs & R & C & Ea & Eb).
    + injection Ea as Ea _. specialize (RD s t Hs R). lia.
    + injection Eb as Eb Et. exists s, t, c. repeat split; auto. lia.
  - intros (s & t & c & Hs & R & C & Dc & T). left. exists (Z.of_nat dimension - Z.of_nat (s_dim t), s_tag t)%Z. right. apply Ge.
    exists s, t, c. repeat (split; auto). unfold s_index. rewrite Dc, T. f_equal. lia.
Qed.

Section Net.
  Variables (n m : nat) (h : heap) (vphys : list (option Z)) (area : option Z) (hosts : list (option host)) (phys : list (option Z)) (es : list (Z * list nat)).
  Hypothesis big : 0 < n.
  Hypothesis len : length hosts = n + 1 + m.
  Hypothesis at_wire : nth_error hosts n = Some None.
  (** An entry: its ends, and edges that join them *)
  Definition sound (e : host) : Prop := exists a b, h_ends e = [a; b] /\ live h [a; b] /\
    (h_immersed e = [] \/ exists mid shift, mid <> [] /\ live h mid /\ joined h shift (a :: mid ++ [b]) (h_immersed e)).
  Hypothesis at_edge : forall k, k < n + 1 + m -> k <> n -> exists e, nth_error hosts k = Some (Some e) /\ sound e.
  Hypothesis all_subs : es = concat (map immersed_in hosts).
  Hypothesis first : 0 < length h.
  Notation N := (mk_net h vphys n [0; 0] area hosts phys es).
  Variable t : nat -> Z.

  Lemma joined_ends shift l q : joined h shift l q -> (forall k ends v, In (k, ends) q -> In v ends -> In v l) /\
    (2 <= length l -> forall v, In v l -> exists k ends, In (k, ends) q /\ In v ends) /\ (forall k ends, In (k, ends) q -> exists x y, ends = [x; y] /\ In x l /\ In y l).
  Proof. clear big len at_wire at_edge first.
    intros (L & J).
    assert (G : forall j s, nth_error q j = Some s -> exists x y, nth_error l j = Some x /\ nth_error l (S j) = Some y /\ Permutation (snd s) [x; y]).
    { intros j s Hs. assert (j < length q) by (apply nth_error_Some; congruence). destruct (nth_error l j) as [x|] eqn:Ex; [|apply nth_error_None in Ex; lia]. destruct (nth_error l (S j)) as [y|] eqn:Ey; [|apply nth_error_None in Ey; lia].
      destruct (J _ _ _ Ex Ey) as (ends & Q & Pe & _). rewrite Q in Hs. injection Hs as <-. exists x, y. auto. }
    split; [|split].
    - intros k ends v Hq Hv. apply In_nth_error in Hq as (j & Hj). destruct (G _ _ Hj) as (x & y & Ex & Ey & Pe). cbn in Pe. apply (Permutation_in _ Pe) in Hv. destruct Hv as [<-|[<-|[]]]; eapply nth_error_In; eauto.
    - intros L2 v Hv. apply In_nth_error in Hv as (j & Hj). assert (j < length l) by (apply nth_error_Some; congruence).
      destruct (Nat.eq_dec (S j) (length l)) as [E|E].
      + destruct j as [|j]; [lia|]. destruct (nth_error l j) as [x|] eqn:Ex; [|apply nth_error_None in Ex; lia]. destruct (J _ _ _ Ex Hj) as (ends & Q & Pe & _). eexists _, ends. split; [eapply nth_error_In; exact Q|]. apply (Permutation_in _ (Permutation_sym Pe)). right. left. auto.
      + destruct (nth_error l (S j)) as [y|] eqn:Ey; [|apply nth_error_None in Ey; lia]. destruct (J _ _ _ Hj Ey) as (ends & Q & Pe & _). eexists _, ends. split; [eapply nth_error_In; exact Q|]. apply (Permutation_in _ (Permutation_sym Pe)). left. auto.
    - intros k ends Hq. apply In_nth_error in Hq as (j & Hj). destruct (G _ _ Hj) as (x & y & Ex & Ey & Pe). cbn in Pe. apply Permutation_sym, Permutation_length_2_inv in Pe as [-> | ->]; eexists _, _; (split; [reflexivity|]); split; eapply nth_error_In; eauto.
  Qed.

  Lemma subs_block k e : nth_error hosts k = Some e -> map (fun j => nth j es (0%Z, [])) (subs_of N k) = immersed_in e.
  Proof.
    intros H. unfold subs_of. cbn [n_hosts]. rewrite (nth_error_nth _ _ None H). 
    assert (E : es = concat (map immersed_in (firstn k hosts)) ++ immersed_in e ++ concat (map immersed_in (skipn (S k) hosts))).
    { rewrite all_subs. pattern hosts at 1. rewrite (firstn_split _ _ _ H). rewrite map_app, concat_app. reflexivity. } rewrite E.
    replace (list_sum (map n_immersed (firstn k hosts))) with (length (concat (map immersed_in (firstn k hosts)))).
    - replace (n_immersed e) with (length (immersed_in e)) by (destruct e; reflexivity). apply nth_block.
    - clear. induction (firstn k hosts) as [|[e|] l IH]; cbn; auto. rewrite app_length, IH. auto.
  Qed.
  Lemma subs_all j : j < length es -> exists k, k < n + 1 + m /\ In j (subs_of N k).
  Proof. clear big at_wire at_edge first.
    intros H. assert (G : forall l s, s <= j < s + length (concat (map immersed_in l)) -> exists k, k < length l /\ s + list_sum (map n_immersed (firstn k l)) <= j < s + list_sum (map n_immersed (firstn k l)) + n_immersed (nth k l None)).
    { induction l as [|e l IH]; intros s Hs; cbn [map concat length] in Hs; [lia|]. rewrite app_length in Hs. assert (Q : length (immersed_in e) = n_immersed e) by (destruct e; reflexivity).
      destruct (Nat.lt_ge_cases j (s + n_immersed e)) as [L|L]; [exists 0; cbn; lia|]. destruct (IH (s + n_immersed e)) as (k & Hk & B); [lia|]. exists (S k). change (list_sum (map n_immersed (firstn (S k) (e :: l)))) with (n_immersed e + list_sum (map n_immersed (firstn k l))). cbn [length nth]. lia. }
    destruct (G hosts 0) as (k & Hk & B); [rewrite <- all_subs; lia|]. exists k. split; [lia|]. unfold subs_of. cbn [n_hosts]. apply in_seq. lia.
  Qed.

  Lemma in_lines k : In k (line_positions N) <-> n < k < n + 1 + m.
  Proof. unfold line_positions. cbn [n_sides n_hosts]. rewrite in_seq, len. lia. Qed.
  Lemma immersed_edge k : immersed (edge_tree N t k) = map (sub_tree N t) (subs_of N k).
  Proof. reflexivity. Qed.
  Lemma immersed_wire : immersed (wire_tree N t) = flat_map (fun k => match subs_of N k with [] => [edge_tree N t k] | l => map (sub_tree N t) l end) (seq 0 n).
  Proof.
    unfold wire_tree. cbn [n_sides immersed]. rewrite flat_map_concat_map, map_map, <- flat_map_concat_map. apply flat_map_ext. intros k. rewrite immersed_edge. destruct (subs_of N k); reflexivity.
  Qed.

  Definition member (x : nat) : Prop := x = 0 \/ exists k e, nth_error hosts k = Some (Some e) /\ (In x (h_ends e) \/ exists s, In s (h_immersed e) /\ In x (snd s)).
  Definition sub_part (s : shape vec) : Prop := exists k j, k < n + 1 + m /\ In j (subs_of N k) /\ s = sub_tree N t j.
  Lemma sub_children k j x : In j (subs_of N k) -> k < n + 1 + m -> In x (snd (nth j es (0%Z, []))) -> member x.
  Proof.
    intros Hj Hk Hx. destruct (Nat.eq_dec k n) as [->|Nk].
    - unfold subs_of in Hj. cbn [n_hosts] in Hj. rewrite (nth_error_nth _ _ None at_wire) in Hj. destruct Hj.
    - destruct (at_edge k Hk Nk) as (e & E & _). right. exists k, e. split; auto. right. exists (nth j es (0%Z, [])). split; auto.
      change (h_immersed e) with (immersed_in (Some e)). rewrite <- (subs_block k _ E). apply (in_map (fun j => nth j es (0%Z, []))). auto.
  Qed.
  Lemma reached s : reach (face_tree N t) s -> s = face_tree N t \/ s = wire_tree N t \/ (exists k, k < n + 1 + m /\ k <> n /\ s = edge_tree N t k) \/ sub_part s.
  Proof.
    intros R. induction R as [|s c R IH C D]; auto. destruct IH as [->|[->|[(k & Hk & Nk & ->)|(k & j & Hk & Hj & ->)]]].
    - destruct C as [[<-|[]]|C]; auto. cbn [face_tree immersed] in C. apply in_map_iff in C as (k & <- & Hk). apply in_lines in Hk. right. right. left. exists k. repeat split; auto; lia.
    - destruct C as [C|C]; [exfalso; cbn in C; destruct C as [<-|[<-|[]]]; apply D; reflexivity|]. rewrite immersed_wire in C. apply in_flat_map in C as (k & Hk & C). apply in_seq in Hk. right. right.
      destruct (subs_of N k) as [|j0 l] eqn:Es; [destruct C as [<-|[]]; left; exists k; repeat split; auto; lia|]. rewrite <- Es in C. apply in_map_iff in C as (j & <- & Hj). right. exists k, j. repeat split; auto; lia.
    - destruct C as [C|C]; [exfalso; unfold edge_tree in C; cbn [s_boundary] in C; apply in_map_iff in C as (x & <- & _); apply D; reflexivity|]. rewrite immersed_edge in C. apply in_map_iff in C as (j & <- & Hj). right. right. right. exists k, j. auto.
    - destruct C as [C|C]; [exfalso; unfold sub_tree in C; cbn [s_boundary] in C; apply in_map_iff in C as (x & <- & _); apply D; reflexivity|]. destruct C.
  Qed.
  Lemma line_reached k : n < k < n + 1 + m -> reach (face_tree N t) (edge_tree N t k).
  Proof.
    intros Hk. eapply reach_step; [apply reach_self| |discriminate]. right. cbn [face_tree immersed]. apply in_map, in_lines. auto.
  Qed.
  Lemma wire_reached : reach (face_tree N t) (wire_tree N t).
  Proof. eapply reach_step; [apply reach_self| |discriminate]. left. left. reflexivity. Qed.
  Lemma sub_reached k j : k < n + 1 + m -> k <> n -> In j (subs_of N k) -> reach (face_tree N t) (sub_tree N t j).
  Proof.
    intros Hk Nk Hj. destruct (Nat.lt_ge_cases k n) as [L|L].
    - eapply reach_step; [apply wire_reached| |discriminate]. right. rewrite immersed_wire. apply in_flat_map. exists k. split; [apply in_seq; lia|]. destruct (subs_of N k) as [|j0 l] eqn:Es; [destruct Hj|]. apply in_map. auto.
    - eapply reach_step; [apply line_reached with (k := k); lia| |discriminate]. right. rewrite immersed_edge. apply in_map. auto.
  Qed.
  Lemma used_lemma z : (exists s u c, In s [face_tree N t] /\ reach s u /\ child u c /\ s_dim c = 0 /\ s_tag c = z) <-> exists x, member x /\ t x = z.
  Proof.
    split.
    - intros (s & u & c & [<-|[]] & R & C & D & T). apply reached in R as [->|[->|[(k & Hk & Nk & ->)|(k & j & Hk & Hj & ->)]]].
      + destruct C as [[<-|[]]|C]; [discriminate|]. cbn [face_tree immersed] in C. apply in_map_iff in C as (k & <- & _). discriminate.
      + destruct C as [C|C]; [cbn in C; exists 0; split; [left; auto|]; destruct C as [<-|[<-|[]]]; auto|]. rewrite immersed_wire in C. apply in_flat_map in C as (k & _ & C).
        destruct (subs_of N k); [destruct C as [<-|[]]; discriminate|]. apply in_map_iff in C as (j & <- & _). discriminate.
      + destruct C as [C|C]; [|rewrite immersed_edge in C; apply in_map_iff in C as (j & <- & _); discriminate]. destruct (at_edge k Hk Nk) as (e & E & _).
        unfold edge_tree in C. cbn [s_boundary n_hosts] in C. rewrite (nth_error_nth _ _ None E) in C. apply in_map_iff in C as (x & <- & Hx). exists x. split; [right; exists k, e; auto|auto].
      + destruct C as [C|C]; [|destruct C]. unfold sub_tree in C. cbn [s_boundary n_subs] in C. apply in_map_iff in C as (x & <- & Hx). exists x. split; [eapply sub_children; eauto|auto].
    - intros (x & M & T). exists (face_tree N t). destruct M as [->|(k & e & E & M)].
      + exists (wire_tree N t), (vertex_tree N t 0). split; [left; auto|]. split; [apply wire_reached|]. split; [left; left; reflexivity|]. split; auto.
      + assert (Hk : k < n + 1 + m) by (rewrite <- len; apply nth_error_Some; congruence). assert (Nk : k <> n) by (intros ->; congruence).
        assert (SB : forall s v, In s (h_immersed e) -> In v (snd s) -> exists u c, In (face_tree N t) [face_tree N t] /\ reach (face_tree N t) u /\ child u c /\ s_dim c = 0 /\ s_tag c = t v).
        { intros s v Hs Hv. change (h_immersed e) with (immersed_in (Some e)) in Hs. rewrite <- (subs_block k _ E) in Hs. apply in_map_iff in Hs as (j & <- & Hj).
          exists (sub_tree N t j), (vertex_tree N t v). split; [left; auto|]. split; [eapply sub_reached; eauto|]. split; [left; unfold sub_tree; cbn [s_boundary n_subs]; apply in_map; auto|]. split; auto. }
        subst z. destruct M as [M|(s & Hs & M)]; [|apply (SB s); auto].
        destruct (at_edge k Hk Nk) as (e' & E' & a & b & Ee & Lv & IM). assert (e' = e) as -> by congruence.
        assert (Here : reach (face_tree N t) (edge_tree N t k) -> exists u c, In (face_tree N t) [face_tree N t] /\ reach (face_tree N t) u /\ child u c /\ s_dim c = 0 /\ s_tag c = t x).
        { intros R. exists (edge_tree N t k), (vertex_tree N t x). split; [left; auto|]. split; auto. split; [|auto]. left. unfold edge_tree. cbn [s_boundary n_hosts]. rewrite (nth_error_nth _ _ None E). apply in_map. auto. }
        destruct (Nat.lt_ge_cases k n) as [L|L]; [|apply Here, line_reached; lia].
        destruct IM as [IM|(mid & shift & Ne & _ & J)].
        * apply Here. eapply reach_step; [apply wire_reached| |discriminate]. right. rewrite immersed_wire. apply in_flat_map. exists k. split; [apply in_seq; lia|].
          assert (Es : subs_of N k = []). { pose proof (subs_block k _ E) as Q. cbn [immersed_in] in Q. rewrite IM in Q. destruct (subs_of N k); [auto|discriminate]. } rewrite Es. left. auto.
        * destruct (joined_ends _ _ _ J) as (_ & J2 & _). rewrite Ee in M. destruct (J2 ltac:(cbn; rewrite app_length; cbn; lia) x) as (i & ends & Hi & Hx).
          { destruct M as [<-|[<-|[]]]; [left; auto|right; apply in_app_iff; right; left; auto]. } exact (SB (i, ends) x Hi Hx).
  Qed.

  Lemma depth_list (l : list (shape vec)) d : (forall s, In s l -> depth s <= d) -> list_max (map depth l) <= d.
  Proof. intros H. apply list_max_le. apply Forall_forall. intros x Hx. apply in_map_iff in Hx as (s & <- & Hs). auto. Qed.
  Lemma depth_vertex x : depth (vertex_tree N t x) = 1.
  Proof. reflexivity. Qed.
  Lemma depth_bound k tg' p q (b i : list (shape vec)) d : (forall s, In s b -> depth s <= d) -> (forall s, In s i -> depth s <= d) -> depth (mk_shape k tg' p q b i) <= S d.
  Proof. intros Hb Hi. cbn [depth]. rewrite list_max_app. pose proof (depth_list b d Hb). pose proof (depth_list i d Hi). lia. Qed.
  Lemma depth_sub j : depth (sub_tree N t j) <= 2.
  Proof. unfold sub_tree. apply depth_bound; [|intros s []]. intros s H. apply in_map_iff in H as (x & <- & _). rewrite depth_vertex. lia. Qed.
  Lemma depth_edge' k : depth (edge_tree N t k) <= 3.
  Proof.
    unfold edge_tree. apply depth_bound; intros s H; apply in_map_iff in H as (x & <- & _); [rewrite depth_vertex; lia|apply depth_sub].
  Qed.
  Lemma depth_face' : depth (face_tree N t) <= 5.
  Proof.
    unfold face_tree. apply depth_bound; intros s H.
    - destruct H as [<-|[]]. unfold wire_tree. apply depth_bound; intros s H; apply in_map_iff in H as (x & <- & _); [rewrite depth_vertex; lia|apply depth_edge'].
    - apply in_map_iff in H as (x & <- & _). pose proof (depth_edge' x). lia.
  Qed.
  Lemma graph_lemma' fuel kept : 5 <= fuel -> exists g, build_graph 2 fuel (domain_tree N t kept) None = Ok g /\
    forall z, memb (2%Z, z) (g_nodes g) = true <-> exists x, member x /\ t x = z.
  Proof.
    intros Hf. destruct (node_lemma 2 fuel (domain_tree N t kept) [face_tree N t]) as (g & E & Q); auto.
    - constructor; [|constructor]. pose proof depth_face'. lia.
    - repeat constructor.
    - exists g. split; auto. intros z. rewrite <- used_lemma. apply Q.
  Qed.

  (** ** The wire *)
  Lemma vertex_live x : x < length h -> s_point (vertex_tree N t x) = Some (pt h x).
  Proof. clear big len at_wire at_edge first. intros H. unfold vertex_tree, pt. cbn [s_point n_heap]. destruct (nth_error h x) as [v|] eqn:E; [|apply nth_error_None in E; lia]. rewrite (nth_error_nth _ _ (0%Z, vzero) E). auto. Qed.
  Definition two_ends (s : shape vec) : Prop := exists x y, s_boundary s = [vertex_tree N t x; vertex_tree N t y] /\ x < length h /\ y < length h.
  Lemma edge_two k : k < n + 1 + m -> k <> n -> two_ends (edge_tree N t k).
  Proof.
    intros Hk Nk. destruct (at_edge k Hk Nk) as (e & E & a & b & Ee & Lv & _). exists a, b. unfold edge_tree. cbn [s_boundary n_hosts]. rewrite (nth_error_nth _ _ None E), Ee. split; [reflexivity|split; apply Lv; cbn; auto].
  Qed.
  Lemma sub_two k j : k < n + 1 + m -> In j (subs_of N k) -> two_ends (sub_tree N t j).
  Proof.
    intros Hk Hj. destruct (Nat.eq_dec k n) as [->|Nk].
    { unfold subs_of in Hj. cbn [n_hosts] in Hj. rewrite (nth_error_nth _ _ None at_wire) in Hj. destruct Hj. }
    destruct (at_edge k Hk Nk) as (e & E & a & b & Ee & Lv & IM). assert (Q := subs_block k _ E). cbn [immersed_in] in Q.
    assert (I : In (nth j es (0%Z, [])) (h_immersed e)) by (rewrite <- Q; apply (in_map (fun j => nth j es (0%Z, []))); auto).
    destruct IM as [IM|(mid & shift & _ & Lm & J)]; [rewrite IM in I; destruct I|]. destruct (joined_ends _ _ _ J) as (_ & _ & J3). destruct (nth j es (0%Z, [])) as [i ends] eqn:Ej. destruct (J3 _ _ I) as (x & y & -> & Hx & Hy).
    exists x, y. unfold sub_tree. cbn [s_boundary n_subs]. rewrite Ej. split; [reflexivity|].
    assert (LL : forall v, In v (a :: mid ++ [b]) -> v < length h). { intros v [<-|Hv]; [apply Lv; cbn; auto|]. apply in_app_iff in Hv as [Hv|[<-|[]]]; [apply Lm; auto|apply Lv; cbn; auto]. }
    auto.
  Qed.
  Lemma wire_two s : In s (immersed (wire_tree N t)) -> two_ends s.
  Proof.
    rewrite immersed_wire. intros H. apply in_flat_map in H as (k & Hk & H). apply in_seq in Hk. destruct (subs_of N k) as [|j l] eqn:Es; [destruct H as [<-|[]]; apply edge_two; lia|].
    rewrite <- Es in H. apply in_map_iff in H as (i & <- & Hi). apply (sub_two k); auto. lia.
  Qed.
  Lemma eq_vertices fuel x y : x < length h -> y < length h -> exists q, shape_eq allclose_default (S fuel) (vertex_tree N t x) (vertex_tree N t y) = Ok q.
  Proof. intros Hx Hy. cbn [shape_eq]. change (s_kind (vertex_tree N t x)) with Vertex. cbn match. rewrite !vertex_live by auto. eauto. Qed.
  Lemma orient_ok fuel : forall l x, (forall s, In s l -> two_ends s) -> x < length h -> exists o, orient_loop allclose_default (S fuel) (vertex_tree N t x) l = Ok o.
  Proof.
    induction l as [|s l IH]; intros x H Hx; [exists []; reflexivity|]. destruct (H s (or_introl eq_refl)) as (a & b & E & La & Lb). cbn [orient_loop]. rewrite E. cbn [get_at nth_error bind].
    destruct (eq_vertices fuel x a Hx La) as (q & Eq). rewrite Eq. cbn [bind]. destruct q.
    - destruct (IH b (fun u Hu => H u (or_intror Hu)) Lb) as (o & Eo). rewrite Eo. eexists. reflexivity.
    - destruct (IH a (fun u Hu => H u (or_intror Hu)) La) as (o & Eo). rewrite Eo. eexists. reflexivity.
  Qed.
  Lemma wire_nonempty : exists s l, immersed (wire_tree N t) = s :: l.
  Proof.
    rewrite immersed_wire. destruct n as [|n']; [lia|]. cbn [seq flat_map]. destruct (subs_of _ 0); cbn; eauto.
  Qed.
  Lemma refresh_ok fuel kept : exists o, orient_immersed_edges allclose_default (S fuel) (wire_tree N t) = Ok o /\
    refresh_wires allclose_default (S fuel) (domain_tree N t kept) = Ok [o].
  Proof.
    destruct wire_nonempty as (s & l & E). assert (T := wire_two). rewrite E in T.
    assert (O : exists o, orient_immersed_edges allclose_default (S fuel) (wire_tree N t) = Ok o).
    { unfold orient_immersed_edges. rewrite E. unfold seed_vertex. cbn [get_at nth_error bind]. destruct (T s (or_introl eq_refl)) as (x & y & Es & Lx & Ly). rewrite Es. cbn [get_at nth_error bind]. destruct (_ >? _)%Z; apply orient_ok; auto. }
    destruct O as (o & O). exists o. split; auto. unfold refresh_wires, domain_tree. cbn [get_at nth_error bind].
    assert (F : filter s_composite (map (edge_tree N t) (seq 0 (n_sides N)) ++ wire_tree N t :: map (edge_tree N t) (line_positions N) ++ map (sub_tree N t) (seq 0 (length (n_subs N)))) = [wire_tree N t]).
    { assert (Z : forall (f : nat -> shape vec) q, (forall k, s_composite (f k) = false) -> filter s_composite (map f q) = []) by (intros f q Hf; induction q; cbn; auto; rewrite Hf; auto).
      rewrite filter_app, Z by reflexivity. cbn [filter app]. rewrite filter_app, !Z by reflexivity. reflexivity. }
    rewrite F. cbn [mapM]. rewrite O. reflexivity.
  Qed.
End Net.
