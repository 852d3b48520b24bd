(** * Lemmas: a box with lines, the whole of it *)
From Coq Require Import List Arith ZArith Bool Reals Lia Permutation Sorted.
From Verif Require ExportProof3.
From Verif Require Import Base BaseProof VecBase GeoModel GeoSpec GeoProof2 ShapeModel ShapeSpec ShapeProof BoxProof VertexModel VertexSpec TagModel EmbedModel EmbedSpec EmbedProof EmbedProof2 EmbedProof3 IntersectModel IntersectSpec IntersectProof2 IntersectProof3 IntersectProof4 QueryModel QuerySpec QueryProof LinesModel LinesSpec LinesProof LinesProof2 LinesProof3 LinesProof4.
Import ListNotations.

Lemma given_tags box lines : map fst (given box lines) = consecutive 0 (length (given box lines)).
Proof.
  destruct (given_map box lines) as (all & L & E). rewrite <- L, E, map_map. unfold consecutive. reflexivity.
Qed.
Lemma nth_consecutive s k x : x < k -> nth x (consecutive s k) 0%Z = (s + Z.of_nat x)%Z.
Proof. intros H. unfold consecutive. rewrite nth_indep with (d' := (s + Z.of_nat 0)%Z) by (rewrite map_length, seq_length; auto). rewrite (map_nth (fun i => (s + Z.of_nat i)%Z)), seq_nth by auto. reflexivity. Qed.
Lemma filter_lt f k s : StronglySorted lt (filter f (seq s k)).
Proof.
  revert s. induction k as [|k IH]; intros s; cbn; [constructor|]. destruct (f s); auto. constructor; auto. apply Forall_forall. intros x H. apply filter_In in H as (H & _). apply in_seq in H. lia.
Qed.
Lemma consecutive_map {A} (f : A -> Z) l s : (forall i x, nth_error l i = Some x -> f x = (s + Z.of_nat i)%Z) -> map f l = consecutive s (length l).
Proof.
  revert s. induction l as [|y l IH]; intros s H; auto. cbn [map length]. unfold consecutive. cbn [seq map]. f_equal; [apply (H 0 y eq_refl)|]. rewrite (IH (s + 1)%Z).
  - unfold consecutive. rewrite <- seq_shift, map_map. apply map_ext. intros i. lia.
  - intros i x Hx. rewrite (H (S i) x Hx). lia.
Qed.

Lemma combine_snd {A B} (a : list A) (b : list B) : length a = length b -> map snd (combine a b) = b.
Proof. revert b. induction a as [|x a IH]; intros [|y b] H; try discriminate; auto. cbn. f_equal. auto. Qed.

Lemma nth_map_seq {A} (f : nat -> A) d s k i : i < k -> nth i (map f (seq s k)) d = f (s + i).
Proof. intros H. rewrite (nth_indep _ d (f 0)) by (rewrite map_length, seq_length; auto). rewrite map_nth, seq_nth by auto. reflexivity. Qed.

Section Whole.
  Variable argsort_R : list R -> list nat.
  Variable argsort : list Z -> list nat.
  Hypothesis AR : is_argsort_R argsort_R.
  Hypothesis AZ : is_argsort argsort.
  Variables (eps : R) (fuel : nat) (box : list vec) (lines : list (vec * vec)) (area : option Z) (bc : nat -> option Z).
  Hypothesis big : 2 <= length box.
  Hypothesis fuel_ok : 5 <= fuel.
  Hypothesis tagged : area <> None \/ exists i, i < length box /\ bc i <> None.
  Notation n := (length box).
  Notation m := (length lines).
  Notation h0 := (given box lines).
  Notation L := (length h0).
  Hypothesis clear : clear_network h0 (network n m) eps 2.

  Lemma whole : exists top new hosts es kept t o g,
    let h := h0 ++ new in
    let N := mk_net h (map (fun _ => None) h0 ++ map Some (consecutive (top + Z.of_nat m + 1) (length new))) n [0; 0] area hosts
               (map bc (seq 0 n) ++ None :: map Some (consecutive (top + 1) m)) es in
    largest (fun p => area = Some p \/ exists i, i < n /\ bc i = Some p) top /\
    build_box_2D_with_lines argsort_R argsort eps fuel box lines area bc = Ok (N, kept, t, [o], (domain_tree N t kept, g)) /\
    (exists t0, (forall x, x < length h -> t0 x = Z.of_nat x) /\ orient_immersed_edges allclose_default fuel (wire_tree N t0) = Ok o) /\
    StronglySorted lex (map snd new) /\ (forall x, In x (map snd new) <-> exists i, cut_point h0 (network n m) i x) /\
    es = concat (map immersed_in hosts) /\
    length hosts = n + 1 + m /\ nth_error hosts n = Some None /\
    (forall i a b, edge_at (network n m) i a b -> exists a' b' es_i, nth_error hosts i = Some (Some (mk_host [a'; b'] es_i)) /\
      cut h L (cut_point h0 (network n m) i) a b a' b' es_i) /\
    (forall k, k < n + 1 + m -> k <> n -> exists e, nth_error hosts k = Some (Some e) /\ sound h e) /\
    StronglySorted lt kept /\
    (forall x, In x kept <-> x = 0 \/ L <= x < length h \/ exists i a b, edge_at (network n m) i a b /\ In x [a; b] /\ ~ cut_point h0 (network n m) i (pt h0 x)) /\
    map t kept = consecutive 0 (length kept) /\
    map (fun k => t (edge_id N k)) (line_positions N) = consecutive 1 m /\
    (forall j k, j < n + 1 + m + length es -> k < n + 1 + m + length es -> ~ n < j < n + 1 + m -> ~ n < k < n + 1 + m -> j <> k -> t (edge_id N j) <> t (edge_id N k)) /\
    (forall z, memb (2%Z, z) (g_nodes g) = true <-> In z (map t kept)) /\
    (subs_of N 0 = [] -> subs_of N 1 <> [] -> t (edge_id N 1) = 1%Z).
  Proof.
    destruct (box_2D_gen allclose_default argsort AZ box area bc vzero big fuel default_refl ltac:(lia)) as (ob & gb & EB & _).
    destruct (physical_lemma' box area bc big tagged) as (top & ET & LT & ET').
    destruct (intersect_lemma argsort_R argsort AR AZ h0 (network n m) eps 2 clear (Z.of_nat (length (network n m))) (Z.of_nat L) (top + Z.of_nat m)) as (new & hosts & es & EI & NT & SO & PO & AS & ES & LH & WI & CU).
    exists top, new, hosts, es. set (h := h0 ++ new). set (N := mk_net h (map (fun _ => None) h0 ++ map Some (consecutive (top + Z.of_nat m + 1) (length new))) n [0; 0] area hosts
               (map bc (seq 0 n) ++ None :: map Some (consecutive (top + 1) m)) es).
    set (t0 := fun y => nth y (map fst h ++ map s_tag (map (bedge box bc vzero) (seq 0 n) ++ [bwire box bc vzero]) ++ map (fun e => fst (fst e)) (map (line_edge n (top + 1)) (seq 0 m)) ++ map fst es ++ [s_tag (bface box area bc vzero)]) 0%Z).
    assert (AW : nth_error hosts n = Some None).
    { apply WI. rewrite nth_network. destruct (Nat.ltb_spec n n); [lia|]. rewrite Nat.eqb_refl. auto. }
    assert (LN : length hosts = n + 1 + m) by (rewrite LH; apply length_network).
    assert (AE : forall k, k < n + 1 + m -> k <> n -> exists e, nth_error hosts k = Some (Some e) /\ sound h e).
    { intros k Hk Nk. destruct (entry_network n m k Hk Nk) as (a & b & E). destruct (CU k a b E) as (a' & b' & q & E' & _). eexists. split; [exact E'|].
      apply (host_sound h0 new (network n m) hosts eps clear CU LH WI k). auto. }
    assert (L0 : 0 < L) by (rewrite length_given; lia).
    assert (H0 : 0 < length h) by (unfold h; rewrite app_length; lia).
    assert (T0 : forall x, x < length h -> t0 x = Z.of_nat x).
    { intros x Hx. unfold t0. rewrite app_nth1 by (rewrite map_length; auto). unfold h. rewrite map_app, given_tags, NT.
      replace (Z.of_nat L) with (0 + Z.of_nat L)%Z by lia. rewrite <- consecutive_app. rewrite nth_consecutive; [lia|]. unfold h in Hx. rewrite app_length in Hx. auto. }
    destruct fuel as [|f] eqn:Ef; [lia|]. 
    destruct (refresh_ok n m h _ area hosts (map bc (seq 0 n) ++ None :: map Some (consecutive (top + 1) m)) es ltac:(lia) LN AW AE AS H0 t0 f (seq 0 (length h)) : exists o, orient_immersed_edges allclose_default (S f) (wire_tree N t0) = Ok o /\ refresh_wires allclose_default (S f) (domain_tree N t0 (seq 0 (length h))) = Ok [o]) as (o & EO & ER).
    destruct (graph_lemma' n m h (n_vphys N) area hosts (n_phys N) es ltac:(lia) LN AW AE AS H0 t0 (S f) (seq 0 (length h)) fuel_ok) as (g0 & EG & GN).
    set (kept := filter (fun x => memb (2%Z, t0 x) (g_nodes g0)) (seq 0 (length h))).
    set (t := retag_shapes (object_dim N) (object_immersed N) 2 (object_domain N kept) t0).
    destruct (graph_lemma' n m h (n_vphys N) area hosts (n_phys N) es ltac:(lia) LN AW AE AS H0 t (S f) kept fuel_ok) as (g & EG' & GN').
    assert (SK : StronglySorted lt kept) by apply filter_lt.
    assert (LK : forall x, In x kept -> x < length h) by (intros x H; apply filter_In in H as (H & _); apply in_seq in H; lia).
    assert (NK : NoDup kept) by (apply NoDup_filter, seq_NoDup).
    exists kept, t, o, g. cbv zeta.
    assert (KS : forall x, In x kept <-> x = 0 \/ L <= x < length h \/ exists i a b, edge_at (network n m) i a b /\ In x [a; b] /\ ~ cut_point h0 (network n m) i (pt h0 x)).
    { intros x. unfold kept. rewrite filter_In, in_seq, GN. assert (MS := member_spec h0 new (network n m) hosts eps clear SO PO CU LH WI x). fold h in MS. rewrite <- MS. split.
      - intros (Hx & y & M & Q). rewrite !T0 in Q; [|lia|apply (member_live h0 new (network n m) hosts eps clear SO PO CU LH WI y L0 M)]. assert (y = x) as -> by lia. auto.
      - intros M. split; [assert (Q := member_live h0 new (network n m) hosts eps clear SO PO CU LH WI x L0 M); fold h in Q; lia|]. exists x. auto. }
    split; [exact LT|]. split.
    { unfold build_box_2D_with_lines. rewrite EB. cbn [bind get_at nth_error]. rewrite corners_lemma. cbn [bind]. rewrite ET. cbn [bind get_at nth_error s_boundary bface].
      rewrite !app_length, !map_length, !seq_length. cbn [length]. rewrite (lines_lemma argsort AZ box (top + 1) lines). cbn [bind]. rewrite hosts_lemma.
      rewrite (ET' m). cbn [bind]. rewrite EI. cbn [bind].
      replace (n + 1 - 1) with n by lia.
      match goal with |- context [mk_net h0 ?v ?a ?b ?c ?d ?e ?f] => idtac | |- context [mk_net ?hh ?v ?a ?b ?c ?d ?e ?f] => replace (mk_net hh v a b c d e f) with N end.
      2:{ unfold N. f_equal.
          - f_equal. rewrite <- (map_map snd (fun v => Some v)), combine_snd by (unfold consecutive; rewrite map_length, !seq_length; auto). reflexivity.
          - rewrite map_app, map_map, map_map. cbn [map]. rewrite <- app_assoc. f_equal. cbn [app]. f_equal. unfold consecutive. rewrite map_map. apply map_ext. intros k. reflexivity. }
      change (h0 ++ new) with h. fold t0. rewrite ER. cbn [bind].
      change (build_graph 2 (S f) (domain_tree N t0 (seq 0 (length h))) None = Ok g0) in EG. rewrite EG. cbn [bind].
      change (build_graph 2 (S f) (domain_tree N t kept) None = Ok g) in EG'.
      change ((do g2 <- build_graph 2 (S f) (domain_tree N t kept) None; Ok (N, kept, t, [o], (domain_tree N t kept, g2))) = Ok (N, kept, t, [o], (domain_tree N t kept, g))). rewrite EG'. reflexivity. }
    split; [exists t0; auto|]. repeat (split; [assumption|]). 
    split; [apply consecutive_map; intros i x Hx; unfold t; rewrite (tags_vertices N kept LK NK t0 i x Hx); lia|]. split.
    { rewrite (consecutive_map _ _ 1); [f_equal; unfold line_positions; cbn [n_hosts n_sides N]; rewrite seq_length; lia|]. intros i k Hk. transitivity (Z.of_nat (S i)); [exact (tags_lines N kept t0 i k Hk)|lia]. }
    split.
    { intros j k Hj Hk Nj Nk Ne. apply (tags_others N kept t0); cbn [n_hosts n_subs N]; auto; try lia; intros Q; unfold line_positions in Q; apply in_seq in Q; cbn [n_sides n_hosts N] in Q; lia. }
    split; [|intros S0 S1; apply (tags_second N kept t0); auto; cbn [n_sides n_hosts N]; lia].
    intros z. rewrite GN', in_map_iff. split; intros (x & A & B); exists x; split; auto.
    - apply KS. apply (member_spec h0 new (network n m) hosts eps clear SO PO CU LH WI x). auto.
    - apply KS in B. apply (member_spec h0 new (network n m) hosts eps clear SO PO CU LH WI x) in B. auto.
  Qed.

  Theorem lines_theorem : exists N top new kept t o V sides wire ls subs face g,
    build_box_2D_with_lines argsort_R argsort eps fuel box lines area bc = Ok (N, kept, t, [o], ([V; sides ++ wire :: ls ++ subs; [face]], g)) /\
    n_heap N = h0 ++ new /\ StronglySorted lex (map snd new) /\ (forall x, In x (map snd new) <-> exists i, cut_point h0 (network n m) i x) /\
    length (n_hosts N) = n + 1 + m /\ nth_error (n_hosts N) n = Some None /\
    (forall i a b, edge_at (network n m) i a b -> exists a' b' es, nth_error (n_hosts N) i = Some (Some (mk_host [a'; b'] es)) /\
      cut (h0 ++ new) L (cut_point h0 (network n m) i) a b a' b' es) /\
    StronglySorted lt kept /\
    (forall x, In x kept <-> x = 0 \/ L <= x < L + length new \/ exists i a b, edge_at (network n m) i a b /\ In x [a; b] /\ ~ cut_point h0 (network n m) i (pt h0 x)) /\
    map t kept = consecutive 0 (length kept) /\ map s_tag V = map t kept /\ map s_point V = map (fun x => Some (pt (h0 ++ new) x)) kept /\
    (forall z, memb (2%Z, z) (g_nodes g) = true <-> In z (map s_tag V)) /\
    largest (fun p => area = Some p \/ exists i, i < n /\ bc i = Some p) top /\
    map s_phys V = map (fun x => if x <? L then None else Some (top + Z.of_nat m + 1 + Z.of_nat (x - L))%Z) kept /\
    map s_phys sides = map bc (seq 0 n) /\ map s_phys ls = map Some (consecutive (top + 1) m) /\ s_phys face = area /\
    Forall2 (drawn_host (h0 ++ new) t) sides (firstn n (n_hosts N)) /\
    Forall2 (drawn_host (h0 ++ new) t) ls (skipn (S n) (n_hosts N)) /\
    Forall2 (fun e s => drawn (h0 ++ new) t e (snd s)) subs (concat (map immersed_in (n_hosts N))) /\
    s_kind wire = Wire /\ map s_tag (s_boundary wire) = [t 0; t 0] /\ Forall2 (drawn (h0 ++ new) t) (immersed wire) (ring n (n_hosts N)) /\
    s_kind face = Face /\ s_boundary face = [wire] /\ immersed face = ls /\
    map s_tag ls = consecutive 1 m /\ NoDup (map s_tag (sides ++ wire :: subs)).
  Proof.
    destruct whole as (top & new & hosts & es & kept & t & o & g & LT & EB & _ & SO & PO & AS & LN & AW & CU & AE & SK & KS & TV & TL & TO & GN & _).
    set (h := h0 ++ new) in *. set (vp := _ ++ map Some (consecutive (top + Z.of_nat m + 1) (length new))) in *. set (ph := _ ++ None :: _) in *.
    set (N := mk_net h vp n [0; 0] area hosts ph es) in *.
    exists N, top, new, kept, t, o, (map (vertex_tree N t) kept), (map (edge_tree N t) (seq 0 n)), (wire_tree N t), (map (edge_tree N t) (line_positions N)), (map (sub_tree N t) (seq 0 (length es))), (face_tree N t), g.
    assert (LK : live h kept).
    { intros x Hx. apply KS in Hx as [->|[Hx|(i & a & b & E & Ix & _)]]; [unfold h; rewrite app_length, length_given; lia|lia|].
      destruct (edge_live' h0 (network n m) eps clear i a b E) as (A & B). unfold h. rewrite app_length. destruct Ix as [<-|[<-|[]]]; lia. }
    split; [exact EB|]. split; [reflexivity|]. split; [exact SO|]. split; [exact PO|]. split; [exact LN|]. split; [exact AW|]. split; [exact CU|]. split; [exact SK|].
    split; [intros x; rewrite KS; unfold h; rewrite app_length; reflexivity|]. split; [exact TV|]. split; [apply (tags_of n h vp area hosts ph es t)|]. split; [apply (points_live n h vp area hosts ph es t); auto|].
    split; [intros z; rewrite GN, (tags_of n h vp area hosts ph es t); reflexivity|]. split; [exact LT|]. split.
    { rewrite map_map. apply map_ext_in. intros x Hx. cbn [vertex_tree s_phys n_vphys N]. unfold vp. apply LK in Hx. unfold h in Hx. rewrite app_length in Hx. destruct (Nat.ltb_spec x L) as [Lx|Lx].
      - rewrite app_nth1 by (rewrite map_length; auto). generalize h0 as l. generalize x as i. induction i as [|i IH]; intros [|v l]; cbn; auto.
      - rewrite app_nth2 by (rewrite map_length; auto). rewrite map_length. rewrite (nth_indep _ None (Some 0%Z)) by (rewrite map_length; unfold consecutive; rewrite map_length, seq_length; lia). rewrite map_nth, nth_consecutive by lia. reflexivity. }
    split.
    { rewrite map_map. cbn [edge_tree s_phys n_phys N]. unfold ph. apply nth_ext with (d := None) (d' := None); [rewrite !map_length; auto|]. intros i Hi. rewrite map_length, seq_length in Hi.
      rewrite (nth_map_seq (fun x => nth x (map bc (seq 0 n) ++ None :: map Some (consecutive (top + 1) m)) None)) by auto. cbn [plus]. apply app_nth1. rewrite map_length, seq_length. auto. }
    split.
    { rewrite map_map. cbn [edge_tree s_phys n_phys N]. unfold ph, line_positions. cbn [n_sides n_hosts N]. rewrite LN. replace (n + 1 + m - S n) with m by lia.
      apply nth_ext with (d := None) (d' := None); [unfold consecutive; rewrite !map_length, !seq_length; auto|]. intros i Hi. rewrite map_length, seq_length in Hi.
      rewrite (nth_map_seq (fun x => nth x (map bc (seq 0 n) ++ None :: map Some (consecutive (top + 1) m)) None)) by auto. rewrite app_nth2 by (rewrite map_length, seq_length; lia). rewrite map_length, seq_length. replace (S n + i - n) with (S i) by lia. reflexivity. }
    split; [reflexivity|]. split; [apply (drawn_sides n m h vp area hosts ph es LN AW AE AS t)|]. split; [apply (drawn_lines n m h vp area hosts ph es LN AW AE AS t)|].
    split; [cbn [n_hosts N]; rewrite <- AS; apply (drawn_all n m h vp area hosts ph es LN AW AE AS t)|]. split; [reflexivity|]. split; [reflexivity|]. split; [apply (drawn_ring n m h vp area hosts ph es LN AW AE AS t)|].
    split; [reflexivity|]. split; [reflexivity|]. split; [reflexivity|]. split; [rewrite map_map; exact TL|].
    rewrite map_app. cbn [map]. rewrite !map_map. cbn [edge_tree wire_tree sub_tree s_tag n_sides N].
    replace (map (fun x => t (edge_id N x)) (seq 0 n) ++ t (edge_id N n) :: map (fun x => t (sub_id N x)) (seq 0 (length es))) with (map (fun k => t (edge_id N k)) (seq 0 n ++ n :: map (fun j => n + 1 + m + j) (seq 0 (length es)))).
    2:{ rewrite map_app. cbn [map]. rewrite map_map. unfold sub_id. cbn [n_hosts N]. rewrite LN. reflexivity. }
    assert (ND : NoDup (seq 0 n ++ n :: map (fun j => n + 1 + m + j) (seq 0 (length es)))).
    { rewrite <- (app_nil_l (_ ++ _)). replace (seq 0 n ++ n :: map (fun j => n + 1 + m + j) (seq 0 (length es))) with (seq 0 (S n) ++ map (fun j => n + 1 + m + j) (seq 0 (length es))) by (rewrite seq_S, <- app_assoc; reflexivity).
      cbn [app]. apply ExportProof3.NoDup_app_intro; [apply seq_NoDup|apply FinFun.Injective_map_NoDup; [intros a b; lia|apply seq_NoDup]|]. intros x A B. apply in_seq in A. apply in_map_iff in B as (j & <- & B). lia. }
    assert (BD : forall x, In x (seq 0 n ++ n :: map (fun j => n + 1 + m + j) (seq 0 (length es))) -> x < n + 1 + m + length es /\ ~ n < x < n + 1 + m).
    { intros x H. apply in_app_iff in H as [H|[<-|H]]; [apply in_seq in H; lia|lia|]. apply in_map_iff in H as (j & <- & H). apply in_seq in H. lia. }
    revert ND BD. generalize (seq 0 n ++ n :: map (fun j => n + 1 + m + j) (seq 0 (length es))). intros l ND BD. induction ND as [|x l Nx ND IH]; cbn; constructor.
    - intros H. apply in_map_iff in H as (y & Q & Hy). destruct (BD x (or_introl eq_refl)) as (B1 & B2), (BD y (or_intror Hy)) as (B3 & B4). apply (TO y x) in Q; auto. intros ->. auto.
    - apply IH. intros y Hy. apply BD. right. auto.
  Qed.
End Whole.
