(** * Lemmas about boxes with fractures: the whole construction, C101 *)
From Coq Require Import List Arith ZArith Bool Reals Lra Lia Permutation Sorted.
From Verif Require Import Base BaseProof VecBase VecProof GeoModel GeoSpec GeoProof GeoProof2 PolyModel PolySpec PolyProof3 LineModel LineSpec LineProof LineProof2 LineProof3 ShapeModel ShapeSpec ShapeProof DomProof BoxProof VertexModel VertexSpec DiffProof DomainModel DomainSpec DomainProof DomainProof2 DomainProof3 MdBoxModel MdBoxSpec MdBoxProof MdBoxProof2 MdBoxProof3 MdBoxProof4.
Import ListNotations.
Local Open Scope nat_scope.

Lemma in_steps (p : list vertex) s : In s (steps p) -> In (fst s) p /\ In (snd s) p.
Proof. unfold steps. intros I. destruct s as [x y]. split; [apply in_combine_l in I; exact I|]. apply in_combine_r in I. destruct p; [destruct I|right; exact I]. Qed.
Lemma Forall2_nth {A B} (P : A -> B -> Prop) l l' : Forall2 P l l' -> forall i x, nth_error l i = Some x -> exists y, nth_error l' i = Some y /\ P x y.
Proof. induction 1 as [|a b l l' H F IH]; intros [|i] x E; try discriminate; [injection E as <-; exists b; auto|]. exact (IH i x E). Qed.
Lemma Forall2_app_front {A B} (P : A -> B -> Prop) l1 l2 l' : Forall2 P (l1 ++ l2) l' -> exists m1 m2, l' = m1 ++ m2 /\ Forall2 P l1 m1 /\ Forall2 P l2 m2.
Proof. intros F. apply Forall2_app_inv_l in F as (m1 & m2 & F1 & F2 & ->). eauto. Qed.

Lemma segment_ends a b : on_segment a b a /\ on_segment a b b.
Proof. split; [exists 0%R|exists 1%R]; (split; [lra|]); unfold between; vring. Qed.

Section Pieces.
  Variables tol scale : R.
  Variable box : list vec.
  Variable lines : list segment.
  Variable bc : nat -> option Z.
  Variables line internal point : option Z.
  Hypothesis T0 : (0 <= tol <= 1 / 100000000)%R.
  Hypothesis S0 : (0 < scale)%R.
  Hypothesis CN : clear_network box lines tol scale.
  Notation n := (length box).
  Hypothesis big : 2 <= n.
  Variables B C : list vertex.
  Hypothesis MV : meeting_vertices box lines bc point B C.
  Notation T := (B ++ C).
  Notation E := (network_edges box lines bc line internal T).
  Notation spec := (special box lines).

  Lemma end_point_eq v w : spec (v_point v) -> end_of tol T v w -> v_point w = v_point v.
  Proof.
    intros Sv [[I A]|[-> _]]; [|reflexivity]. symmetry. apply (at_eq tol scale box lines T0 CN) in A; [exact A|exact Sv|].
    apply (tool_special box lines bc point B C MV). exact I.
  Qed.
  Lemma touched_or a b : (forall t, In t T -> ~ touches tol tol a b t) \/ exists t, In t T /\ touches tol tol a b t.
  Proof.
    destruct (Exists_dec (touches tol tol a b) T) as [H|H].
    - intros t. unfold touches. destruct (point_line_intersection tol (v_point t) (v_point a) (v_point b) tol) as [q|]; [left; exists q; reflexivity|right; intros (q & H); discriminate].
    - right. apply Exists_exists in H. exact H.
    - left. intros t I Th. apply H. apply Exists_exists. exists t. auto.
  Qed.
  (** the edges in place of [e] run along it *)
  Lemma piece_facts e es a b : In e E -> e_ends e = [a; b] -> refines tol tol T e es ->
    es <> [] /\ forall e', In e' es -> e_phys e' = e_phys e /\ exists x y, Permutation (e_ends e') [x; y] /\ on_segment (v_point a) (v_point b) (v_point x) /\ on_segment (v_point a) (v_point b) (v_point y).
  Proof.
    intros I He Rf. destruct (edge_ends tol scale box lines bc line internal CN big B C e I) as (a' & b' & E' & N & _ & _ & _ & Sa & Sb & Nab & Iab & _). rewrite He in E'. injection E' as <- <-.
    destruct (Rf a b He) as [R1 R2]. destruct (segment_ends (v_point a) (v_point b)) as [Oa Ob]. destruct (touched_or a b) as [U|U].
    - destruct (R1 U) as (e' & -> & J). split; [discriminate|]. intros x [<-|[]]. destruct J as (_ & Ph & P & _). split; [exact Ph|]. exists a, b. auto.
    - destruct (R2 U) as (start & mid & finish & (Es & Ef & _ & Hm & _) & F). split.
      + intros ->. destruct mid; cbn in F; inversion F.
      + intros e' Ie'. destruct (Forall2_front _ _ _ _ F Ie') as (s & Is & Ph & P & _). split; [exact Ph|]. exists (fst s), (snd s). split; [exact P|].
        assert (K : forall w, In w (start :: mid ++ [finish]) -> on_segment (v_point a) (v_point b) (v_point w)).
        { intros w [<-|Iw]; [rewrite (end_point_eq a start Sa Es); exact Oa|]. apply in_app_or in Iw as [Iw|[<-|[]]]; [|rewrite (end_point_eq b finish Sb Ef); exact Ob].
          apply Hm in Iw as (It & Th & _). apply (touch_on tol scale box lines T0 CN) in Th; [exact Th|exact Iab|]. apply (tool_special box lines bc point B C MV). exact It. }
        apply in_steps in Is as [I1 I2]. auto.
  Qed.
  Lemma two_ended_pieces ess : Forall2 (refines tol tol T) E ess -> forall e', In e' (concat ess) -> two_ended e'.
  Proof.
    intros F e' I. apply in_concat in I as (es & Ies & I). destruct (Forall2_back _ _ _ _ F Ies) as (e & Ie & Rf).
    destruct (edge_ends tol scale box lines bc line internal CN big B C e Ie) as (a & b & He & _). destruct (piece_facts e es a b Ie He Rf) as [_ G]. destruct (G e' I) as (_ & x & y & P & _).
    apply Permutation_sym, Permutation_length_2_inv in P as [Q|Q]; eexists _, _; exact Q.
  Qed.
  Lemma middle_on e' x y a b : Permutation (e_ends e') [x; y] -> on_segment a b (v_point x) -> on_segment a b (v_point y) -> on_segment a b (midpoint e').
  Proof. intros P Ox Oy. rewrite (midpoint_perm e' x y P). apply (segment_nest a b (v_point x) (v_point y)); auto. exists (1 / 2)%R. split; [lra|reflexivity]. Qed.

  (** an uncut side keeps its ends *)
  Lemma current_side md i : (forall e', In e' (d_edges md) -> (next_tag box lines T <= e_tag e')%Z \/ exists e a b, In e E /\ e_ends e = [a; b] /\ (forall t, In t T -> ~ touches tol tol a b t) /\ joins e' e a b) ->
    i < n -> two_points (current md (side_edge box bc i)) = Ok (side_line box i).
  Proof.
    intros H L. unfold current. destruct (find _ _) as [e'|] eqn:F; [|reflexivity]. apply find_some in F as [I Q]. apply Z.eqb_eq in Q. cbn [side_edge e_tag] in Q.
    destruct (H e' I) as [Hn|(e & a & b & Ie & He & _ & J)].
    - unfold next_tag, first_tag in Hn. lia.
    - assert (e = side_edge box bc i).
      { apply (key_inj e_tag E (edge_tags box lines bc line internal big B C)); [exact Ie| |destruct J as (J & _); cbn [side_edge e_tag]; lia]. unfold network_edges. apply in_or_app. left. apply in_map. apply in_seq. lia. }
      subst e. cbn [side_edge e_ends] in He. injection He as <- <-. destruct (side_bounds box big i L) as (H1 & H2 & H3).
      apply joins_two in J; [|cbn [corner_at v_tag]; lia]. unfold two_points. rewrite J. cbn [corner_at v_tag].
      replace (Z.of_nat (side_from box i) <? Z.of_nat (side_to box i))%Z with true; [reflexivity|]. symmetry. apply Z.ltb_lt. unfold side_from, side_to in *. destruct (S i =? n); lia.
  Qed.
End Pieces.

Section Whole.
  Variable lstsq : vec -> vec -> vec -> R * R.
  Variable argsort_R : list R -> list nat.
  Variable argsort : list Z -> list nat.
  Variable delaunay : list (R * R) -> res (list (nat * nat * nat)).
  Variable hash : nat -> Z -> Z.
  Variables tol scale : R.
  Hypothesis Hsort : is_argsort argsort.
  Hypothesis HsortR : is_argsort_R argsort_R.
  Hypothesis Ls : solves lstsq.
  Hypothesis T0 : (0 <= tol <= 1 / 100000000)%R.
  Hypothesis S0 : (0 < scale)%R.
  Variable fuel : nat.
  Hypothesis Hfuel : 4 <= fuel.
  Variables (nrm : vec) (box : list vec) (lines : list segment) (bc : nat -> option Z).
  Variables area line internal point : Z.
  Hypothesis Hbox : convex_polygon nrm box.
  Hypothesis Hq : convex_q box = Ok true.
  Hypothesis CN : clear_network box lines tol scale.
  Notation n := (length box).

  Lemma big_box : 2 <= n. Proof. destruct Hbox as [H _]. lia. Qed.
  Definition inside_of (p : vec) : bool := match point_polygon_intersection delaunay tol p box tol with Ok (Some _) => true | _ => false end.
  Lemma inside_ok p : point_polygon_intersection delaunay tol p box tol = Ok (if inside_of p then Some p else None).
  Proof. unfold inside_of. destruct (point_answer delaunay tol tol nrm box p Hbox Hq) as (b & E & _). rewrite E. destruct b; reflexivity. Qed.
  Lemma inside_in p : in_polygon nrm box p -> inside_of p = true.
  Proof. intros I. unfold inside_of. rewrite (found_lemma delaunay tol tol (proj1 T0) nrm box p Hbox Hq I). reflexivity. Qed.
  Lemma corner_in i : i < n -> in_polygon nrm box (nth i box vzero).
  Proof.
    intros H. destruct Hbox as (L & (_ & Pl) & Cv). assert (C0 : corner box i = nth i box vzero) by (unfold corner; rewrite Nat.mod_small by exact H; reflexivity). rewrite <- C0. split.
    - apply Pl; unfold corner; apply nth_In, Nat.mod_upper_bound; lia.
    - intros j Lj. destruct (Nat.eq_dec i j) as [->|N]; [unfold side; right; symmetry; unfold cross, dot, vsub; cbn [vx vy vz]; ring|].
      destruct (Nat.eq_dec i ((j + 1) mod n)) as [->|N']; [|left; apply Cv; auto].
      right. symmetry. replace (corner box ((j + 1) mod n)) with (corner box (j + 1)) by (unfold corner; rewrite Nat.mod_mod by lia; reflexivity).
      unfold side, cross, dot, vsub; cbn [vx vy vz]; ring.
  Qed.
  Lemma side_inside i p : i < n -> on_segment (fst (side_line box i)) (snd (side_line box i)) p -> inside_of p = true.
  Proof.
    intros L O. apply inside_in. destruct (side_bounds box big_box i L) as (H1 & H2 & _). apply (polygon_convex nrm box _ _ p (corner_in _ H1) (corner_in _ H2) O).
  Qed.

  Notation create := (create_md_box_2D lstsq argsort_R argsort delaunay hash tol scale fuel box (Some area) bc (Some lines) (Some line, Some internal, Some point)).
  Notation edges T := (network_edges box lines bc (Some line) (Some internal) T).
  Notation tag T := (next_tag box lines T).

  Lemma network_lemma : exists B C, meeting_vertices box lines bc (Some point) B C /\
    let T := B ++ C in let N := Z.to_nat (tag T) + (n + length lines) * (3 * length T + 1) in
    no_collision hash 0 (tags_from 0 N) -> no_collision hash 1 (tags_from 0 N) ->
    exists D wire o parts md (inside : vec -> bool), create = Ok (D, (wire, o)) /\ orient_immersed_edges allclose_default fuel wire = Ok o /\
      (exists ess, d_edges md = concat ess /\ Forall2 (refines tol tol T) (edges T) ess) /\ spanned md /\ NoDup (map e_tag (d_edges md)) /\
      (forall p, point_polygon_intersection delaunay tol p box tol = Ok (if inside p then Some p else None)) /\ (forall p, in_polygon nrm box p -> inside p = true) /\
      assembled box inside bc (Some area) (tag T) (d_vertices md) (d_edges md) D wire parts.
  Proof.
    destruct (vertices_there lstsq tol scale box lines bc Ls T0 S0 CN (Some point)) as (pts & ptsf & Ep & Ef & MV). cbv zeta in MV.
    set (kept := kept_vertices scale (raw_vertices tol (map (side_edge box bc) (seq 0 n)) (side_lines box) pts)) in MV. set (B := numbered (Z.of_nat n + 1) kept) in MV.
    set (C := numbered (Z.of_nat n + 1 + Z.of_nat (length kept)) (map (fun p => (Some point, p)) ptsf)) in MV. exists B, C. split; [exact MV|]. intros T N NC0 NC1.
    assert (big := big_box). destruct (box_2D_gen allclose_default argsort Hsort box (Some area) bc vzero big fuel default_refl Hfuel) as (o0 & g & ER & _).
    pose proof (clean tol scale box lines bc (Some line) (Some internal) (Some point) T0 CN big B C MV) as CC.
    pose proof (rounded_idx_all scale (map v_point T) (tool_rows tol scale box lines bc (Some point) T0 S0 CN B C MV)) as Hu. rewrite map_length in Hu.
    assert (LE : length (edges T) = n + length lines).
    { unfold network_edges, fractures. rewrite app_length, !map_length, combine_length, !seq_length. lia. }
    assert (V0 : forall z, In z (map v_tag (flat_map e_ends (edges T) ++ T)) -> (0 <= z < tag T)%Z).
    { intros z I. apply in_map_iff in I as (v & <- & I). apply in_app_or in I as [I|I].
      - apply in_flat_map in I as (e & Ie & Iv). destruct (edge_ends tol scale box lines bc (Some line) (Some internal) CN big B C e Ie) as (a & b & He & _ & La & Lb & _ & _ & _ & _ & _ & Pa & Pb & _).
        rewrite He in Iv. destruct Iv as [<-|[<-|[]]]; auto.
      - apply (tool_tag box lines bc (Some point) big B C MV) in I. unfold next_tag. unfold first_tag in *. fold T in I. lia. }
    assert (HE0 : no_collision hash 0 (map v_tag (flat_map e_ends (edges T) ++ T) ++ tags_from (tag T) (length (edges T) * (3 * length T + 1)))).
    { assert (G : forall z, In z (map v_tag (flat_map e_ends (edges T) ++ T) ++ tags_from (tag T) (length (edges T) * (3 * length T + 1))) -> In z (tags_from 0 N)).
      { intros z I. apply tags_In. unfold N. apply in_app_or in I as [I|I]; [apply V0 in I; lia|]. apply tags_In in I. rewrite LE in I.
        assert (0 <= tag T)%Z by (unfold next_tag, first_tag; lia). lia. }
      intros s t Is It. apply NC0; apply G; assumption. }
    assert (HE1 : no_collision hash 1 (map e_tag (edges T) ++ tags_from (tag T) (length (edges T) * (3 * length T + 1)))).
    { assert (G : forall z, In z (map e_tag (edges T) ++ tags_from (tag T) (length (edges T) * (3 * length T + 1))) -> In z (tags_from 0 N)).
      { intros z I. apply tags_In. unfold N. assert (0 <= tag T)%Z by (unfold next_tag, first_tag; lia). apply in_app_or in I as [I|I].
        - apply in_map_iff in I as (e & <- & Ie). destruct (edge_ends tol scale box lines bc (Some line) (Some internal) CN big B C e Ie) as (a & b & _ & _ & _ & _ & Le & _ & _ & _ & _ & _ & _ & Pe). fold T in Le. lia.
        - apply tags_In in I. rewrite LE in I. lia. }
      intros s t Is It. apply NC1; apply G; assumption. }
    destruct (fracture_edges_ok argsort Hsort internal line (Z.of_nat n + 1 + Z.of_nat (length T)) lines) as (fv & EF).
    set (V1 := map (corner_at box) (seq 0 n) ++ T ++ fv).
    destruct (composite_ok tol tol (rounded_idx scale) argsort_R argsort Hsort HsortR (proj1 T0) (edges T) T (tag T) CC Hu hash V1 [] ltac:(intros e1 []) HE0 HE1) as (Dd & md & ED & EU & (ess & Qess & Fess) & Sp & Nt & New).
    assert (Two : forall e, In e (d_edges md) -> two_ended e).
    { rewrite Qess. apply (two_ended_pieces tol scale box lines bc (Some line) (Some internal) (Some point) T0 CN big B C MV ess Fess). }
    set (vs := filter (fun v => inside_of (v_point v)) (d_vertices md)). set (es := filter (fun e => inside_of (midpoint e)) (d_edges md)).
    (* the sides *)
    assert (Sd : exists parts, mapM (side_edges argsort_R md es) (map (side_edge box bc) (seq 0 n)) = Ok parts /\
      Forall2 (fun i part => part <> [] /\ Permutation part (filter (fun e => eqb (e_phys e) (bc i)) es) /\ by_distance (fst (side_line box i)) (map midpoint part)) (seq 0 n) parts).
    { assert (G : forall l, (forall i, In i l -> i < n) -> exists parts, mapM (side_edges argsort_R md es) (map (side_edge box bc) l) = Ok parts /\
        Forall2 (fun i part => part <> [] /\ Permutation part (filter (fun e => eqb (e_phys e) (bc i)) es) /\ by_distance (fst (side_line box i)) (map midpoint part)) l parts).
      { induction l as [|i l IH]; intros Hl; [exists []; split; [reflexivity|constructor]|]. destruct IH as (parts & Em & Fm); [intros j J; apply Hl; right; exact J|].
        assert (Li : i < n) by (apply Hl; left; reflexivity).
        assert (Ie : In (side_edge box bc i) (edges T)) by (apply in_or_app; left; apply in_map, in_seq; lia).
        destruct (Forall2_front _ _ _ _ Fess Ie) as (es' & Ies & Rf).
        destruct (piece_facts tol scale box lines bc (Some line) (Some internal) (Some point) T0 CN big B C MV (side_edge box bc i) es' _ _ Ie eq_refl Rf) as [Ne G].
        assert (Hne : filter (fun e => eqb (e_phys e) (bc i)) es <> []).
        { destruct es' as [|e' es']; [congruence|]. destruct (G e' (or_introl eq_refl)) as (Ph & x & y & P & Ox & Oy). intros Q. assert (K : In e' (filter (fun e => eqb (e_phys e) (bc i)) es)); [|rewrite Q in K; destruct K].
          apply filter_In. split; [|rewrite Ph; apply eqb_refl]. apply filter_In. split; [rewrite Qess; apply in_concat; eexists; split; [exact Ies|left; reflexivity]|].
          apply (side_inside i); [exact Li|]. exact (middle_on e' x y _ _ P Ox Oy). }
        cbn [map mapM]. rewrite Em. unfold side_edges. rewrite (current_side tol box lines bc (Some line) (Some internal) big B C md i New Li). cbn [bind side_edge e_phys].
        set (fl := filter (fun e => eqb (e_phys e) (bc i)) es) in *. destruct (pick_by argsort_R (fun e => norm (vsub (midpoint e) (fst (side_line box i)))) fl HsortR) as (part & Epk & Pp & Sp').
        assert (Epk' : mapM (get_at fl) (points_line_argsort argsort_R (map midpoint fl) (fst (side_line box i)) (snd (side_line box i))) = Ok part).
        { unfold points_line_argsort. rewrite map_map. exact Epk. }
        exists (part :: parts). split.
        - destruct fl as [|e1 fl']; [congruence|]. rewrite Epk'. reflexivity.
        - constructor; [|exact Fm]. split; [intros ->; apply Permutation_nil in Pp; congruence|]. split; [exact Pp|]. clear - Sp'. unfold by_distance.
          induction part as [|x part IH]; [constructor|]. apply StronglySorted_inv in Sp' as [Sa Fa]. cbn [map]. constructor; [apply IH; exact Sa|].
          rewrite Forall_forall in *. intros p I. apply in_map_iff in I as (y & <- & I). apply Fa. exact I. }
      apply G. intros i I. apply in_seq in I. lia. }
    destruct Sd as (parts & Em & Fm).
    assert (Tp : Forall two_ended (concat parts)).
    { apply Forall_forall. intros e I. apply in_concat in I as (part & Ip & I). destruct (Forall2_back _ _ _ _ Fm Ip) as (i & _ & _ & P & _). apply (Permutation_in _ P) in I.
      apply filter_In in I as [I _]. apply filter_In in I as [I _]. apply Two. exact I. }
    assert (Hd : exists e0 v, get_at (concat parts) 0 = Ok e0 /\ hd_error (concat parts) = Some e0 /\ get_at (e_ends e0) 0 = Ok v /\ hd_error (e_ends e0) = Some v).
    { destruct parts as [|part parts]; [inversion Fm as [Q|]; destruct box; [simpl in big; lia|discriminate]|]. inversion Fm as [|? ? ? ? (Hn & _) _]; subst. destruct part as [|e0 part]; [congruence|].
      cbn [concat app] in Tp. destruct (Forall_inv Tp) as (a & b & He). exists e0, a. cbn. rewrite He. auto. }
    destruct Hd as (e0 & v & G0 & H0 & G1 & H1). destruct fuel as [|fuel']; [lia|].
    destruct (wire_total argsort Hsort fuel' (tag T) (concat parts) e0 v Tp H0 H1) as (o & EW & EO).
    set (wire := mk_shape Wire (tag T) None None [shape_of_vertex v] (map shape_of_edge (concat parts))) in *.
    set (face := mk_shape Face (tag T + 1) (Some area) None [wire] (map shape_of_edge es)).
    exists [map shape_of_vertex vs; map shape_of_edge es ++ [wire]; [face]], wire, o, parts, md, inside_of. split; [|split; [exact EO|]; split; [exists ess; auto|]; split; [exact Sp|]; split; [exact Nt|]; split; [exact inside_ok|]; split; [exact inside_in|]].
    - unfold create_md_box_2D. rewrite ER. cbn [bind get_at nth_error]. rewrite (rock_vertices_ok box). cbn [bind]. rewrite (rock_edges_ok box bc). cbn [bind]. rewrite (rock_lines_ok box bc). cbn [bind].
      rewrite Ep. cbn [bind]. rewrite Ef. cbn [bind]. rewrite (rock_max box bc) by exact big. cbn [bind].
      rewrite (mapM_Ok_map _ (fun p => (Some point, p))) by reflexivity. cbn [bind]. fold kept. fold B. fold C.
      change (B ++ C) with T. rewrite EF. cbn [bind].
      assert (ET : create_domain1 hash T [] = mk_domain T []).
      { unfold create_domain1. f_equal. apply last_by_id. rewrite <- (map_map v_tag (hash 0)).
        assert (NT : NoDup (map v_tag T)) by (unfold T; rewrite (mv_tags _ _ _ _ _ _ MV); apply NoDup_tags).
        assert (Inj : forall s t, In s (map v_tag T) -> In t (map v_tag T) -> hash 0 s = hash 0 t -> s = t) by (intros s t Is It; apply HE0; rewrite map_app, <- app_assoc; apply in_or_app; right; apply in_or_app; left; assumption).
        clear - NT Inj. induction (map v_tag T) as [|z l IH]; [constructor|]. apply NoDup_cons_iff in NT as [Nz NT]. cbn [map]. constructor.
        - intros I. apply in_map_iff in I as (y & Q & I). apply Nz. rewrite (Inj z y); [exact I|left; reflexivity|right; exact I|auto].
        - apply IH; [exact NT|]. intros s t Is It. apply Inj; right; assumption. }
      rewrite ET. fold V1. change (Z.of_nat n + 1 + Z.of_nat (length T) + 3 * Z.of_nat (length lines))%Z with (tag T).
      change (map (side_edge box bc) (seq 0 n) ++ fractures (Some line) (Some internal) (Z.of_nat n + 1 + Z.of_nat (length T)) lines) with (edges T).
      rewrite ED. cbn [bind]. rewrite EU. cbn [bind].
      rewrite (points_lemma delaunay tol tol inside_of) by (intros p _; apply inside_ok). cbn [bind].
      rewrite (points_lemma delaunay tol tol inside_of) by (intros p _; apply inside_ok). cbn [bind snd].
      rewrite !map_map, !mask_map. fold vs es. rewrite Em. cbn [bind]. rewrite G0. cbn [bind]. rewrite G1. cbn [bind]. rewrite EW. cbn [bind fst].
      unfold new_face. rewrite (one_boundary argsort Hsort) by (unfold admissible; cbn; lia). cbn [bind new_shape s_kind s_tag s_phys s_point s_embedded].
      unfold set_immersed. cbn [s_kind s_tag s_phys s_point s_boundary]. replace (forallb _ (map shape_of_edge es)) with true.
      2:{ symmetry. apply forallb_forall. intros c I. apply in_map_iff in I as (e & <- & _). reflexivity. }
      cbn [bind key set_physical s_kind s_tag s_phys s_point s_boundary s_embedded]. fold face.
      rewrite (append_ok (empty_domain 2) (map shape_of_vertex vs) 0); [|apply Forall_forall; intros c I; apply in_map_iff in I as (e & <- & _); reflexivity|simpl; lia]. cbn [bind empty_domain repeat set_at nth app].
      rewrite (append_ok _ (map shape_of_edge es) 1); [|apply Forall_forall; intros c I; apply in_map_iff in I as (e & <- & _); reflexivity|simpl; lia]. cbn [bind set_at nth app].
      rewrite (append_ok _ [wire] 1); [|repeat constructor|simpl; lia]. cbn [bind set_at nth app].
      rewrite (append_ok _ [face] 2); [|repeat constructor|simpl; lia]. cbn [bind set_at nth app]. reflexivity.
    - constructor.
      + reflexivity.
      + exists e0, v. auto.
      + split; [rewrite <- (Forall2_len _ _ _ Fm), seq_length; reflexivity|]. intros i part Hi.
        assert (Li : i < length parts) by (apply nth_error_Some; congruence). rewrite <- (Forall2_len _ _ _ Fm), seq_length in Li.
        destruct (Forall2_nth _ _ _ Fm i i) as (part' & Hi' & _ & P & Bd); [rewrite (nth_error_nth' _ 0) by (rewrite seq_length; exact Li); rewrite seq_nth by exact Li; reflexivity|].
        rewrite Hi in Hi'. injection Hi' as <-. auto.
  Qed.
End Whole.
