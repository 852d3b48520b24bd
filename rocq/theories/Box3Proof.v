(** * Lemmas about the three-dimensional box: C45 *)
From Coq Require Import List Arith ZArith Bool Lia Permutation Sorted.
From Verif Require Import Base BaseProof ShapeModel ShapeSpec ShapeProof DomProof BoxProof.
Import ListNotations.

Section Box3Proof.
  Context {P : Type}.
  Variable pclose : P -> P -> bool.
  Variable argsort : list Z -> list nat.
  Hypothesis argsort_ok : is_argsort argsort.
  Notation shape := (shape P).

  Lemma edge_low tag (a b : shape) : s_dim a = 0 -> s_dim b = 0 -> (s_tag a < s_tag b)%Z ->
    new_edge argsort tag [a; b] = Ok (mk_shape Edge tag None None [a; b] []) /\ new_edge argsort tag [b; a] = Ok (mk_shape Edge tag None None [a; b] []).
  Proof.
    intros Da Db T. assert (A : forall s : shape, s_dim s = 1 -> Forall (admissible s) [a; b] /\ Forall (admissible s) [b; a]).
    { intros s Hs. split; repeat constructor; unfold admissible; lia. }
    unfold new_edge. split.
    - rewrite boundary_id; auto; [apply A; auto|]. simpl. repeat constructor; auto.
    - rewrite boundary_swap; auto. apply A. auto.
  Qed.

  (** a wire of four edges around a square *)
  Definition around (w : shape) (l : list (shape * shape)) (o : list Z) : Prop :=
    length o = length l /\ forall i e a b, nth_error l i = Some (e, b) -> nth_error (starts w l) i = Some a -> exists s, nth_error o i = Some s /\ leads s e a b.

  Lemma wire_ok fuel tag (w v v' e : shape) l : (forall x, pclose x x = true) -> 0 < fuel ->
    walk w ((e, v') :: l) -> (s_tag w < s_tag v')%Z -> s_dim v = 0 ->
    Forall (fun x => s_kind x = Edge /\ s_embedded x = []) (e :: map fst l) ->
    let wire := mk_shape Wire tag None None [v] (e :: map fst l) in
    exists o, new_wire pclose argsort fuel tag (e :: map fst l) [v] = Ok (wire, o) /\
      around w ((e, v') :: l) o /\ wire_ends wire o = Ok (w, last (map snd ((e, v') :: l)) w).
  Proof.
    intros R Hf Hw T Dv F wire. destruct fuel as [|fuel]; [lia|]. unfold new_wire, set_immersed.
    assert (Q : forallb (fun c => memb (s_dim c) (admissible_dimensions (s_kind (new_shape Wire tag (@None P))))) (e :: map fst l) = true).
    { apply forallb_forall. intros x Hx. rewrite Forall_forall in F. destruct (F x Hx) as [K _]. unfold s_dim. rewrite K. reflexivity. }
    rewrite Q. cbn [bind]. rewrite boundary_id; auto; [|constructor; [unfold admissible; rewrite Dv; apply Nat.le_0_l|constructor]|repeat constructor]. cbn [bind s_kind s_tag s_phys s_point s_embedded new_shape].
    fold wire. assert (Im : immersed wire = map fst ((e, v') :: l)).
    { unfold wire. cbn [immersed]. cbn [map fst]. clear -F. induction (e :: map fst l) as [|x m IH]; auto. inversion F as [|? ? [K E] F']; subst. cbn [flat_map].
      rewrite IH by auto. destruct x as [k t ph p b i]. simpl in K, E. subst. reflexivity. }
    destruct (wire_lemma pclose fuel wire w e v' l R Im Hw T) as (o & Eo & Lo & Fo & _ & We). rewrite Eo. cbn [bind]. exists o. split; auto. split; auto. split; auto.
  Qed.

  Lemma F2c {A B} (R : A -> B -> Prop) x l y l' : Forall2 R (x :: l) (y :: l') -> R x y /\ Forall2 R l l'.
  Proof. intros H. inversion H; auto. Qed.

  Section Points.
    Variables (p0 p1 p2 p3 p4 p5 p6 p7 : P) (rest : list P).
    Variables (solid : option Z) (bc : nat -> option Z).
    Definition V (i : nat) : shape := new_vertex (Z.of_nat i) (nth i [p0; p1; p2; p3; p4; p5; p6; p7] p0).
    Definition E (i a b : nat) : shape := mk_shape Edge (Z.of_nat i) None None [V a; V b] [].
    Definition points := [p0; p1; p2; p3; p4; p5; p6; p7] ++ rest.
    Definition more : list shape := map (fun p => new_vertex (Z.of_nat (fst p)) (snd p)) (combine (seq 8 (length rest)) rest).
    Definition vertices : list shape := map V (seq 0 8) ++ more.
    Definition edges : list shape := [E 0 0 1; E 1 1 2; E 2 2 3; E 3 0 3; E 4 4 5; E 5 5 6; E 6 6 7; E 7 4 7; E 8 0 4; E 9 1 5; E 10 2 6; E 11 3 7].
    Definition e (i : nat) : shape := nth i edges (V 0).
    Definition W (k : nat) (es : list nat) (v : nat) : shape := mk_shape Wire (Z.of_nat (12 + k)) None None [V v] (map e es).
    Definition wires : list shape := [W 0 [0; 1; 2; 3] 0; W 1 [4; 5; 6; 7] 4; W 2 [0; 9; 4; 8] 0; W 3 [1; 10; 5; 9] 1; W 4 [2; 11; 6; 10] 2; W 5 [3; 11; 7; 8] 3].
    Definition F (k : nat) : shape := mk_shape Face (Z.of_nat (18 + k)) (bc k) None [nth k wires (V 0)] [].
    Definition faces : list shape := map F (seq 0 6).
    Definition shell : shape := mk_shape Shell 24 None None wires faces.
    Definition body : shape := mk_shape Solid 25 solid None [shell] [].

    Lemma box_vertices : map (fun p => new_vertex (Z.of_nat (fst p)) (snd p)) (combine (seq 0 (length points)) points) = vertices.
    Proof. unfold points. rewrite app_length, seq_app. cbn [length seq app plus combine map]. reflexivity. Qed.
    Lemma V_vertex i : is_vertex (V i).
    Proof. split; [reflexivity|discriminate]. Qed.
    Lemma V_at i : i < 8 -> get_at vertices i = Ok (V i).
    Proof. intros H. do 8 (destruct i as [|i]; [reflexivity|]). lia. Qed.
    Lemma edge_up tag a b : a < b -> new_edge argsort (Z.of_nat tag) [V a; V b] = Ok (E tag a b).
    Proof. intros H. apply (edge_low (Z.of_nat tag) (V a) (V b) eq_refl eq_refl). simpl. lia. Qed.
    Lemma edge_down tag a b : a < b -> new_edge argsort (Z.of_nat tag) [V b; V a] = Ok (E tag a b).
    Proof. intros H. apply (edge_low (Z.of_nat tag) (V a) (V b) eq_refl eq_refl). simpl. lia. Qed.
    Lemma box_edges_ok : mapM (fun p => let '(tag, (i, j)) := p in
                      do a <- get_at vertices i; do b <- get_at vertices j; new_edge argsort (Z.of_nat tag) [a; b])
                     (combine (seq 0 12) box_edges) = Ok edges.
    Proof.
      unfold box_edges. cbn [seq combine mapM]. rewrite !V_at by lia. cbn [bind].
      repeat (first [rewrite edge_up by lia | rewrite edge_down by lia]; cbn [bind]).
      reflexivity.
    Qed.

    Lemma box_wires_ok fuel : (forall x, pclose x x = true) -> 0 < fuel ->
      exists os, mapM (fun p => let '(k, (es, v)) := p in
                      do es <- mapM (get_at edges) es; do v <- get_at vertices v; new_wire pclose argsort fuel (Z.of_nat (12 + k)) es [v])
                     (combine (seq 0 6) box_wires) = Ok (combine wires os) /\ length os = 6 /\
        Forall2 (fun wl o => let '(w, wire, l) := wl in around w l o /\ wire_ends wire o = Ok (w, w) /\ walk w l /\ immersed wire = map fst l) [
          (V 0, nth 0 wires (V 0), [(e 0, V 1); (e 1, V 2); (e 2, V 3); (e 3, V 0)]);
          (V 4, nth 1 wires (V 0), [(e 4, V 5); (e 5, V 6); (e 6, V 7); (e 7, V 4)]);
          (V 0, nth 2 wires (V 0), [(e 0, V 1); (e 9, V 5); (e 4, V 4); (e 8, V 0)]);
          (V 1, nth 3 wires (V 0), [(e 1, V 2); (e 10, V 6); (e 5, V 5); (e 9, V 1)]);
          (V 2, nth 4 wires (V 0), [(e 2, V 3); (e 11, V 7); (e 6, V 6); (e 10, V 2)]);
          (V 0, nth 5 wires (V 0), [(e 3, V 3); (e 11, V 7); (e 7, V 4); (e 8, V 0)])] os.
    Proof.
      intros R Hf. assert (VV := V_vertex).
      assert (K0 : walk (V 0) [(e 0, V 1); (e 1, V 2); (e 2, V 3); (e 3, V 0)]).
      { unfold e. cbn [edges nth walk E s_boundary]. repeat split; try apply VV; try (intros Q; vm_compute in Q; discriminate Q); try (left; reflexivity); try (right; reflexivity). }
      destruct (wire_ok fuel (Z.of_nat (12 + 0)) (V 0) (V 0) (V 1) (e 0) [(e 1, V 2); (e 2, V 3); (e 3, V 0)] R Hf K0 eq_refl eq_refl) as (o0 & E0 & A0 & W0).
      { repeat constructor. }
      assert (K1 : walk (V 4) [(e 4, V 5); (e 5, V 6); (e 6, V 7); (e 7, V 4)]).
      { unfold e. cbn [edges nth walk E s_boundary]. repeat split; try apply VV; try (intros Q; vm_compute in Q; discriminate Q); try (left; reflexivity); try (right; reflexivity). }
      destruct (wire_ok fuel (Z.of_nat (12 + 1)) (V 4) (V 4) (V 5) (e 4) [(e 5, V 6); (e 6, V 7); (e 7, V 4)] R Hf K1 eq_refl eq_refl) as (o1 & E1 & A1 & W1).
      { repeat constructor. }
      assert (K2 : walk (V 0) [(e 0, V 1); (e 9, V 5); (e 4, V 4); (e 8, V 0)]).
      { unfold e. cbn [edges nth walk E s_boundary]. repeat split; try apply VV; try (intros Q; vm_compute in Q; discriminate Q); try (left; reflexivity); try (right; reflexivity). }
      destruct (wire_ok fuel (Z.of_nat (12 + 2)) (V 0) (V 0) (V 1) (e 0) [(e 9, V 5); (e 4, V 4); (e 8, V 0)] R Hf K2 eq_refl eq_refl) as (o2 & E2 & A2 & W2).
      { repeat constructor. }
      assert (K3 : walk (V 1) [(e 1, V 2); (e 10, V 6); (e 5, V 5); (e 9, V 1)]).
      { unfold e. cbn [edges nth walk E s_boundary]. repeat split; try apply VV; try (intros Q; vm_compute in Q; discriminate Q); try (left; reflexivity); try (right; reflexivity). }
      destruct (wire_ok fuel (Z.of_nat (12 + 3)) (V 1) (V 1) (V 2) (e 1) [(e 10, V 6); (e 5, V 5); (e 9, V 1)] R Hf K3 eq_refl eq_refl) as (o3 & E3 & A3 & W3).
      { repeat constructor. }
      assert (K4 : walk (V 2) [(e 2, V 3); (e 11, V 7); (e 6, V 6); (e 10, V 2)]).
      { unfold e. cbn [edges nth walk E s_boundary]. repeat split; try apply VV; try (intros Q; vm_compute in Q; discriminate Q); try (left; reflexivity); try (right; reflexivity). }
      destruct (wire_ok fuel (Z.of_nat (12 + 4)) (V 2) (V 2) (V 3) (e 2) [(e 11, V 7); (e 6, V 6); (e 10, V 2)] R Hf K4 eq_refl eq_refl) as (o4 & E4 & A4 & W4).
      { repeat constructor. }
      assert (K5 : walk (V 0) [(e 3, V 3); (e 11, V 7); (e 7, V 4); (e 8, V 0)]).
      { unfold e. cbn [edges nth walk E s_boundary]. repeat split; try apply VV; try (intros Q; vm_compute in Q; discriminate Q); try (left; reflexivity); try (right; reflexivity). }
      destruct (wire_ok fuel (Z.of_nat (12 + 5)) (V 0) (V 3) (V 3) (e 3) [(e 11, V 7); (e 7, V 4); (e 8, V 0)] R Hf K5 eq_refl eq_refl) as (o5 & E5 & A5 & W5).
      { repeat constructor. }
      exists [o0; o1; o2; o3; o4; o5]. split; [|split; [reflexivity|]].
      - unfold box_wires. cbn [seq combine mapM]. rewrite !V_at by lia.
        assert (G : forall i, i < 12 -> get_at edges i = Ok (e i)) by (intros i Hi; do 12 (destruct i as [|i]; [reflexivity|]); lia).
        rewrite !G by lia. cbn [bind]. cbn [map fst] in *.
        rewrite E0, E1, E2, E3, E4, E5. reflexivity.
      - repeat (apply Forall2_cons; [split; [assumption|split; [assumption|split; [assumption|reflexivity]]]|]). constructor.
    Qed.

    Lemma box_3D_gen fuel : (forall x, pclose x x = true) -> 6 <= fuel ->
      exists os g, build_box_3D pclose argsort fuel points solid bc = Ok ([vertices; edges ++ wires; faces ++ [shell]; [body]], combine wires os, g) /\
        build_graph 3 fuel [vertices; edges ++ wires; faces ++ [shell]; [body]] (Some 3) = Ok g /\
        length os = 6 /\
        forall k wire o, nth_error wires k = Some wire -> nth_error os k = Some o -> exists w l, around w l o /\ wire_ends wire o = Ok (w, w) /\ walk w l /\ immersed wire = map fst l.
    Proof.
      intros R Hf. destruct (box_wires_ok fuel R) as (os & Eo & Lo & Fo); [lia|].
      destruct (graph_lemma 3 fuel [vertices; edges ++ wires; faces ++ [shell]; [body]] 3 [body] eq_refl) as (g & Eg & _).
      { constructor; [|constructor]. vm_compute. lia. }
      exists os, g. split; [|split; [exact Eg|split; [exact Lo|]]].
      - unfold build_box_3D. rewrite box_vertices.
        rewrite (append_ok (empty_domain 3) vertices 0); [| |simpl; lia].
        2:{ unfold vertices. apply Forall_app. split; [apply Forall_forall; intros v Hv; apply in_map_iff in Hv as (i & <- & _); reflexivity|].
            apply Forall_forall. intros v Hv. apply in_map_iff in Hv as (i & <- & _). reflexivity. }
        cbn [bind empty_domain repeat set_at nth app]. rewrite box_edges_ok. cbn [bind].
        rewrite (append_ok _ edges 1); [|repeat constructor|simpl; lia]. cbn [bind set_at nth app]. rewrite Eo. cbn [bind].
        assert (Mf : map fst (combine wires os) = wires).
        { clear -Lo. do 7 (destruct os as [|? os]; try discriminate Lo). reflexivity. }
        rewrite Mf. rewrite (append_ok _ wires 1); [|repeat constructor|simpl; lia]. cbn [bind set_at nth].
        assert (Ff : mapM (fun p => do f <- new_face argsort (Z.of_nat (18 + fst p)) [fst (snd p)]; Ok (set_physical f (bc (fst p)))) (combine (seq 0 6) (combine wires os)) = Ok faces).
        { assert (Fk : forall k (w : shape), s_dim w = 1 -> new_face argsort (Z.of_nat (18 + k)) [w] = Ok (mk_shape Face (Z.of_nat (18 + k)) None None [w] [])).
          { intros k w Hw. unfold new_face. rewrite boundary_id; auto; [|repeat constructor]. constructor; [|constructor]. unfold admissible. rewrite Hw. apply le_S, le_n. }
          clear -Lo Fk. do 7 (destruct os as [|? os]; try discriminate Lo). cbn [seq combine wires mapM fst snd].
          rewrite !Fk by reflexivity. reflexivity. }
        rewrite Ff. cbn [bind]. rewrite (append_ok _ faces 2); [|repeat constructor|simpl; lia]. cbn [bind set_at nth app].
        assert (Sh : new_shell argsort 24 faces wires = Ok shell).
        { unfold new_shell, set_immersed. 
          change (forallb (fun c => memb (s_dim c) (admissible_dimensions (s_kind (new_shape Shell 24 (@None P))))) faces) with true. cbv iota. cbn [bind].
          rewrite boundary_id; auto; [apply Forall_forall; intros w Hw; unfold admissible; simpl in Hw; repeat (destruct Hw as [<-|Hw]; [vm_compute; lia|]); destruct Hw|].
          repeat constructor. }
        rewrite Sh. cbn [bind]. rewrite (append_ok _ [shell] 2); [|repeat constructor|simpl; lia]. cbn [bind set_at nth].
        unfold new_solid. rewrite boundary_id; auto; [|constructor; [vm_compute; lia|constructor]|repeat constructor]. cbn [bind s_kind s_tag s_phys s_point s_embedded new_shape].
        change (set_physical (mk_shape Solid 25 None None [shell] []) solid) with body.
        rewrite (append_ok _ [body] 3); [|repeat constructor|simpl; lia]. cbn [bind set_at nth app].
        change (build_graph 3 fuel [vertices; edges ++ wires; faces ++ [shell]; [body]] None) with (build_graph 3 fuel [vertices; edges ++ wires; faces ++ [shell]; [body]] (Some 3)).
        rewrite Eg. reflexivity.
      - intros k wire o Nw No. do 7 (destruct os as [|? os]; try discriminate Lo).
        apply F2c in Fo as [H0 Fo]. apply F2c in Fo as [H1 Fo]. apply F2c in Fo as [H2 Fo].
        apply F2c in Fo as [H3 Fo]. apply F2c in Fo as [H4 Fo]. apply F2c in Fo as [H5 _].
        destruct k as [|[|[|[|[|[|k]]]]]]; simpl in Nw, No; try (destruct k; discriminate); injection Nw as <-; injection No as <-; do 2 eexists.
        + exact H0.
        + exact H1.
        + exact H2.
        + exact H3.
        + exact H4.
        + exact H5.
    Qed.
  End Points.

  Lemma box_3D_lemma fuel points solid bc : 8 <= length points -> (forall x, pclose x x = true) -> 6 <= fuel ->
    exists vertices edges wires faces shell body os g,
      build_box_3D pclose argsort fuel points solid bc = Ok ([vertices; edges ++ wires; faces ++ [shell]; [body]], combine wires os, g) /\
      (Forall is_vertex vertices /\ map s_point vertices = map Some points /\ map s_tag vertices = map Z.of_nat (seq 0 (length points))) /\
      (map s_kind edges = repeat Edge 12 /\ map s_kind wires = repeat Wire 6 /\ map s_kind faces = repeat Face 6 /\ s_kind shell = Shell /\ s_kind body = Solid) /\
      map s_tag (edges ++ wires ++ faces ++ [shell; body]) = map Z.of_nat (seq 0 26) /\
      map s_phys faces = map bc (seq 0 6) /\ s_phys body = solid /\
      map s_boundary faces = map (fun w => [w]) wires /\ s_boundary shell = wires /\ immersed shell = faces /\ s_boundary body = [shell] /\
      (length os = 6 /\ forall k wire o, nth_error wires k = Some wire -> nth_error os k = Some o ->
         exists w l, walk w l /\ length l = 4 /\ immersed wire = map fst l /\ (forall e, In e (immersed wire) -> In e edges) /\
           wire_ends wire o = Ok (w, w) /\ length o = 4 /\
           forall i e a b, nth_error l i = Some (e, b) -> nth_error (starts w l) i = Some a -> exists s, nth_error o i = Some s /\ leads s e a b) /\
      (forall e, In e edges -> count_occ Z.eq_dec (flat_map (fun w => map s_tag (immersed w)) wires) (s_tag e) = 2) /\
      (forall i, i < 8 -> count_occ Z.eq_dec (flat_map (fun e => map s_tag (s_boundary e)) edges) (Z.of_nat i) = 3).
  Proof.
    intros L R Hf. do 8 (destruct points as [|? points]; [simpl in L; lia|]). rename points into rest.
    destruct (box_3D_gen p p0 p1 p2 p3 p4 p5 p6 rest solid bc fuel R Hf) as (os & g & E & _ & Lo & Fo).
    do 8 eexists. split; [exact E|]. split; [|split; [|split; [|split; [|split; [|split; [|split; [|split; [|split; [|split; [|split]]]]]]]]]].
    - unfold vertices, more. split; [|split].
      + apply Forall_app. split; apply Forall_forall; intros v Hv; apply in_map_iff in Hv as (i & <- & _); (split; [reflexivity|discriminate]).
      + rewrite map_app. rewrite !map_map. cbn [seq map app]. do 8 (apply f_equal2; [reflexivity|]). clear.
        cut (forall k, map (fun x : nat * P => s_point (new_vertex (Z.of_nat (fst x)) (snd x))) (combine (seq k (length rest)) rest) = map Some rest); [intros G; apply G|].
        induction rest as [|x l IH]; intros k; simpl; auto. f_equal. apply IH.
      + rewrite map_app. rewrite !map_map. cbn [length seq map app]. do 8 (apply f_equal2; [reflexivity|]). clear.
        cut (forall k, map (fun x : nat * P => s_tag (new_vertex (Z.of_nat (fst x)) (snd x))) (combine (seq k (length rest)) rest) = map Z.of_nat (seq k (length rest))); [intros G; apply G|].
        induction rest as [|x l IH]; intros k; simpl; auto. f_equal. apply IH.
    - repeat split.
    - reflexivity.
    - reflexivity.
    - reflexivity.
    - reflexivity.
    - reflexivity.
    - reflexivity.
    - reflexivity.
    - split; auto. intros k wire o Nw No. destruct (Fo k wire o Nw No) as (w & l & [A1 A2] & We & Wk & Im). exists w, l.
      assert (I4 : length (immersed wire) = 4 /\ forall e, In e (immersed wire) -> In e (edges p p0 p1 p2 p3 p4 p5 p6)).
      { clear -Nw. destruct k as [|[|[|[|[|[|k]]]]]]; simpl in Nw; try (destruct k; discriminate); injection Nw as <-; (split; [reflexivity|]);
        intros e He; unfold edges; simpl in He |- *; tauto. }
      assert (L4 : length l = 4) by (destruct I4 as [I4 _]; rewrite Im, map_length in I4; auto).
      split; auto. split; auto. split; auto. split; [apply I4|]. split; auto. split; [congruence|]. exact A2.
    - intros e He. simpl in He. repeat (destruct He as [<-|He]; [reflexivity|]). destruct He.
    - intros i Hi. destruct i as [|[|[|[|[|[|[|[|i]]]]]]]]; try reflexivity. lia.
  Qed.
End Box3Proof.
