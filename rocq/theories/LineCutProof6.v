(** * Lemmas: cutting along lines, C36 (one line) *)
From Coq Require Import List Arith ZArith Bool Lia Sorted Permutation.
From Verif Require Import Base BaseProof MeshModel MeshSpec GraphModel GraphProof CutModel CutSpec CutProof CutProof2
  LineCutModel LineCutSpec LineCutProof LineCutProof2 LineCutProof3 LineCutProof4 LineCutProof5.
Import ListNotations.

Ltac same_cell a b := assert (a = b) by (unfold cell_at in *; congruence); subst a.

Section One.
  Variable P : Type.
  Notation fit := (fit P).

  Definition expected (e : err) : Prop := e = IndexError \/ e = ValueError \/ e = NetworkXError.
  Definition sgn (q : bool) : comparison := if q then Gt else Lt.

  (** The six updates: [tri q], [edg q] are the triangles and the edges of a side. *)
  Lemma updates fuel t ln (m m2 : mesh P) F V T N tri :
    line_ready P t m -> increasing_list F (line_edge P t m ln) -> increasing_list V (line_vertex P t m ln) -> F <> [] -> V <> [] ->
    Forall2 (fun v t => exists c, cell_at (m_cells P m) v c /\ c_nodes c = [t]) V T ->
    Forall2 (fun t x => nth_error (m_points P m) t = Some x) T N ->
    state P m F V T (m_points P m2) (m_cells P m2) ->
    m_points P m2 = m_points P m ++ map (l_bump P ln true) N ++ map (l_bump P ln false) N ->
    length (m_cells P m2) = length (m_cells P m) + 2 * (length F + length V) ->
    (forall i, i < length (m_cells P m) -> nth_error (m_cells P m2) i = nth_error (m_cells P m) i) ->
    (forall (q : bool) k e c, nth_error F k = Some e -> cell_at (m_cells P m) e c ->
      let i := edge_base P m F V q + k in
      cell_at (m_cells P m2) i (mk_cell 1 i (c_nodes c) (copy_tag t (c_mat c)) [nth 0 (c_sub c) []; [i]])) ->
    (forall (q : bool) k v c, nth_error V k = Some v -> cell_at (m_cells P m) v c ->
      let i := vertex_base P m F V q + k in
      cell_at (m_cells P m2) i (mk_cell 0 i [node_base P m V q + k] (copy_tag t (c_mat c)) [[i]])) ->
    (forall q i, In i (tri q) <-> exists c, cell_at (m_cells P m) i c /\ c_dim c = 2 /\ lists_one V c /\ side_of P m ln c (sgn q)) ->
    (forall cs, (forall v c, cell_at (m_cells P m) v c -> c_dim c = 0 -> cell_at cs v c) ->
       exists r, neighbours cs (from_edgelist (flat_map (edges_of 0) (filter (fun c => c_dim c =? 1) (flat_map (fun o => match o with Some c => [c] | None => [] end) (m_cells P m))))) V = Ok r /\
         increasing_list r (above (m_cells P m) 1 V) /\ r <> []) ->
    let g := from_edgelist (flat_map (edges_of 0) (filter (fun c => c_dim c =? 1) (flat_map (fun o => match o with Some c => [c] | None => [] end) (m_cells P m)))) in
    let eb := fun q => combine F (seq (edge_base P m F V q) (length F)) in
    let vb := fun q => combine V (seq (vertex_base P m F V q) (length V)) in
    let run :=
      do cs3 <- update_cells_with_cell_pairs (S fuel) (m_cells P m2) (tri true) [[]; eb true; vb true];
      do cs4 <- update_cells_with_cell_pairs (S fuel) cs3 (tri false) [[]; eb false; vb false];
      do cs5 <- update_cells_with_cell_pairs (S fuel) cs4 (seq (edge_base P m F V true) (length F)) [[]; vb true];
      do cs6 <- update_cells_with_cell_pairs (S fuel) cs5 (seq (edge_base P m F V false) (length F)) [[]; vb false];
      do e1 <- neighbours cs6 g V;
      do (pe, ne) <- classify_line P (mk_mesh P cs6 (m_points P m2)) ln e1;
      do cs7 <- update_cells_with_cell_pairs (S fuel) cs6 pe [[]; vb true];
      update_cells_with_cell_pairs (S fuel) cs7 ne [[]; vb false] in
    (exists cs8, run = Ok cs8 /\ line_effect P t ln m (mk_mesh P cs8 (m_points P m2)) F V T N /\
       fit (mk_mesh P cs8 (m_points P m2)) /\ line_cuttable P t m ln) \/
    (exists e, run = Err e /\ expected e /\ ~ line_cuttable P t m ln).
  Proof.
    intros LR IF IV NF NV HT HN ST PT LEN OLD EE VV HTRI NB g eb vb.
    pose proof LR as (CR & NR & TG). pose proof CR as (LM & AL & RG).
    set (n := length (m_cells P m)) in *.
    assert (HF : forall e, In e F -> exists c, cell_at (m_cells P m) e c /\ c_dim c = 1).
    { intros e He. apply (line_edge_cell P t m ln); auto. apply IF; auto. }
    assert (HV : forall v, In v V -> exists c, cell_at (m_cells P m) v c /\ c_dim c = 0).
    { intros v Hv. apply IV in Hv as (e & c & cv & He & Hc & Hv & Hcv & _). destruct (line_edge_cell P t m ln e LR He) as (c' & Hc' & D).
      same_cell c' c. destruct LM as [_ LM]. destruct (LM e c Hc) as (_ & _ & _ & S). destruct (S 0 v) as (x & Hx & Dx); [lia|auto|]. eauto. }
    assert (SUB : forall i c d j, cell_at (m_cells P m) i c -> d < c_dim c -> In j (nth d (c_sub c) []) -> j < n).
    { intros i c d j Hc Hd Hj. destruct LM as [_ LM]. destruct (LM i c Hc) as (_ & _ & _ & S). destruct (S d j Hd Hj) as (x & Hx & _). eapply cell_at_lt; eauto. }
    assert (UP : forall i c, cell_at (m_cells P m) i c -> cell_at (m_cells P m2) i c).
    { intros i c Hc. unfold cell_at. rewrite OLD; auto. eapply cell_at_lt; eauto. }
    assert (PTS : forall c pts, has_points P m c pts -> forall cs, has_points P (mk_mesh P cs (m_points P m2)) c pts).
    { intros c pts Hp cs. unfold has_points in *. cbn [m_points]. rewrite PT. eapply Forall2_impl; [|exact Hp]. intros a b E. cbv beta in *.
      rewrite nth_error_app1; auto. apply nth_error_Some. congruence. }
    set (ce := fun q => seq (edge_base P m F V q) (length F)).
    assert (HCE : forall q i, In i (ce q) -> n <= i /\ edge_base P m F V q <= i < edge_base P m F V q + length F /\
                exists e c, In e F /\ cell_at (m_cells P m) e c /\ c_dim c = 1 /\ cell_at (m_cells P m2) i (mk_cell 1 i (c_nodes c) (copy_tag t (c_mat c)) [nth 0 (c_sub c) []; [i]])).
    { intros q i Hi. apply in_seq in Hi. split; [unfold edge_base in Hi; fold n in Hi; lia|]. split; [lia|].
      destruct (nth_error F (i - edge_base P m F V q)) as [e|] eqn:Ee; [|apply nth_error_None in Ee; lia].
      pose proof (nth_error_In _ _ Ee) as Ie. destruct (HF e Ie) as (c & Hc & D). exists e, c. repeat (split; auto).
      specialize (EE q _ e c Ee Hc). cbv zeta in EE. replace (edge_base P m F V q + (i - edge_base P m F V q)) with i in EE by lia. auto. }
    assert (TLT : forall q i, In i (tri q) -> i < n).
    { intros q i Hi. apply HTRI in Hi as (c & Hc & _). eapply cell_at_lt; eauto. }
    assert (TDJ : forall i, In i (tri true) -> ~ In i (tri false)).
    { intros i Hi Hi'. apply HTRI in Hi as (c & Hc & _ & _ & S1). apply HTRI in Hi' as (c' & Hc' & _ & _ & S2). same_cell c' c.
      pose proof (side_unique P m ln c _ _ S1 S2). discriminate. }
    assert (CDJ : forall i, In i (ce true) -> ~ In i (ce false)).
    { intros i Hi Hi'. apply HCE in Hi as (_ & Hi & _). apply HCE in Hi' as (_ & Hi' & _). unfold edge_base in *. lia. }
    assert (TCD : forall q q' i, In i (tri q) -> ~ In i (ce q')).
    { intros q q' i Hi Hi'. apply TLT in Hi. apply HCE in Hi' as (Hi' & _). lia. }
    (* if the cut is possible, triangles of both sides cover everything *)
    assert (CUTV : line_cuttable P t m ln -> forall q v, In v V -> exists i c, In i (tri q) /\ cell_at (m_cells P m) i c /\ In v (nth 0 (c_sub c) [])).
    { intros (_ & C2 & _) q v Hv. destruct (C2 v (sgn q) 2) as (i & c & Hc & D & Hl & Hs); [apply IV; auto|destruct q; discriminate|auto|].
      exists i, c. split; auto. apply HTRI. exists c. split; auto. split; auto. split; auto. exists v; auto. }
    assert (CUTF : line_cuttable P t m ln -> forall q e, In e F -> exists i c, In i (tri q) /\ cell_at (m_cells P m) i c /\ In e (nth 1 (c_sub c) [])).
    { intros (_ & _ & C3) q e He. destruct (C3 e (sgn q)) as (i & c & v & Hc & D & Hl & Hs & Hv & Hv'); [apply IF; auto|destruct q; discriminate|].
      exists i, c. split; auto. apply HTRI. exists c. split; auto. split; auto. split; auto. exists v. split; auto. apply IV; auto. }
    assert (exists v0, In v0 V) as (v0 & Iv0) by (clear - NV; destruct V as [|v0 ?]; [tauto|exists v0; left; auto]).
    assert (NTRI : forall q, tri q = [] -> ~ line_cuttable P t m ln).
    { intros q E C. destruct (CUTV C q v0 Iv0) as (i & c & Hi & _). rewrite E in Hi. destruct Hi. }
    (* 1: positive triangles *)
    destruct (tri true) as [|x1 r1] eqn:E1.
    { right. exists ValueError. split; [reflexivity|]. split; [right; left; auto|]. apply (NTRI true); auto. }
    rewrite <- E1 in *. assert (N1 : tri true <> []) by (rewrite E1; discriminate). clear x1 r1 E1.
    destruct (step2 P fuel m F V T (m_points P m2) (m_cells P m2) (tri true) true LM ST N1) as [(cs3 & U3 & C3 & S3 & L3)|(U3 & NX)].
    { intros i Hi. apply HTRI in Hi as (c & Hc & D & _). exists c. auto. }
    2:{ right. exists NetworkXError. fold (eb true) (vb true) in U3. rewrite U3. split; [reflexivity|]. split; [right; right; auto|]. intros C.
        destruct NX as [(x & Hx & NX)|(x & Hx & NX)]; apply NX.
        - destruct (CUTV C true x Hx) as (i & c & Hi & Hc & Hl). exists i. split; auto. exists c; auto.
        - destruct (CUTF C true x Hx) as (i & c & Hi & Hc & Hl). exists i. split; auto. exists c; auto. }
    fold (eb true) (vb true) in U3. rewrite U3. cbn [bind].
    (* 2: negative triangles *)
    destruct (tri false) as [|x1 r1] eqn:E1.
    { right. exists ValueError. split; [reflexivity|]. split; [right; left; auto|]. apply (NTRI false); auto. }
    rewrite <- E1 in *. assert (N2 : tri false <> []) by (rewrite E1; discriminate). clear x1 r1 E1.
    assert (O3 : forall i c, In i (tri false) -> cell_at (m_cells P m) i c -> cell_at cs3 i c).
    { intros i c Hi Hc. unfold cell_at. rewrite (changed_out _ _ _ _ _ C3); [apply UP; auto|]. intros X. apply (TDJ i); auto. }
    destruct (step2 P fuel m F V T (m_points P m2) cs3 (tri false) false LM S3 N2) as [(cs4 & U4 & C4 & S4 & L4)|(U4 & NX)].
    { intros i Hi. pose proof Hi as Hi'. apply HTRI in Hi' as (c & Hc & D & _). exists c. auto. }
    2:{ right. exists NetworkXError. fold (eb false) (vb false) in U4. rewrite U4. split; [reflexivity|]. split; [right; right; auto|]. intros C.
        destruct NX as [(x & Hx & NX)|(x & Hx & NX)]; apply NX.
        - destruct (CUTV C false x Hx) as (i & c & Hi & Hc & Hl). exists i. split; auto. exists c; auto.
        - destruct (CUTF C false x Hx) as (i & c & Hi & Hc & Hl). exists i. split; auto. exists c; auto. }
    fold (eb false) (vb false) in U4. rewrite U4. cbn [bind].
    (* 3, 4: the copied edges *)
    assert (O4 : forall q i c, In i (ce q) -> cell_at (m_cells P m2) i c -> cell_at cs4 i c).
    { intros q i c Hi Hc. unfold cell_at. rewrite (changed_out _ _ _ _ _ C4), (changed_out _ _ _ _ _ C3); auto; intros X; eapply TCD; eauto. }
    assert (NCE : forall q, ce q <> []) by (intros q; unfold ce; destruct F; [tauto|discriminate]).
    assert (CEV : forall q cs, (forall i c, In i (ce q) -> cell_at (m_cells P m2) i c -> cell_at cs i c) -> forall x, In x V -> exists p, lists_in cs (ce q) 0 x p).
    { intros q cs Hcs x Hx. apply IV in Hx as (e & c & cv & He & Hc & Hv & _). apply IF in He. apply In_nth_error in He as (k & Hk).
      pose proof (EE q k e c Hk Hc) as H. cbv zeta in H. assert (Ik : In (edge_base P m F V q + k) (ce q)).
      { apply in_seq. assert (k < length F) by (apply nth_error_Some; congruence). lia. }
      exists (edge_base P m F V q + k). split; auto. eexists. split; [apply Hcs; [auto|exact H]|]. cbn [c_sub nth]. auto. }
    assert (CED : forall q cs, (forall i c, In i (ce q) -> cell_at (m_cells P m2) i c -> cell_at cs i c) ->
                  forall i, In i (ce q) -> exists c, cell_at cs i c /\ c_dim c = 1 /\ forall v, In v (nth 0 (c_sub c) []) -> v < n).
    { intros q cs Hcs i Hi. pose proof Hi as Hi'. apply HCE in Hi' as (_ & _ & e & c & He & Hc & D & H). eexists. split; [apply Hcs; [auto|exact H]|]. cbn [c_dim c_sub nth].
      split; auto. intros v Hv. eapply (SUB e c 0); eauto. lia. }
    destruct (step1 P fuel m F V T (m_points P m2) cs4 (ce true) true S4 (NCE true)) as [(cs5 & U5 & C5 & S5 & L5)|(U5 & x & Hx & NX)].
    { apply CED. intros; eapply O4; eauto. }
    2:{ exfalso. apply NX. apply (CEV true); auto. intros; eapply O4; eauto. }
    fold (vb true) (ce true) in U5. fold (ce true). rewrite U5. cbn [bind].
    assert (O5 : forall i c, In i (ce false) -> cell_at (m_cells P m2) i c -> cell_at cs5 i c).
    { intros i c Hi Hc. unfold cell_at. rewrite (changed_out _ _ _ _ _ C5); [eapply O4; eauto|]. intros X. apply (CDJ i); auto. }
    destruct (step1 P fuel m F V T (m_points P m2) cs5 (ce false) false S5 (NCE false)) as [(cs6 & U6 & C6 & S6 & L6)|(U6 & x & Hx & NX)].
    { apply CED. auto. }
    2:{ exfalso. apply NX. apply (CEV false); auto. }
    fold (vb false) (ce false) in U6. fold (ce false). rewrite U6. cbn [bind].
    (* 5, 6: the edges *)
    assert (O6 : forall i c, cell_at (m_cells P m) i c -> c_dim c <> 2 \/ ~ lists_one V c \/ side_of P m ln c Eq -> cell_at cs6 i c).
    { intros i c Hc HH. assert (Li : i < n) by (eapply cell_at_lt; eauto). assert (NT : forall q, ~ In i (tri q)).
      { intros q X. apply HTRI in X as (c' & Hc' & D & LO & SD). same_cell c' c. destruct HH as [X|[X|X]]; auto.
        pose proof (side_unique P m ln c _ _ SD X). destruct q; discriminate. }
      assert (NC : forall q, ~ In i (ce q)) by (intros q X; apply HCE in X as (X & _); lia).
      unfold cell_at. rewrite (changed_out _ _ _ _ _ C6), (changed_out _ _ _ _ _ C5), (changed_out _ _ _ _ _ C4), (changed_out _ _ _ _ _ C3); auto. apply UP; auto. }
    destruct (NB cs6) as (e1 & En & IE & NE1).
    { intros v c Hc D. apply O6; auto. left; lia. }
    fold g in En. rewrite En. cbn [bind].
    assert (HE1 : forall i, In i e1 -> exists c pts, cell_at (m_cells P m) i c /\ has_points P m c pts /\ cell_at cs6 i c /\ has_points P (mk_mesh P cs6 (m_points P m2)) c pts).
    { intros i Hi. apply IE in Hi as (c & Hc & D & LO). destruct (points_exist P m i c CR Hc) as (pts & Hp). exists c, pts. split; auto. split; auto.
      split; [apply O6; auto; left; lia|apply PTS; auto]. }
    destruct (classify_line_spec P (mk_mesh P cs6 (m_points P m2)) m ln e1 NE1 HE1) as (pe & ne & Ec & Hpe & Hne).
    rewrite Ec. cbn [bind]. set (edg := fun q : bool => if q then pe else ne).
    assert (HEDG : forall q i, In i (edg q) <-> exists c, cell_at (m_cells P m) i c /\ c_dim c = 1 /\ lists_one V c /\ side_of P m ln c (sgn q)).
    { assert (G : forall s i, (In i e1 /\ exists c, cell_at (m_cells P m) i c /\ side_of P m ln c s) <-> exists c, cell_at (m_cells P m) i c /\ c_dim c = 1 /\ lists_one V c /\ side_of P m ln c s).
      { intros s i. rewrite (proj2 IE i). split.
        - intros [(c & Hc & D & LO) (c' & Hc' & Hs)]. same_cell c' c. exists c. auto.
        - intros (c & Hc & D & LO & Hs). split; exists c; auto. }
      intros q i. destruct q; unfold edg; [rewrite Hpe|rewrite Hne]; apply G. }
    assert (CUTE : line_cuttable P t m ln -> forall q v, In v V -> exists i c, In i (edg q) /\ cell_at (m_cells P m) i c /\ In v (nth 0 (c_sub c) [])).
    { intros (_ & C2 & _) q v Hv. destruct (C2 v (sgn q) 1) as (i & c & Hc & D & Hl & Hs); [apply IV; auto|destruct q; discriminate|auto|].
      exists i, c. split; auto. apply HEDG. exists c. split; auto. split; auto. split; auto. exists v; auto. }
    assert (NEDG : forall q, edg q = [] -> ~ line_cuttable P t m ln).
    { intros q E C. destruct (CUTE C q v0 Iv0) as (i & c & Hi & _). rewrite E in Hi. destruct Hi. }
    assert (EDJ : forall i, In i (edg true) -> ~ In i (edg false)).
    { intros i Hi Hi'. apply HEDG in Hi as (c & Hc & _ & _ & A). apply HEDG in Hi' as (c' & Hc' & _ & _ & B). same_cell c' c.
      pose proof (side_unique P m ln c _ _ A B). discriminate. }
    assert (ECD : forall q cs, (forall i c, In i (edg q) -> cell_at (m_cells P m) i c -> cell_at cs i c) ->
                  forall i, In i (edg q) -> exists c, cell_at cs i c /\ c_dim c = 1 /\ forall v, In v (nth 0 (c_sub c) []) -> v < n).
    { intros q cs Hcs i Hi. pose proof Hi as Hi'. apply HEDG in Hi' as (c & Hc & D & _). exists c. split; auto. split; auto. intros v Hv. eapply (SUB i c 0); eauto. lia. }
    assert (OE6 : forall q i c, In i (edg q) -> cell_at (m_cells P m) i c -> cell_at cs6 i c).
    { intros q i c Hi Hc. apply HEDG in Hi as (c' & Hc' & D & _). same_cell c' c. apply O6; auto. left; lia. }
    change pe with (edg true). change ne with (edg false).
    destruct (edg true) as [|x1 r1] eqn:E1.
    { right. exists ValueError. split; [reflexivity|]. split; [right; left; auto|]. apply (NEDG true); auto. }
    rewrite <- E1 in *. assert (N3 : edg true <> []) by (rewrite E1; discriminate). clear x1 r1 E1.
    destruct (step1 P fuel m F V T (m_points P m2) cs6 (edg true) true S6 N3) as [(cs7 & U7 & C7 & S7 & L7)|(U7 & x & Hx & NX)].
    { apply ECD. apply OE6. }
    2:{ right. exists NetworkXError. fold (vb true) in U7. rewrite U7. split; [reflexivity|]. split; [right; right; auto|]. intros C. apply NX.
        destruct (CUTE C true x Hx) as (i & c & Hi & Hc & Hl). exists i. split; auto. exists c. split; auto. eapply OE6; eauto. }
    fold (vb true) in U7. rewrite U7. cbn [bind].
    destruct (edg false) as [|x1 r1] eqn:E1.
    { right. exists ValueError. split; [reflexivity|]. split; [right; left; auto|]. apply (NEDG false); auto. }
    rewrite <- E1 in *. assert (N4 : edg false <> []) by (rewrite E1; discriminate). clear x1 r1 E1.
    assert (OE7 : forall i c, In i (edg false) -> cell_at (m_cells P m) i c -> cell_at cs7 i c).
    { intros i c Hi Hc. unfold cell_at. rewrite (changed_out _ _ _ _ _ C7); [eapply OE6; eauto|]. intros X. apply (EDJ i); auto. }
    destruct (step1 P fuel m F V T (m_points P m2) cs7 (edg false) false S7 N4) as [(cs8 & U8 & C8 & S8 & L8)|(U8 & x & Hx & NX)].
    { apply ECD. apply OE7. }
    2:{ right. exists NetworkXError. fold (vb false) in U8. rewrite U8. split; [reflexivity|]. split; [right; right; auto|]. intros C. apply NX.
        destruct (CUTE C false x Hx) as (i & c & Hi & Hc & Hl). exists i. split; auto. exists c. split; auto. }
    fold (vb false) in U8. left. exists cs8. split; [exact U8|].
    assert (ELT : forall q i, In i (edg q) -> i < n).
    { intros q i Hi. apply HEDG in Hi as (c & Hc & _). eapply cell_at_lt; eauto. }
    assert (TED : forall q q' i, In i (tri q) -> ~ In i (edg q')).
    { intros q q' i Hi Hi'. apply HTRI in Hi as (c & Hc & D & _). apply HEDG in Hi' as (c' & Hc' & D' & _). same_cell c' c. lia. }
    assert (K68 : forall i, (forall q, ~ In i (edg q)) -> nth_error cs8 i = nth_error cs6 i).
    { intros i Hi. rewrite (changed_out _ _ _ _ _ C8), (changed_out _ _ _ _ _ C7); auto. }
    assert (K46 : forall i, (forall q, ~ In i (ce q)) -> nth_error cs6 i = nth_error cs4 i).
    { intros i Hi. rewrite (changed_out _ _ _ _ _ C6), (changed_out _ _ _ _ _ C5); auto. }
    assert (K24 : forall i, (forall q, ~ In i (tri q)) -> nth_error cs4 i = nth_error (m_cells P m2) i).
    { intros i Hi. rewrite (changed_out _ _ _ _ _ C4), (changed_out _ _ _ _ _ C3); auto. }
    assert (ECE : forall q q' i, In i (edg q) -> ~ In i (ce q')) by (intros q q' i Hi X; apply ELT in Hi; apply HCE in X as (X & _); lia).
    (* triangles *)
    assert (FT3 : forall q i c, In i (tri q) -> cell_at (m_cells P m) i c -> cell_at cs8 i (moved P m F V T q c)).
    { intros q i c Hi Hc. unfold cell_at. rewrite K68, K46; eauto. destruct q.
      - rewrite (changed_out _ _ _ _ _ C4); auto. eapply changed_in; eauto.
      - eapply changed_in; eauto. }
    assert (FE : forall q i c, In i (edg q) -> cell_at (m_cells P m) i c -> cell_at cs8 i (moved P m F V T q c)).
    { intros q i c Hi Hc. unfold cell_at. destruct q.
      - rewrite (changed_out _ _ _ _ _ C8); auto. eapply changed_in; eauto.
      - eapply changed_in; eauto. }
    assert (FC : forall q i c, In i (ce q) -> cell_at (m_cells P m2) i c -> cell_at cs8 i (moved P m F V T q c)).
    { intros q i c Hi Hc. unfold cell_at. rewrite K68.
      2:{ intros q' X. eapply ECE; eauto. }
      destruct q.
      - rewrite (changed_out _ _ _ _ _ C6); auto. eapply changed_in; eauto.
      - eapply changed_in; eauto. }
    split; [|split; [destruct S8; auto|]].
    - constructor; cbn [m_cells m_points]; auto.
      + destruct C8 as [-> _], C7 as [-> _], C6 as [-> _], C5 as [-> _], C4 as [-> _], C3 as [-> _]. exact LEN.
      + intros i c q Hc [D|D] LO SD.
        * apply FE; auto. apply HEDG. exists c. split; [exact Hc|]. split; [exact D|]. split; [exact LO|]. exact SD.
        * apply FT3; auto. apply HTRI. exists c. split; [exact Hc|]. split; [exact D|]. split; [exact LO|]. exact SD.
      + intros i c Hc HH. unfold cell_at. assert (Q : c_dim c <> 2 \/ ~ lists_one V c \/ side_of P m ln c Eq) by (destruct HH as [?|[?|[?|?]]]; [left; lia|left; lia|auto|auto]).
        rewrite K68; [apply O6; auto|]. intros q X. apply HEDG in X as (c' & Hc' & D & LO & SD). same_cell c' c.
        destruct HH as [?|[?|[?|Y]]]; try lia; auto. pose proof (side_unique P m ln c _ _ SD Y). destruct q; discriminate.
      + intros q k e c He Hc. pose proof (EE q k e c He Hc) as H. cbv zeta in *.
        assert (Ik : In (edge_base P m F V q + k) (ce q)).
        { apply in_seq. assert (k < length F) by (apply nth_error_Some; congruence). lia. }
        specialize (FC q _ _ Ik H). exact FC.
      + intros q k v c Hv Hc. pose proof (VV q k v c Hv Hc) as H. cbv zeta in *. assert (Lk : k < length V) by (apply nth_error_Some; congruence).
        unfold cell_at in *. rewrite K68, K46, K24; [exact H| | |].
        * intros q' X. apply TLT in X. unfold vertex_base in X. fold n in X. lia.
        * intros q' X. apply HCE in X as (_ & X & _). unfold vertex_base, edge_base in X. fold n in X. destruct q, q'; lia.
        * intros q' X. apply ELT in X. unfold vertex_base in X. fold n in X. lia.
    - split; [exists v0; apply IV; auto|]. split.
      + intros v s k Hv Ns Hk. apply IV in Hv.
        assert (G : exists q, s = sgn q) by (destruct s; [tauto|exists false; auto|exists true; auto]). destruct G as (q & ->). destruct Hk as [-> | ->].
        * assert (X : exists p, In p (edg q) /\ exists c, cell_at (m_cells P m) p c /\ In v (nth 0 (c_sub c) [])).
          { destruct q; [destruct (L7 v Hv) as (p & Hp & c & Hc & Hl)|destruct (L8 v Hv) as (p & Hp & c & Hc & Hl)]; exists p; split; auto;
            pose proof Hp as Hp'; apply HEDG in Hp' as (c' & Hc' & _); exists c'; split; auto.
            - pose proof (OE6 true p c' Hp Hc') as Y. same_cell c c'. auto.
            - pose proof (OE7 p c' Hp Hc') as Y. same_cell c c'. auto. }
          destruct X as (p & Hp & c & Hc & Hl). apply HEDG in Hp as (c' & Hc' & D & _ & SD). same_cell c' c. exists p, c. auto.
        * assert (X : exists p, In p (tri q) /\ exists c, cell_at (m_cells P m) p c /\ In v (nth 0 (c_sub c) [])).
          { destruct q; [destruct (proj1 L3 v Hv) as (p & Hp & c & Hc & Hl)|destruct (proj1 L4 v Hv) as (p & Hp & c & Hc & Hl)]; exists p; split; auto;
            pose proof Hp as Hp'; apply HTRI in Hp' as (c' & Hc' & _); exists c'; split; auto.
            - pose proof (UP p c' Hc') as Y. same_cell c c'. auto.
            - pose proof (O3 p c' Hp Hc') as Y. same_cell c c'. auto. }
          destruct X as (p & Hp & c & Hc & Hl). apply HTRI in Hp as (c' & Hc' & D & _ & SD). same_cell c' c. exists p, c. auto.
      + intros e s He Ns. apply IF in He.
        assert (G : exists q, s = sgn q) by (destruct s; [tauto|exists false; auto|exists true; auto]). destruct G as (q & ->).
        assert (X : exists p, In p (tri q) /\ exists c, cell_at (m_cells P m) p c /\ In e (nth 1 (c_sub c) [])).
        { destruct q; [destruct (proj2 L3 e He) as (p & Hp & c & Hc & Hl)|destruct (proj2 L4 e He) as (p & Hp & c & Hc & Hl)]; exists p; split; auto;
          pose proof Hp as Hp'; apply HTRI in Hp' as (c' & Hc' & _); exists c'; split; auto.
          - pose proof (UP p c' Hc') as Y. same_cell c c'. auto.
          - pose proof (O3 p c' Hp Hc') as Y. same_cell c c'. auto. }
        destruct X as (p & Hp & c & Hc & Hl). apply HTRI in Hp as (c' & Hc' & D & (v & Hv & Hv') & SD). same_cell c' c.
        exists p, c, v. repeat (split; auto). apply IV; auto.
  Qed.
End One.
