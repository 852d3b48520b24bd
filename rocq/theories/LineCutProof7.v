(** * Lemmas: cutting along lines, C36 (whole function, several lines) *)
From Coq Require Import List Arith ZArith Bool Lia Sorted Permutation.
From Verif Require Import Base BaseProof MeshModel MeshSpec GraphModel GraphProof CutModel CutSpec CutProof CutProof2
  LineCutModel LineCutSpec LineCutProof LineCutProof2 LineCutProof3 LineCutProof4 LineCutProof5 LineCutProof6.
Import ListNotations.

Lemma flat_some (l : list cell) : flat_map (fun o : option cell => match o with Some c => [c] | None => [] end) (map Some l) = l.
Proof. induction l; simpl; congruence. Qed.
Lemma bind_assoc {A B C} (r : res A) (f : A -> res B) (g : B -> res C) : bind (bind r f) g = bind r (fun x => bind (f x) g).
Proof. destruct r; reflexivity. Qed.

Section Whole.
  Variable P : Type.
  Notation fit := (fit P).

  Lemma vertex_nodes (m : mesh P) V : cut_ready P m -> (forall v, In v V -> exists c, cell_at (m_cells P m) v c /\ c_dim c = 0) ->
    exists T N, Forall2 (fun v t => exists c, cell_at (m_cells P m) v c /\ c_nodes c = [t]) V T /\
      Forall2 (fun t x => nth_error (m_points P m) t = Some x) T N.
  Proof.
    intros (LM & (A1 & _) & RG). induction V as [|v V IH]; intros H; [exists [], []; split; constructor|].
    destruct IH as (T & N & HT & HN); [intros; apply H; right; auto|]. destruct (H v) as (c & Hc & D); [left; auto|].
    destruct (A1 v c Hc D) as (t & Nt). specialize (RG v c t Hc). rewrite Nt in RG. specialize (RG (or_introl eq_refl)).
    destruct (nth_error (m_points P m) t) as [x|] eqn:Ex; [|apply nth_error_None in Ex; lia].
    exists (t :: T), (x :: N). split; constructor; eauto.
  Qed.

  Theorem cut_line_main fuel t (m : mesh P) ln : line_ready P t m ->
    (exists m' f F V T N, cut_line P (S fuel) 2 t m ln = Ok (m', f) /\ line_effect P t ln m m' F V T N /\
       interface_spec P m F V f /\ fit m' /\ line_cuttable P t m ln) \/
    (exists e, cut_line P (S fuel) 2 t m ln = Err e /\ expected e /\ ~ line_cuttable P t m ln).
  Proof.
    intros LR. pose proof LR as (CR & NR & TG). pose proof CR as (LM & AL & RG).
    destruct (line_edges_spec P t m ln LR) as (raw & flags & F & Er & Ef & EF & IF & SUB).
    assert (CF : F = [] -> ~ line_cuttable P t m ln).
    { intros -> ((v & e & c & cv & He & _) & _). apply IF in He. destruct He. }
    unfold cut_line. cbn [Nat.eqb negb]. cbv zeta. rewrite Er. cbn [bind]. rewrite Ef. cbn [bind].
    destruct raw as [|r0 rr] eqn:Eraw.
    { right. exists IndexError. split; [reflexivity|]. split; [left; auto|]. apply CF. exact EF. }
    rewrite <- Eraw in *. clear Eraw r0 rr. rewrite <- EF.
    destruct (build_graph_layered fuel (m_cells P m) 2 0 LM ltac:(lia)) as (l & Ml & G2).
    destruct (build_graph_layered fuel (m_cells P m) 1 0 LM ltac:(lia)) as (l' & Ml' & G1).
    assert (l' = l). { rewrite <- (flat_some l), <- (flat_some l'). congruence. } subst l'.
    change (build_graph (S fuel) (m_cells P m) 2 2) with (build_graph (S fuel) (m_cells P m) (Z.of_nat 2) (Z.of_nat 2 - Z.of_nat 0)).
    change (build_graph (S fuel) (m_cells P m) 1 1) with (build_graph (S fuel) (m_cells P m) (Z.of_nat 1) (Z.of_nat 1 - Z.of_nat 0)).
    rewrite G2, G1. cbn [bind].
    destruct (line_vertices_spec P t m ln F LR IF) as (lists & V & EL & LL & EV & IV). rewrite EL. cbn [bind].
    destruct lists as [|l0 lr] eqn:Elists.
    { right. exists ValueError. split; [reflexivity|]. split; [right; left; auto|]. apply CF. destruct F; [auto|discriminate]. }
    rewrite <- Elists in *. assert (NF : F <> []) by (intros ->; rewrite Elists in LL; discriminate). clear Elists l0 lr.
    rewrite EV. cbn [bind].
    assert (HF : forall e, In e F -> exists c, cell_at (m_cells P m) e c /\ c_dim c = 1).
    { intros e He. apply (line_edge_cell P t m ln); auto. apply IF; auto. }
    assert (HV : forall v, In v V -> exists c, cell_at (m_cells P m) v c /\ c_dim c = 0).
    { intros v Hv. apply IV in Hv as (e & c & cv & He & Hc & Hv & Hcv & _). destruct (line_edge_cell P t m ln e LR He) as (c' & Hc' & D).
      same_cell c' c. destruct LM as [_ LM]. destruct (LM e c Hc) as (_ & _ & _ & S). destruct (S 0 v) as (x & Hx & Dx); [lia|auto|]. eauto. }
    assert (HVI : forall cs, (forall v c, cell_at (m_cells P m) v c -> c_dim c = 0 -> cell_at cs v c) ->
                  forall v, In v V -> exists c, cell_at cs v c /\ c_dim c = 0 /\ c_id c = v).
    { intros cs K v Hv. destruct (HV v Hv) as (c & Hc & D). exists c. split; auto. split; auto. apply (proj2 LM v c Hc). }
    destruct (neighbours_spec (m_cells P m) (m_cells P m) l 2 V ltac:(lia) LM Ml (HVI _ (fun _ _ H _ => H))) as [(c0 & Ec0 & I0 & A0)|(Ec0 & v & Hv & NX)]; rewrite Ec0; cbn [bind].
    2:{ right. exists NetworkXError. split; [reflexivity|]. split; [right; right; auto|]. intros (_ & C2 & _).
        apply NX. destruct (C2 v Gt 2) as (i & c & Hc & D & Hl & _); [apply IV; auto|discriminate|auto|]. exists i, c. split; auto. split; auto. exists v. split; [left|]; auto. }
    destruct V as [|v0 V0] eqn:EqV.
    { right. assert (Z0 : c0 = []). { destruct c0 as [|x c0]; auto. destruct (proj1 (proj2 I0 x) (or_introl eq_refl)) as (c & _ & _ & v & [] & _). }
      rewrite Z0. exists ValueError. split; [reflexivity|]. split; [right; left; auto|]. intros ((v & Hv) & _). apply IV in Hv. destruct Hv. }
    rewrite <- EqV in *. assert (NV : V <> []) by (rewrite EqV; discriminate). assert (Iv0 : In v0 V) by (rewrite EqV; left; auto). clear EqV V0.
    assert (N0 : c0 <> []).
    { intros ->. destruct (A0 v0 Iv0) as (j & c & Hc & D & v & [<-|[]] & Hl). apply (proj2 I0 j). exists c. split; auto. split; auto. exists v0; auto. }
    assert (H0 : forall i, In i c0 -> exists c pts, cell_at (m_cells P m) i c /\ has_points P m c pts /\ cell_at (m_cells P m) i c /\ has_points P m c pts).
    { intros i Hi. apply I0 in Hi as (c & Hc & _). destruct (points_exist P m i c CR Hc) as (pts & Hp). exists c, pts. auto. }
    destruct (classify_line_spec P m m ln c0 N0 H0) as (p0 & n0 & Ecl & Hp0 & Hn0). rewrite Ecl. cbn [bind].
    destruct (vertex_nodes m V CR HV) as (T & N & HT & HN).
    set (tm := dict_of [(t_line t, t_line_clones t); (t_point t, t_point_clones t)]).
    assert (FT : fit m) by (split; auto).
    destruct (copy_side_spec P tm (l_bump P ln true) m F V T N FT NF NV HF HV HT HN) as (m1 & E1 & CD1 & FT1). rewrite E1. cbn [bind].
    assert (UP1 : forall i c, cell_at (m_cells P m) i c -> cell_at (m_cells P m1) i c).
    { intros i c Hc. unfold cell_at. rewrite (cd_old _ _ _ _ _ _ _ _ CD1); auto. eapply cell_at_lt; eauto. }
    destruct (copy_side_spec P tm (l_bump P ln false) m1 F V T N FT1 NF NV) as (m2 & E2 & CD2 & FT2).
    { intros e He. destruct (HF e He) as (c & ? & ?). eauto. }
    { intros e He. destruct (HV e He) as (c & ? & ?). eauto. }
    { eapply Forall2_impl; [|exact HT]. intros a b (c & ? & ?). eauto. }
    { eapply Forall2_impl; [|exact HN]. intros a b E. cbv beta in *. rewrite (cd_points _ _ _ _ _ _ _ _ CD1). rewrite nth_error_app1; auto. apply nth_error_Some. congruence. }
    rewrite (cd_length _ _ _ _ _ _ _ _ CD1) in E2. rewrite E2. cbn [bind].
    destruct (two_copies P tm m m1 m2 (l_bump P ln true) (l_bump P ln false) F V T N) as (ST & PT & LEN & OLD & EE & VV); auto; try (apply sorted_lt_nodup; apply IF || apply IV).
    assert (EB1 : edge_base P m F V true = length (m_cells P m)) by (unfold edge_base; lia).
    assert (EB2 : edge_base P m F V false = length (m_cells P m) + length F + length V) by (unfold edge_base; lia).
    assert (VB1 : vertex_base P m F V true = length (m_cells P m) + length F) by (unfold vertex_base; lia).
    assert (VB2 : vertex_base P m F V false = length (m_cells P m) + length F + length V + length F) by (unfold vertex_base; lia).
    rewrite <- VB2, <- EB2, <- VB1, <- EB1.
    set (tri := fun q : bool => if q then p0 else n0).
    assert (HTRI : forall q i, In i (tri q) <-> exists c, cell_at (m_cells P m) i c /\ c_dim c = 2 /\ lists_one V c /\ side_of P m ln c (sgn q)).
    { assert (G : forall s i, (In i c0 /\ exists c, cell_at (m_cells P m) i c /\ side_of P m ln c s) <-> exists c, cell_at (m_cells P m) i c /\ c_dim c = 2 /\ lists_one V c /\ side_of P m ln c s).
      { intros s i. rewrite (proj2 I0 i). split.
        - intros [(c & Hc & D & LO) (c' & Hc' & Hs)]. same_cell c' c. exists c. auto.
        - intros (c & Hc & D & LO & Hs). split; exists c; auto. }
      intros q i. destruct q; unfold tri; [rewrite Hp0|rewrite Hn0]; apply G. }
    assert (FL : flat_map (fun o : option cell => match o with Some c => [c] | None => [] end) (m_cells P m) = l) by (rewrite <- Ml; apply flat_some).
    assert (NB : forall cs, (forall v c, cell_at (m_cells P m) v c -> c_dim c = 0 -> cell_at cs v c) ->
       exists r, neighbours cs (from_edgelist (flat_map (edges_of 0) (filter (fun c => c_dim c =? 1) (flat_map (fun o => match o with Some c => [c] | None => [] end) (m_cells P m))))) V = Ok r /\
         increasing_list r (above (m_cells P m) 1 V) /\ r <> []).
    { intros cs K. rewrite FL.
      assert (AB : forall v, In v V -> exists j, above (m_cells P m) 1 [v] j).
      { intros v Hv. apply IV in Hv as (e & c & cv & He & Hc & Hl & _). destruct (line_edge_cell P t m ln e LR He) as (c' & Hc' & D). same_cell c' c.
        exists e, c. split; auto. split; auto. exists v. split; [left|]; auto. }
      destruct (neighbours_spec (m_cells P m) cs l 1 V ltac:(lia) LM Ml (HVI cs K)) as [(r & Er1 & Ir & Ar)|(_ & v & Hv & NX)].
      - exists r. split; auto. split; auto. intros ->. destruct (Ar v0 Iv0) as (j & c & Hc & D & v & [<-|[]] & Hl). apply (proj2 Ir j). exists c. split; auto. split; auto. exists v0; auto.
      - exfalso. apply NX. apply AB; auto. }
    assert (EE' : forall (q : bool) k e c, nth_error F k = Some e -> cell_at (m_cells P m) e c ->
      let i := edge_base P m F V q + k in
      cell_at (m_cells P m2) i (mk_cell 1 i (c_nodes c) (copy_tag t (c_mat c)) [nth 0 (c_sub c) []; [i]])).
    { intros q k e c He Hc. specialize (EE q k e c He Hc). cbv zeta in *. unfold tm in EE. rewrite mapped_copy_tag in EE. exact EE. }
    assert (VV' : forall (q : bool) k v c, nth_error V k = Some v -> cell_at (m_cells P m) v c ->
      let i := vertex_base P m F V q + k in
      cell_at (m_cells P m2) i (mk_cell 0 i [node_base P m V q + k] (copy_tag t (c_mat c)) [[i]])).
    { intros q k v c Hv Hc. specialize (VV q k v c Hv Hc). cbv zeta in *. unfold tm in VV. rewrite mapped_copy_tag in VV. exact VV. }
    pose proof (updates P fuel t ln m m2 F V T N tri LR IF IV NF NV HT HN ST PT LEN OLD EE' VV' HTRI NB) as UPD. cbv zeta in UPD.
    rewrite FL in UPD. change p0 with (tri true). change n0 with (tri false).
    match type of UPD with (exists cs8, ?r = Ok cs8 /\ _) \/ _ =>
      match goal with |- (exists m' f F' V' T' N', ?k = Ok _ /\ _) \/ _ =>
        assert (RUN : k = do cs8 <- r; Ok (mk_mesh P cs8 (m_points P m2), mk_interface_of
            (F, seq (edge_base P m F V true) (length F), seq (edge_base P m F V false) (length F))
            (V, seq (vertex_base P m F V true) (length V), seq (vertex_base P m F V false) (length V))))
      end end.
    { rewrite !bind_assoc. repeat (match goal with |- bind ?x _ = bind ?x _ => destruct x; cbn [bind]; [rewrite ?bind_assoc|reflexivity] end).
      match goal with |- context [let (_, _) := ?p in _] => destruct p as [pe ne] end. rewrite ?bind_assoc.
      repeat (match goal with |- bind ?x _ = bind ?x _ => destruct x; cbn [bind]; [rewrite ?bind_assoc|reflexivity] end). reflexivity. }
    rewrite RUN. destruct UPD as [(cs8 & -> & LE & FT8 & CUT)|(e & -> & EX & NC)]; cbn [bind].
    - left. do 6 eexists. split; [reflexivity|]. split; [exact LE|]. split; [split; reflexivity|]. auto.
    - right. exists e. auto.
  Qed.
End Whole.
