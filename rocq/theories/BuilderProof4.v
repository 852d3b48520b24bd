(** * Proofs about boxes: the polygon with its network *)
From Coq Require Import List Arith ZArith Bool Lia Permutation.
From Verif Require Import Base BaseProof FracModel FracSpec FracProof FracProof2 NetProof MesherModel MesherSpec MesherProof MesherProof5 BuilderModel BuilderSpec BuilderProof BuilderProof2 BuilderProof3.
Import ListNotations.

Section Fractured.
  Variable P : Type.
  Variable isect : P -> P -> P -> P -> option P.
  Variable near : P -> P -> bool.
  Variable argsort : list P -> P -> list nat.
  Hypothesis near_refl : forall x, near x x = true.
  Hypothesis argsort_perm : forall xs o, Permutation (argsort xs o) (seq 0 (length xs)).
  Variables (f : nat) (tags : dict key Z) (pts : list P) (segs : list (P * P)) (shift : Z).
  Hypothesis Hpts : pts <> [].
  Hypothesis Hsegs : segs <> [].
  Notation n := (length pts).
  Notation N := (length segs).
  Notation T := (in_effect tags default_2D).
  Notation fr := (map (fun s : P * P => [fst s; snd s]) segs).
  Hypothesis HT : all_tagged T n.

  Definition ftags : list Z := map (fun i => (Z.of_nat i + shift)%Z) (seq 0 N).
  Lemma In_ftags p : In p ftags <-> fracture_tag N shift p.
  Proof.
    unfold ftags, fracture_tag. rewrite in_map_iff. split; [intros (k & <- & I); apply in_seq in I; exists k; split; [lia|auto]|].
    intros (k & K & ->). exists k. split; auto. apply in_seq. lia.
  Qed.

  (** everything that is called *)
  Definition net_lines (net : network P) (ls : list nat) : list nat := flat_map (pieces_of P net) ls.
  Definition all_calls (net : network P) (groups : list (call P)) (vs ls : list nat) : list (call P) :=
    (point_calls (pts ++ n_points P net) 0 ++ polygon_drawn n) ++ [Synchronize] ++
    (groups ++ [AddPhysicalGroup 2 [face_number n] (tag_z (dget T KArea))]) ++ [Synchronize] ++
    map line_call (map (dline P net n) (net_lines net ls)) ++ [Synchronize] ++
    (net_groups0 P net n vs ls ++ net_groupsx P net n ftags vs ++ net_groups1 P net n ls) ++ [Synchronize] ++
    (Embed 0 (flat_map (fun i => let '(b, e, _) := dline P net n i in [b; e]) (net_lines net ls)) 2 (face_number n) ::
     Embed 1 (map (line_number n) (net_lines net ls)) 2 (face_number n) ::
     map (fun t => SetTransfiniteCurve t 10) (map (line_number n) (net_lines net ls))) ++ [Synchronize].

  Record net_ok (net : network P) : Prop := {
    no_ids : forall i c, nth_error (n_cells P net) i = Some c -> gc_id c = i;
    no_cells : network_cells P isect near segs shift net;
    no_split : forall k, k < N -> exists imm chain, fracture_split P isect near segs shift net k imm chain }.
  Lemma mesh_spec : exists net groups vs ls, net_ok net /\ Permutation groups (map (side_group n T) (seq 0 n)) /\
    NoDup vs /\ NoDup ls /\ (forall v, In v vs <-> is_vertex (n_cells P net) v) /\ (forall i, In i ls <-> exists k, k < N /\ i = 3 * k + 2) /\
    intersect_1D_fractures P isect near argsort fr shift = Ok net /\
    mesh_fractured P isect near argsort (S (S f)) tags pts fr shift true = Ok (net, all_calls net groups vs ls).
  Proof.
    destruct (box_2D_spec f tags pts Hpts) as (g & Eb & Ng & Mg). assert (Hn : 0 < n) by (destruct pts; [congruence|simpl; lia]).
    destruct (C59_lemma P isect near argsort segs shift near_refl argsort_perm Hsegs) as (net & En & (Ids & C & _) & Fs).
    assert (F : forall k, k < N -> exists imm chain, fracture_split P isect near segs shift net k imm chain). { intros k K. destruct (Fs k K) as (imm & chain & S & _). eauto. }
    destruct (graph_spec (n_cells P net) (cells_leveled _ _ _ _ _ _ C Ids) f true) as (ng & Eg & _ & _).
    destruct (nodes_all P isect near segs shift net near_refl Ids C F (S (S f)) ng) as [Nn Mn]; [lia|exact Eg|].
    destruct (describe_ok n T g Hn Ng Mg pts HT) as (groups & Pg & Ed).
    destruct (describe_network_spec P isect near segs shift net Ids C F n ng Nn Mn ftags) as (vs & ls & NV & NL & HV & HL & Ew).
    exists net, groups, vs, ls. split; [constructor; auto|]. do 5 (split; [assumption|]). split; [exact En|].
    unfold mesh_fractured. rewrite Eb. cbn [bind]. rewrite En. cbn [bind]. rewrite Eg. cbn [bind set_points bu_points bu_cells n_cells n_points]. rewrite polygon_length.
    unfold generate. cbn [describe_domain]. rewrite Ed. cbn [bind Nat.eqb]. rewrite map_length. fold ftags. unfold cs' in Ew. rewrite Ew. cbn [bind]. unfold get_at. cbn [nth_error bind]. f_equal. f_equal.
    unfold all_calls, net_lines. rewrite <- !app_assoc. reflexivity.
  Qed.

  Variable net : network P.
  Hypothesis OK : net_ok net.
  Variables (groups : list (call P)) (vs ls : list nat).
  Hypothesis Pg : Permutation groups (map (side_group n T) (seq 0 n)).
  Hypothesis NV : NoDup vs.
  Hypothesis NL : NoDup ls.
  Hypothesis HV : forall v, In v vs <-> is_vertex (n_cells P net) v.
  Hypothesis HL : forall i, In i ls <-> exists k, k < N /\ i = 3 * k + 2.
  Notation r := (all_calls net groups vs ls).
  Notation D := (net_lines net ls).
  Notation cs := (n_cells P net).

  Let Ids := no_ids net OK.
  Let C := no_cells net OK.
  Let F := no_split net OK.
  Lemma In_D i : In i D <-> drawn P net i.
  Proof.
    unfold net_lines. rewrite in_flat_map. split.
    - intros (j & Hj & Hi). apply HL in Hj as (k & K & ->). apply (pieces_drawn P isect near segs shift net C F k i K Hi).
    - intros H. destruct (drawn_piece P isect near segs shift net Ids C i H) as (k & K & Hi). exists (3 * k + 2). split; auto. apply HL. eauto.
  Qed.
  Lemma NoDup_flat_map {A B} (h : A -> list B) : forall l, NoDup l -> (forall x, In x l -> NoDup (h x)) ->
    (forall x y b, In x l -> In y l -> In b (h x) -> In b (h y) -> x = y) -> NoDup (flat_map h l).
  Proof.
    induction l as [|x l IH]; intros Nl Hx Hd; [constructor|]. inversion Nl as [|? ? Nx Nl']; subst. cbn [flat_map]. apply NoDup_join.
    - apply Hx. left. auto.
    - apply IH; auto; [intros; apply Hx; right; auto|]. intros y z b Y Z. apply Hd; right; auto.
    - intros b B1 B2. apply in_flat_map in B2 as (y & Y & B2). apply Nx. rewrite (Hd x y b); auto; [left; auto|right; auto].
  Qed.
  Lemma line_tag k : k < N -> gc_tag (cellat P net (3 * k + 2)) = (Z.of_nat k + shift)%Z.
  Proof. intros K. destruct (line_at P isect near segs shift net C F k K) as (imm & L & _). rewrite (cellat_nth P net _ _ L). reflexivity. Qed.
  Lemma NoDup_D : NoDup D.
  Proof.
    apply NoDup_flat_map; auto.
    - intros i Hi. apply HL in Hi as (k & K & ->). apply (pieces_NoDup P isect near segs shift net C F); auto.
    - intros x y b Hx Hy Bx By. apply HL in Hx as (k & K & ->). apply HL in Hy as (k' & K' & ->).
      destruct (pieces_drawn P isect near segs shift net C F k b K Bx) as [_ E]. destruct (pieces_drawn P isect near segs shift net C F k' b K' By) as [_ E']. lia.
  Qed.
  Lemma num_point v : is_vertex cs v -> exists t, num P net n v = Z.of_nat (n + t + 1) /\ t < length (n_points P net).
  Proof. intros V. destruct (vertex_cell P isect near segs shift net C F n v V) as (t & tag & _ & _ & E & L). eauto. Qed.
  Lemma dline_spec i : drawn P net i -> exists u v, gc_bc (cellat P net i) = [u; v] /\ is_vertex cs u /\ is_vertex cs v /\ dline P net n i = (num P net n u, num P net n v, line_number n i).
  Proof.
    intros H. destruct (proj1 (drawn_cell P isect near segs shift net Ids C i) H) as (u & v & tag & _ & E & Vu & Vv). exists u, v. unfold dline. rewrite E. auto.
  Qed.
  Lemma face_is : face_number n = Z.of_nat (n + n).
  Proof. reflexivity. Qed.

  Lemma fractured_accepted : accepted nothing r.
  Proof.
    assert (Hn : 0 < n) by (destruct pts; [congruence|simpl; lia]). unfold all_calls.
    destruct (polygon_accepted n Hn (pts ++ n_points P net)) as [A1 B1]; [rewrite app_length; lia|]. set (m := length (pts ++ n_points P net)) in *.
    assert (Lm : m = n + length (n_points P net)) by (unfold m; apply app_length).
    rewrite accepted_app, B1. split; [exact A1|]. rewrite accepted_app. split; [split; [exact I|exact I]|].
    change (afters (drawn_scene n m) [Synchronize]) with (seen_scene (P:=P) n m).
    destruct (groups_accepted n T m groups Pg) as [Pa A2]; [lia|]. rewrite accepted_app. split; [exact A2|]. rewrite passive_afters by exact Pa.
    rewrite accepted_app. split; [split; exact I|]. set (s2 := afters (seen_scene n m) [Synchronize]).
    assert (Hp : forall i, i < m -> In (Z.of_nat i + 1)%Z (points s2)). { intros i Hi. cbn. apply -> in_rev. apply in_map_iff. exists i. split; auto. apply in_seq. lia. }
    assert (Hnum : forall v, is_vertex cs v -> In (num P net n v) (points s2)).
    { intros v V. destruct (num_point v V) as (t & -> & L). replace (Z.of_nat (n + t + 1)) with (Z.of_nat (n + t) + 1)%Z by lia. apply Hp. lia. }
    rewrite accepted_app. destruct (lines_accepted (P:=P) (map (dline P net n) D) s2) as [A3 B3].
    { intros b e t I. apply in_map_iff in I as (i & E & Hi). apply In_D in Hi. destruct (dline_spec i Hi) as (u & v & _ & Vu & Vv & E'). rewrite E' in E. injection E as <- <- <-.
      split; auto. split; auto. cbn [s2 afters fold_left after lines seen_scene drawn_scene]. rewrite map_rev. intros Q. apply in_rev in Q. rewrite !map_map in Q. apply in_map_iff in Q as (j & E & J). apply in_seq in J. cbn in E. unfold line_number in E. lia. }
    { rewrite map_map. apply (FinFun.Injective_map_NoDup (f := line_number n)); [intros a b; unfold line_number; lia|apply NoDup_D]. }
    split; [exact A3|]. rewrite B3. set (s3 := with_lines s2 _). rewrite accepted_app. split; [split; exact I|]. set (s4 := afters s3 [Synchronize]).
    assert (V0 : forall v, is_vertex cs v -> visible s4 0 (num P net n v)). { intros v V. cbn. apply (Hnum v V). }
    assert (V1 : forall i, drawn P net i -> visible s4 1 (line_number n i)).
    { intros i Hi. cbn [s4 afters fold_left after visible entity s3 with_lines lines]. rewrite map_app. apply in_app_iff. left. rewrite map_rev. apply -> in_rev. rewrite !map_map.
      apply in_map_iff. exists i. split; [|apply In_D; auto]. destruct (dline_spec i Hi) as (u & v & _ & _ & _ & ->). reflexivity. }
    assert (V2 : visible s4 2 (face_number n)) by (cbn; auto).
    assert (Pn : Forall (passive (P:=P)) (net_groups0 P net n vs ls ++ net_groupsx P net n ftags vs ++ net_groups1 P net n ls)).
    { apply Forall_forall. intros c Hc. rewrite !in_app_iff in Hc. unfold net_groups0, net_groupsx, net_groups1 in Hc. rewrite !in_map_iff in Hc. destruct Hc as [(i & <- & _)|[(i & <- & _)|(i & <- & _)]]; intros s; reflexivity. }
    rewrite accepted_app. split.
    { apply passive_accepted; auto. intros c Hc. rewrite !in_app_iff in Hc. unfold net_groups0, net_groupsx, net_groups1 in Hc. rewrite !in_map_iff in Hc. destruct Hc as [(i & <- & _)|[(v & <- & Hv)|(i & <- & Hi)]]; cbn [in_order].
      - intros x Hx. apply in_map_iff in Hx as (v & <- & Hv). apply filter_In in Hv as [Hv _]. apply V0. apply HV. auto.
      - intros x [<-|[]]. apply filter_In in Hv as [Hv _]. apply V0. apply HV. auto.
      - intros x Hx. apply in_map_iff in Hx as (j & <- & Hj). apply V1. apply HL in Hi as (k & K & ->). apply (pieces_drawn P isect near segs shift net C F k j K Hj). }
    rewrite passive_afters by exact Pn. rewrite accepted_app. split; [split; exact I|]. set (s5 := afters s4 [Synchronize]).
    assert (W : forall d x, visible s5 d x <-> visible s4 d x) by (intros d x; cbn; destruct d as [|[|[|[|d]]]]; reflexivity).
    rewrite accepted_app. split; [|split; exact I]. apply passive_accepted.
    { repeat constructor. apply Forall_forall. intros c Hc. apply in_map_iff in Hc as (t & <- & _). intros s. reflexivity. }
    intros c [<-|[<-|Hc]].
    - cbn [in_order]. split; [|apply W; auto]. intros x Hx. apply in_flat_map in Hx as (i & Hi & Hx). apply In_D in Hi. destruct (dline_spec i Hi) as (u & v & _ & Vu & Vv & E). rewrite E in Hx. apply W. destruct Hx as [<-|[<-|[]]]; auto.
    - cbn [in_order]. split; [|apply W; auto]. intros x Hx. apply in_map_iff in Hx as (i & <- & Hi). apply W, V1, In_D. auto.
    - apply in_map_iff in Hc as (t & <- & Ht). apply in_map_iff in Ht as (i & <- & Hi). cbn [in_order]. apply W, V1, In_D. auto.
  Qed.

  (** what is called *)
  Lemma call_cases c : In c r <->
    (exists p t, c = AddPoint p t /\ numbered (pts ++ n_points P net) p t) \/ (exists i, i < n /\ c = line_call (side_line n i)) \/
    c = AddCurveLoop (map Z.of_nat (seq n n)) (face_number n) \/ c = AddPlaneSurface [face_number n] (face_number n) \/ c = Synchronize \/
    (exists i, i < n /\ c = side_group n T i) \/ c = AddPhysicalGroup 2 [face_number n] (tag_z (dget T KArea)) \/
    (exists i, drawn P net i /\ c = line_call (dline P net n i)) \/ In c (net_groups0 P net n vs ls) \/ In c (net_groupsx P net n ftags vs) \/ In c (net_groups1 P net n ls) \/
    c = Embed 0 (flat_map (fun i => let '(b, e, _) := dline P net n i in [b; e]) D) 2 (face_number n) \/
    c = Embed 1 (map (line_number n) D) 2 (face_number n) \/ (exists i, drawn P net i /\ c = SetTransfiniteCurve (line_number n i) 10).
  Proof.
    unfold all_calls, polygon_drawn. rewrite !in_app_iff. cbn [In]. rewrite !map_map, !in_map_iff.
    assert (E1 : In c (point_calls (pts ++ n_points P net) 0) <-> exists p t, c = AddPoint p t /\ numbered (pts ++ n_points P net) p t).
    { split; [|intros (p & t & -> & H); apply In_point_calls; auto]. intros H. assert (X : exists p t, c = AddPoint p t) by (unfold point_calls in H; apply in_map_iff in H as (x & <- & _); eauto).
      destruct X as (p & t & ->). exists p, t. split; auto. apply In_point_calls. auto. }
    assert (E2 : (exists x, line_call (side_line n x) = c /\ In x (seq 0 n)) <-> exists i, i < n /\ c = line_call (side_line n i)).
    { split; [intros (i & <- & I); apply in_seq in I; exists i; split; [lia|auto]|intros (i & I & ->); exists i; split; auto; apply in_seq; lia]. }
    assert (E3 : In c groups <-> exists i, i < n /\ c = side_group n T i).
    { split; [intros I; apply (Permutation_in _ Pg), in_map_iff in I as (i & <- & I); apply in_seq in I; exists i; split; [lia|auto]|].
      intros (i & I & ->). apply (Permutation_in _ (Permutation_sym Pg)), in_map. apply in_seq. lia. }
    assert (E4 : (exists x, line_call (dline P net n x) = c /\ In x D) <-> exists i, drawn P net i /\ c = line_call (dline P net n i)).
    { split; intros (i & A & B); exists i; [apply In_D in B|apply In_D in A]; auto. }
    assert (E5 : (exists x, SetTransfiniteCurve (line_number n x) 10 = c /\ In x D) <-> exists i, drawn P net i /\ c = SetTransfiniteCurve (line_number n i) 10).
    { split; intros (i & A & B); exists i; [apply In_D in B|apply In_D in A]; auto. }
    rewrite E1, E2, E3, E4, E5. intuition (subst; auto 20).
  Qed.
  Lemma in_groups0 c : In c (net_groups0 P net n vs ls) <-> exists k, k < N /\ c = AddPhysicalGroup 0 (map (num P net n) (filter (fun v => (gc_tag (cellat P net v) =? (Z.of_nat k + shift))%Z) vs)) (Z.of_nat k + shift)%Z.
  Proof.
    unfold net_groups0. rewrite in_map_iff. split.
    - intros (i & <- & Hi). apply HL in Hi as (k & K & ->). exists k. rewrite line_tag by auto. auto.
    - intros (k & K & ->). exists (3 * k + 2). rewrite line_tag by auto. split; auto. apply HL. eauto.
  Qed.
  Lemma in_groups1 c : In c (net_groups1 P net n ls) <-> exists k l, k < N /\ fracture_group P n net k l /\ c = AddPhysicalGroup 1 l (Z.of_nat k + shift)%Z.
  Proof.
    unfold net_groups1. rewrite in_map_iff. split.
    - intros (i & <- & Hi). apply HL in Hi as (k & K & ->). exists k. eexists. rewrite line_tag by auto. split; auto. split; [|reflexivity].
      destruct (line_at P isect near segs shift net C F k K) as (imm & L & _). eexists. split; [exact L|]. unfold pieces_of. rewrite (cellat_nth P net _ _ L). reflexivity.
    - intros (k & l & K & (c' & Hc & ->) & ->). exists (3 * k + 2). rewrite line_tag by auto. split; [|apply HL; eauto]. unfold pieces_of. rewrite (cellat_nth P net _ _ Hc). destruct (gc_imm c'); reflexivity.
  Qed.
  Lemma vnum v z : vertex_number P n net v z <-> is_vertex cs v /\ z = num P net n v.
  Proof. apply (vertex_number_spec P isect near segs shift net C F n). Qed.
  Lemma tagged_spec p z : tagged P n net p z <-> exists v, In v vs /\ gc_tag (cellat P net v) = p /\ z = num P net n v.
  Proof.
    unfold tagged. split.
    - intros (v & c & Hc & Ht & Hz). apply vnum in Hz as [V ->]. exists v. rewrite (cellat_nth P net _ _ Hc). split; auto. apply HV. auto.
    - intros (v & Hv & Ht & ->). apply HV in Hv. destruct Hv as (c & Hc & Dc). exists v, c. rewrite (cellat_nth P net _ _ Hc) in Ht. split; auto. split; auto. apply vnum. split; auto. exists c. auto.
  Qed.
  Lemma in_groupsx c : In c (net_groupsx P net n ftags vs) <-> exists z p, ~ fracture_tag N shift p /\ tagged P n net p z /\ c = AddPhysicalGroup 0 [z] p.
  Proof.
    unfold net_groupsx. rewrite in_map_iff. split.
    - intros (v & <- & Hv). apply filter_In in Hv as [Hv Q]. apply negb_true_iff in Q. apply memb_notIn in Q. rewrite In_ftags in Q. exists (num P net n v), (gc_tag (cellat P net v)). split; auto. split; auto. apply tagged_spec. eauto.
    - intros (z & p & Hp & Ht & ->). apply tagged_spec in Ht as (v & Hv & <- & ->). exists v. split; auto. apply filter_In. split; auto. apply negb_true_iff, memb_notIn. rewrite In_ftags. auto.
  Qed.

  Lemma fractured_described : fractured_polygon P T pts N shift net r.
  Proof.
    assert (HTa : forall p, tag_z (dget T KArea) = p <-> dget T KArea = Some p). { intros p. destruct HT as [H _]. destruct (dget T KArea); [cbn; split; congruence|congruence]. }
    assert (HTb : forall i p, i < n -> tag_z (dget T (KBc i)) = p <-> dget T (KBc i) = Some p). { intros i p I. destruct HT as [_ H]. specialize (H i I). destruct (dget T (KBc i)); [cbn; split; congruence|congruence]. }
    assert (G0 : forall d l p, In (AddPhysicalGroup d l p) r <-> (exists i, i < n /\ @AddPhysicalGroup P d l p = side_group n T i) \/ @AddPhysicalGroup P d l p = AddPhysicalGroup 2 [face_number n] (tag_z (dget T KArea)) \/
      In (AddPhysicalGroup d l p) (net_groups0 P net n vs ls) \/ In (AddPhysicalGroup d l p) (net_groupsx P net n ftags vs) \/ In (AddPhysicalGroup d l p) (net_groups1 P net n ls)).
    { intros d l p. rewrite call_cases. split; [|intuition].
      intros [(p' & t & E & _)|[(i & _ & E)|[E|[E|[E|[H|[H|[(i & _ & E)|[H|[H|[H|[E|[E|(i & _ & E)]]]]]]]]]]]]]; auto 10; try discriminate E. }
    constructor.
    - intros p t. rewrite call_cases. split; [|intros H; left; eauto].
      intros [(p' & t' & E & H)|[(i & _ & E)|[E|[E|[E|[(i & _ & E)|[E|[(i & _ & E)|[H|[H|[H|[E|[E|(i & _ & E)]]]]]]]]]]]]]; try discriminate E.
      + injection E as -> ->. auto.
      + apply in_groups0 in H as (? & ? & E). discriminate E.
      + apply in_groupsx in H as (? & ? & ? & ? & E). discriminate E.
      + apply in_groups1 in H as (? & ? & ? & ? & E). discriminate E.
    - intros b e t. rewrite call_cases. split.
      + intros [(p' & t' & E & H)|[(i & I & E)|[E|[E|[E|[(i & _ & E)|[E|[(i & H & E)|[H|[H|[H|[E|[E|(i & _ & E)]]]]]]]]]]]]]; try discriminate E.
        * left. exists i. unfold line_call, side_line in E. injection E as -> -> ->. auto.
        * right. destruct (dline_spec i H) as (u & v & Eb & Vu & Vv & E'). rewrite E' in E. injection E as -> -> ->. destruct H as (c & Hc & Dc & Im). exists i, c, u, v.
          rewrite (cellat_nth P net _ _ Hc) in Eb. do 4 (split; auto). split; [apply vnum; auto|]. split; [apply vnum; auto|auto].
        * apply in_groups0 in H as (? & ? & E). discriminate E.
        * apply in_groupsx in H as (? & ? & ? & ? & E). discriminate E.
        * apply in_groups1 in H as (? & ? & ? & ? & E). discriminate E.
      + intros [(i & I & -> & -> & ->)|(i & c & u & v & Hc & Dc & Im & Eb & Hu & Hv & ->)]; [right; left; exists i; auto|].
        do 7 right. left. exists i. assert (H : drawn P net i) by (exists c; auto). split; auto. destruct (dline_spec i H) as (u' & v' & Eb' & _ & _ & ->).
        rewrite (cellat_nth P net _ _ Hc), Eb in Eb'. injection Eb' as <- <-. apply vnum in Hu as [_ ->]. apply vnum in Hv as [_ ->]. reflexivity.
    - intros l t. rewrite call_cases. split.
      + intros [(p' & t' & E & H)|[(i & I & E)|[E|[E|[E|[(i & _ & E)|[E|[(i & H & E)|[H|[H|[H|[E|[E|(i & _ & E)]]]]]]]]]]]]]; try discriminate E.
        * injection E as -> ->. auto.
        * apply in_groups0 in H as (? & ? & E). discriminate E.
        * apply in_groupsx in H as (? & ? & ? & ? & E). discriminate E.
        * apply in_groups1 in H as (? & ? & ? & ? & E). discriminate E.
      + intros [-> ->]. auto 10.
    - intros l t. rewrite call_cases. split.
      + intros [(p' & t' & E & H)|[(i & I & E)|[E|[E|[E|[(i & _ & E)|[E|[(i & H & E)|[H|[H|[H|[E|[E|(i & _ & E)]]]]]]]]]]]]]; try discriminate E.
        * injection E as -> ->. auto.
        * apply in_groups0 in H as (? & ? & E). discriminate E.
        * apply in_groupsx in H as (? & ? & ? & ? & E). discriminate E.
        * apply in_groups1 in H as (? & ? & ? & ? & E). discriminate E.
      + intros [-> ->]. auto 10.
    - intros l t. rewrite !call_cases. split;
      (intros [(p' & t' & E & H)|[(i & I & E)|[E|[E|[E|[(i & _ & E)|[E|[(i & H & E)|[H|[H|[H|[E|[E|(i & _ & E)]]]]]]]]]]]]]; try discriminate E;
       [apply in_groups0 in H as (? & ? & E); discriminate E|
        apply in_groupsx in H as (? & ? & ? & ? & E); discriminate E|apply in_groups1 in H as (? & ? & ? & ? & E); discriminate E]).
    - intros d l p Hd. rewrite G0, in_groups0, in_groupsx, in_groups1. unfold polygon_group. split.
      + intros [(i & I & E)|[E|[(k & K & E)|[(z & q & _ & _ & E)|(k & l' & K & Fg & E)]]]].
        * injection E as -> -> E. left. left. exists i. rewrite <- HTb by auto. auto.
        * injection E as -> -> E. left. right. rewrite <- HTa. auto.
        * injection E as -> _ _. lia.
        * injection E as -> _ _. lia.
        * injection E as -> -> ->. right. split; auto. eauto.
      + intros [[(i & I & -> & -> & E)|(-> & -> & E)]|(-> & k & K & Fg & ->)].
        * left. exists i. split; auto. unfold side_group. apply HTb in E; auto. rewrite E. auto.
        * right. left. apply HTa in E. rewrite E. auto.
        * do 4 right. eauto.
    - intros l p H. apply G0 in H. rewrite in_groups0, in_groupsx, in_groups1 in H. destruct H as [(i & I & E)|[E|[(k & K & E)|[(z & q & Hq & Ht & E)|(k & l' & K & Fg & E)]]]]; try discriminate E.
      + injection E as -> ->. left. split; [exists k; auto|]. intros z. rewrite tagged_spec, in_map_iff. split.
        * intros (v & <- & Hv). apply filter_In in Hv as [Hv Q]. apply Z.eqb_eq in Q. eauto.
        * intros (v & Hv & Q & ->). exists v. split; auto. apply filter_In. split; auto. apply Z.eqb_eq. auto.
      + injection E as -> ->. right. split; auto. eauto.
    - intros p (k & K & ->). eexists. apply G0. right. right. left. apply in_groups0. eauto.
    - intros p z Hp Ht. apply G0. do 3 right. left. apply in_groupsx. eauto.
    - do 2 eexists. rewrite !call_cases. split; [do 11 right; left; reflexivity|do 12 right; left; reflexivity].
    - intros d l d' t. rewrite call_cases.
      intros [(p' & t' & E & H)|[(i & I & E)|[E|[E|[E|[(i & _ & E)|[E|[(i & H & E)|[H|[H|[H|[E|[E|(i & _ & E)]]]]]]]]]]]]]; try discriminate E.
      + apply in_groups0 in H as (? & ? & E). discriminate E.
      + apply in_groupsx in H as (? & ? & ? & ? & E). discriminate E.
      + apply in_groups1 in H as (? & ? & ? & ? & E). discriminate E.
      + assert (El : l = flat_map (fun i => let '(b, e, _) := dline P net n i in [b; e]) D) by congruence. injection E as -> _ -> ->. split; auto. split; auto. left. split; auto. intros z. rewrite El, in_flat_map. split.
        * intros (i & Hi & Hz). apply In_D in Hi. destruct (dline_spec i Hi) as (u & v & _ & Vu & Vv & E). rewrite E in Hz. destruct Hz as [<-|[<-|[]]]; [exists u|exists v]; apply vnum; auto.
        * intros (v & Hv). apply vnum in Hv as [V ->]. destruct (vertex_end P isect near segs shift net near_refl C F v V) as (i & c & Hc & Dc & Im & Hb).
          assert (H : drawn P net i) by (exists c; auto). exists i. split; [apply In_D; auto|]. destruct (dline_spec i H) as (u & w & Eb & _ & _ & ->). rewrite (cellat_nth P net _ _ Hc) in Eb. rewrite Eb in Hb. destruct Hb as [<-|[<-|[]]]; simpl; auto.
      + injection E as -> -> -> ->. split; auto. split; auto. right. split; auto. intros z. rewrite in_map_iff. split; [intros (i & <- & Hi); apply In_D in Hi; eauto|intros (i & Hi & ->); exists i; split; auto; apply In_D; auto].
    - intros t k. rewrite call_cases. split.
      + intros [(p' & t' & E & H)|[(i & I & E)|[E|[E|[E|[(i & _ & E)|[E|[(i & H & E)|[H|[H|[H|[E|[E|(i & H & E)]]]]]]]]]]]]]; try discriminate E.
        * apply in_groups0 in H as (? & ? & E). discriminate E.
        * apply in_groupsx in H as (? & ? & ? & ? & E). discriminate E.
        * apply in_groups1 in H as (? & ? & ? & ? & E). discriminate E.
        * injection E as -> ->. eauto.
      + intros (-> & i & Hi & ->). do 13 right. eauto.
  Qed.
End Fractured.
