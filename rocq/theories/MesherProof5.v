(** * Lemmas about the descriptions handed to gmsh: distinct groups; boxes *)
From Coq Require Import List Arith ZArith Bool Lia Sorted.
From Verif Require Import Base BaseProof ShapeModel ShapeSpec ShapeProof DomProof BoxProof Box3Proof MemberProof TagModel TagProof
  MesherModel MesherSpec MesherProof MesherProof2 MesherProof3 MesherProof4.
Import ListNotations.

Lemma NoDup_join {A} (l l' : list A) : NoDup l -> NoDup l' -> (forall x, In x l -> In x l' -> False) -> NoDup (l ++ l').
Proof.
  induction l as [|x l IH]; simpl; intros N N' H; auto. inversion N; subst. constructor; [|apply IH; auto; intros y Hy; apply H; auto].
  rewrite in_app_iff. intros [?|?]; [contradiction|]. apply (H x); auto.
Qed.
Lemma NoDup_parts {A} (l l' : list A) : NoDup (l ++ l') -> NoDup l /\ NoDup l' /\ forall x, In x l -> In x l' -> False.
Proof.
  induction l as [|x l IH]; simpl; intros N; [split; [constructor|split; [auto|intros ? []]]|]. inversion N as [|? ? Nx N']; subst.
  destruct (IH N') as (H1 & H2 & H3). rewrite in_app_iff in Nx. split; [constructor; tauto|]. split; auto.
  intros y [<-|Hy] Hy'; [tauto|eauto].
Qed.

Section Keys.
  Context {P : Type}.
  Notation call := (call P).
  Notation shape := (shape P).
  Lemma keys_app (l l' : list call) : group_keys (l ++ l') = group_keys l ++ group_keys l'.
  Proof. apply flat_map_app. Qed.
  Lemma phys_app (l l' : list shape) : phys_list (l ++ l') = phys_list l ++ phys_list l'.
  Proof. apply flat_map_app. Qed.
  Definition keyed (allowed : nat -> Prop) (f : shape -> res (list call)) : Prop := forall s q, f s = Ok q ->
    NoDup (group_keys q) /\ forall d p, In (d, p) (group_keys q) -> s_phys s = Some p /\ allowed d.
  Lemma keyed_each allowed f : keyed allowed f -> forall l r, for_each f l = Ok r -> NoDup (phys_list l) ->
    NoDup (group_keys r) /\ forall d p, In (d, p) (group_keys r) -> In p (phys_list l) /\ allowed d.
  Proof.
    intros K. unfold for_each. induction l as [|s l IH]; intros r E N; simpl in E.
    - injection E as <-. split; [constructor|intros d p []].
    - apply bind_Ok in E as (rs & E & E2). apply bind_Ok in E as (q & Eq & E). apply bind_Ok in E as (qs & Eqs & E). injection E as <-. injection E2 as <-.
      simpl. rewrite keys_app. simpl in N. apply NoDup_parts in N as (N1 & N2 & N3).
      destruct (IH (concat qs)) as (H1 & H2); [rewrite Eqs; reflexivity|exact N2|]. destruct (K s q Eq) as (H3 & H4). split.
      + apply NoDup_join; auto. intros [d p] I1 I2. apply H4 in I1 as [I1 _]. apply H2 in I2 as [I2 _]. apply (N3 p); auto. rewrite I1. left. auto.
      + intros d p I. apply in_app_iff in I as [I|I].
        * apply H4 in I as [I A]. split; auto. apply in_app_iff. left. rewrite I. left. auto.
        * apply H2 in I as [I A]. split; auto. apply in_app_iff. auto.
  Qed.
  Lemma no_keys (f : shape -> res (list call)) l r : (forall s q c, f s = Ok q -> In c q -> forall d tags p, c <> AddPhysicalGroup d tags p) -> for_each f l = Ok r -> group_keys r = [].
  Proof.
    intros H E. assert (G : forall c, In c r -> forall d tags p, c <> AddPhysicalGroup d tags p).
    { intros c I. destruct (for_each_In _ _ _ _ E I) as (s & q & _ & Eq & Iq). eauto. }
    clear - G. induction r as [|c r IH]; simpl; auto. rewrite IH by (intros c' I; apply G; right; auto).
    destruct c; auto. exfalso. eapply (G _ (or_introl eq_refl)). reflexivity.
  Qed.
End Keys.

Section Once.
  Context {P : Type}.
  Notation call := (call P).
  Notation shape := (shape P).
  Notation domain := (domain P).
  Variable D : domain.
  Variable dimension : nat.
  Variable graph : option (digraph (Z * Z)).
  Notation num := (conformal_num D).

  Lemma keyed_vertex : keyed (P:=P) (fun d => d = 0) (group_vertex num).
  Proof.
    intros s q. unfold group_vertex. destruct (s_phys s) as [p|]; [|intros E; injection E as <-; split; [constructor|intros d p []]].
    destruct (some (immersed s)); intros E; injection E as <-; (split; [repeat constructor; auto|]); intros d p' [E|[]]; injection E as <- <-; auto.
  Qed.
  Lemma keyed_curve : keyed (P:=P) (fun d => d = 0 \/ d = 1) (group_curve num dimension graph).
  Proof.
    intros s q. unfold group_curve. destruct (s_phys s) as [p|]; [|intros E; injection E as <-; split; [constructor|intros d p []]].
    assert (N0 : NoDup (group_keys ([] : list call)) /\ forall d p', In (d, p') (group_keys ([] : list call)) -> Some p = Some p' /\ (d = 0 \/ d = 1)) by (split; [constructor|intros d p' []]).
    assert (N1 : forall t, NoDup (group_keys ([AddPhysicalGroup 1 t p] : list call)) /\ forall d p', In (d, p') (group_keys ([AddPhysicalGroup 1 t p] : list call)) -> Some p = Some p' /\ (d = 0 \/ d = 1)).
    { intros t. split; [repeat constructor; auto|]. intros d p' [E|[]]. injection E as <- <-. auto. }
    assert (N2 : forall t t' a b, a <> b -> a = 0 \/ a = 1 -> b = 0 \/ b = 1 -> NoDup (group_keys ([AddPhysicalGroup a t p; AddPhysicalGroup b t' p] : list call)) /\
      forall d p', In (d, p') (group_keys ([AddPhysicalGroup a t p; AddPhysicalGroup b t' p] : list call)) -> Some p = Some p' /\ (d = 0 \/ d = 1)).
    { intros t t' a b Nab Ha Hb. split; [repeat constructor; auto; intros [E|[]]; injection E; auto|]. intros d p' [E|[E|[]]]; injection E as <- <-; auto. }
    destruct (some (immersed s)).
    - intros E; injection E as <-. destruct (1 <? dimension)%nat; auto.
    - destruct dimension as [|[|[|n]]]; try (intros E; injection E as <-; auto; fail).
      + destruct graph as [g|]; [|discriminate]. destruct (predecessors _ _) as [ps|]; simpl; [|discriminate].
        destruct (some ps); intros E; injection E as <-; auto.
  Qed.
  Lemma keyed_cell k : keyed (P:=P) (fun d => d = k) (group_cell num k).
  Proof.
    intros s q. unfold group_cell. destruct (s_phys s) as [p|]; intros E; injection E as <-; (split; [repeat constructor; auto|]); intros d p' I; [|destruct I].
    destruct I as [E|[]]; injection E as <- <-; auto.
  Qed.

  Lemma groups_once pclose fuel r : (forall x, pclose x x = true) -> 1 <= fuel -> complete dimension D -> graph_ready dimension graph D ->
    transfer_occ pclose fuel dimension graph D = Ok r ->
    NoDup (phys_list (nth 0 D [] ++ nth 1 D [])) -> NoDup (phys_list (nth 2 D [])) -> NoDup (phys_list (nth 3 D [])) -> NoDup (group_keys r).
  Proof.
    intros R Hf C G E N01 N2 N3. rewrite phys_app in N01. apply NoDup_parts in N01 as (N0 & N1 & N01).
    destruct (transfer_parts pclose fuel D dimension graph R Hf C G) as (pts & lns & sfs & vls & g0 & g1 & g2 & g3 & e2 & e3 & (E0 & E1 & E2 & E3) & (F0 & F1 & F2 & F3 & F4 & F5) & E' & _).
    rewrite E in E'. assert (Er : r = entity_calls pts lns sfs vls ++ g0 ++ g1 ++ g2 ++ g3 ++ [Synchronize] ++ e2 ++ e3) by congruence. subst r. clear E'.
    unfold entity_calls. rewrite !keys_app.
    assert (Z0 : group_keys pts = []) by (refine (no_keys _ _ _ _ E0); intros s q c Eq Ic d tags p; destruct (vertex_call D s q c Eq Ic) as (_ & ? & _ & ->); discriminate).
    assert (Z1 : group_keys lns = []) by (refine (no_keys _ _ _ _ E1); intros s q c Eq Ic d tags p; destruct (line_call D s q c Eq Ic) as (_ & _ & ? & ? & _ & _ & ->); discriminate).
    assert (Z2 : group_keys sfs = []) by (refine (no_keys _ _ _ _ E2); intros s q c Eq Ic d tags p; destruct (surface_call pclose fuel D s q c Eq Ic) as (_ & [(? & ->)| ->]); discriminate).
    assert (Z3 : group_keys vls = []) by (refine (no_keys _ _ _ _ E3); intros s q c Eq Ic d tags p; destruct (volume_call D s q c Eq Ic) as (_ & ? & _ & [->| ->]); discriminate).
    assert (Z4 : group_keys e2 = []) by (refine (no_keys _ _ _ _ F4); intros s q c Eq Ic d tags p; destruct (esurface_call D s q c Eq Ic) as (_ & [(? & -> & _)|[(? & -> & _)|(? & _ & ->)]]); discriminate).
    assert (Z5 : group_keys e3 = []) by (refine (no_keys _ _ _ _ F5); intros s q c Eq Ic d tags p; destruct (evolume_call D s q c Eq Ic) as (_ & [(? & -> & _)|[(? & -> & _)|(? & _ & ->)]]); discriminate).
    rewrite Z0, Z1, Z2, Z3, Z4, Z5. simpl. rewrite !app_nil_r.
    destruct (keyed_each _ _ keyed_vertex _ _ F0 N0) as (A0 & B0). destruct (keyed_each _ _ keyed_curve _ _ F1 N1) as (A1 & B1).
    destruct (keyed_each _ _ (keyed_cell 2) _ _ F2 N2) as (A2 & B2). destruct (keyed_each _ _ (keyed_cell 3) _ _ F3 N3) as (A3 & B3).
    apply NoDup_join; [exact A0|apply NoDup_join; [exact A1|apply NoDup_join; auto|]|].
    - intros [d p] I2 I3. destruct (B2 _ _ I2) as [_ H2]. destruct (B3 _ _ I3) as [_ H3]. lia.
    - intros [d p] I1 I2. apply in_app_iff in I2. destruct (B1 _ _ I1) as [_ H1]. destruct I2 as [I2|I2]; [destruct (B2 _ _ I2) as [_ H2]|destruct (B3 _ _ I2) as [_ H2]]; lia.
    - intros [d p] I0 I1. rewrite !in_app_iff in I1. destruct (B0 _ _ I0) as [P0 H0]. destruct I1 as [I1|[I2|I2]];
        [destruct (B1 _ _ I1) as [P1 H1]; eauto|destruct (B2 _ _ I2) as [_ H2]; lia|destruct (B3 _ _ I2) as [_ H2]; lia].
  Qed.
End Once.

(** ** Boxes *)
Section Boxes.
  Context {P : Type}.
  Notation shape := (shape P).
  Variable pclose : P -> P -> bool.
  Variable argsort : list Z -> list nat.
  Hypothesis argsort_ok : is_argsort argsort.
  Hypothesis close_refl : forall x, pclose x x = true.

  Lemma box_2D_complete (points : list P) area bc p0 : 2 <= length points -> let n := length points in
    complete 2 [map (bvertex points p0) (seq 0 n); map (bedge points bc p0) (seq 0 n) ++ [bwire points bc p0]; [bface points area bc p0]].
  Proof.
    intros big n. set (D := [map (bvertex points p0) (seq 0 n); map (bedge points bc p0) (seq 0 n) ++ [bwire points bc p0]; [bface points area bc p0]]).
    assert (V : forall i, i < n -> elementary D 0 (bvertex points p0 i)).
    { intros i Hi. split; [apply (in_map (bvertex points p0)), in_seq; lia|]. split; reflexivity. }
    assert (Ed : forall i, i < n -> elementary D 1 (bedge points bc p0 i)).
    { intros i Hi. split; [|split; reflexivity]. simpl. apply in_app_iff. left. apply in_map, in_seq. lia. }
    split; [reflexivity|]. split; [|split; [lia|split; [|split; [|split; [|split; [|split]]]]]].
    - repeat constructor; try discriminate.
      + destruct n as [|m] eqn:En; [unfold n in En; lia|]. discriminate.
      + intros H. apply app_eq_nil in H as [_ H]. discriminate.
    - intros d s I. destruct d as [|[|[|d]]]; simpl in I.
      + apply in_map_iff in I as (i & <- & _). split; [reflexivity|]. simpl. lia.
      + apply in_app_iff in I as [I|[<-|[]]]; [apply in_map_iff in I as (i & <- & _)|]; (split; [reflexivity|]); simpl; lia.
      + destruct I as [<-|[]]. split; [reflexivity|]. simpl. lia.
      + destruct d; destruct I.
    - intros d. destruct d as [|[|[|d]]]; simpl.
      + rewrite map_map. simpl. apply FinFun.Injective_map_NoDup; [intros a b; apply Nat2Z.inj|apply seq_NoDup].
      + rewrite map_app, map_map. cbn [map s_tag bedge bwire].
        replace (map (fun x => Z.of_nat x) (seq 0 n) ++ [Z.of_nat (length points)]) with (map Z.of_nat (seq 0 (S n))) by (rewrite seq_S, map_app; reflexivity).
        apply FinFun.Injective_map_NoDup; [intros a b; apply Nat2Z.inj|apply seq_NoDup].
      + repeat constructor. auto.
      + destruct d; constructor.
    - apply Forall_forall. intros v I. apply in_map_iff in I as (i & <- & _). split; [discriminate|intros j []].
    - apply Forall_forall. intros c I. simpl in I. apply in_app_iff in I as [I|[<-|[]]].
      + apply in_map_iff in I as (i & <- & Hi). apply in_seq in Hi. split; [|split; [|split; [discriminate|intros j []]]].
        * unfold bedge. cbn [s_boundary]. fold n. intros v. destruct (Nat.eqb_spec (S i) n); intros [<-|[<-|[]]]; apply V; lia.
        * intros _. unfold bedge. cbn [s_boundary]. destruct (S i =? length points)%nat; simpl; lia.
      + split; [|split; [discriminate|split]].
        * intros v [<-|[<-|[]]]; apply V; unfold n; lia.
        * intros _. rewrite immersed_wire. fold n. destruct n as [|m] eqn:En; [unfold n in En; lia|]. discriminate.
        * intros i I. rewrite immersed_wire in I. apply in_map_iff in I as (j & <- & Hj). apply in_seq in Hj. apply Ed. unfold n. lia.
    - constructor; [|constructor]. split; [|intros c []]. exists (bwire points bc p0), []. split; [reflexivity|]. split.
      + split; [reflexivity|]. exists (bvertex points p0 0), (bedge points bc p0 0), (bvertex points p0 1).
        exists (map (fun j => (bedge points bc p0 j, bvertex points p0 (succ_of points j))) (seq 1 (n - 1))).
        assert (S0 : succ_of points 0 = 1) by (unfold succ_of; destruct (Nat.eqb_spec 1 (length points)); lia).
        assert (L0 : (bedge points bc p0 0, bvertex points p0 1) :: map (fun j => (bedge points bc p0 j, bvertex points p0 (succ_of points j))) (seq 1 (n - 1)) =
          map (fun j => (bedge points bc p0 j, bvertex points p0 (succ_of points j))) (seq 0 n)).
        { rewrite <- S0 at 1. replace (seq 0 n) with (0 :: seq 1 (n - 1)) by (assert (Hn : 2 <= n) by exact big; destruct n as [|m]; [lia|]; simpl; rewrite Nat.sub_0_r; reflexivity). reflexivity. }
        rewrite L0. rewrite immersed_wire, map_map. cbn [fst]. split; [reflexivity|]. split; [apply bwalk_gen; auto|]. split; [simpl; lia|].
        rewrite map_map. cbn [snd].
        replace (map (fun x => bvertex points p0 (succ_of points x)) (seq 0 n)) with (map (fun x => bvertex points p0 (succ_of points x)) (seq 0 (n - 1)) ++ [bvertex points p0 (succ_of points (n - 1))]).
        * rewrite last_last. unfold succ_of. replace (S (n - 1)) with n by (unfold n; lia). fold n. rewrite Nat.eqb_refl. reflexivity.
        * replace (seq 0 n) with (seq 0 (n - 1) ++ [n - 1]); [rewrite map_app; reflexivity|]. assert (Hn : 2 <= n) by exact big. destruct n as [|m]; [lia|]. rewrite (seq_S m 0). simpl. rewrite Nat.sub_0_r. reflexivity.
      + intros e I. rewrite immersed_wire in I. apply in_map_iff in I as (j & <- & Hj). apply in_seq in Hj. apply Ed. unfold n. lia.
    - constructor.
  Qed.
  Lemma box_2D_accepted fuel (points : list P) area bc : 2 <= length points -> 4 <= fuel -> exists D w g r, build_box_2D pclose argsort fuel points area bc = Ok (D, w, g) /\
    complete 2 D /\ transfer_occ pclose fuel 2 (Some g) D = Ok r /\ accepted nothing r.
  Proof.
    intros big Hf. assert (Hp : exists p : P, In p points) by (destruct points as [|p l]; [simpl in big; lia|exists p; left; auto]). destruct Hp as (p0 & _).
    destruct (box_2D_gen pclose argsort argsort_ok points area bc p0 big fuel close_refl Hf) as (o & g & E & _).
    pose proof (box_2D_complete points area bc p0 big) as C.
    destruct (transfer_lemma pclose fuel _ 2 (Some g) close_refl ltac:(lia) C ltac:(intros Q; discriminate Q)) as (r & Er & A).
    do 4 eexists. split; [exact E|]. split; [exact C|]. split; [exact Er|exact A].
  Qed.

  (** the interval *)
  Definition row (k : nat) (l : list P) : list shape := map (fun c => new_vertex (Z.of_nat (fst c)) (snd c)) (combine (seq k (length l)) l).
  Lemma row_tags l : forall k, map s_tag (row k l) = map Z.of_nat (seq k (length l)).
  Proof. unfold row. induction l as [|x l IH]; intros k; simpl; auto. f_equal. apply IH. Qed.
  Lemma row_In k l v : In v (row k l) -> exists i p, v = new_vertex (Z.of_nat i) p.
  Proof. intros I. apply in_map_iff in I as ([i p] & <- & _). eauto. Qed.
  Lemma box_1D_explicit fuel p q (rest : list P) line bc_0 bc_1 : 2 <= fuel ->
    let a := set_physical (new_vertex 0 p) bc_0 in let b := set_physical (new_vertex 1 q) bc_1 in
    let e := mk_shape Edge 0%Z line None [a; b] [] : shape in
    exists g, build_box_1D argsort fuel (p :: q :: rest) line bc_0 bc_1 = Ok ([a :: b :: row 2 rest; [e]], g) /\
      In (0, 0)%Z (g_nodes g) /\ forall x, ~ In (x, (0, 0)%Z) (g_edges g).
  Proof.
    intros Hf a b e.
    assert (D0 : append_shapes (empty_domain 1) (a :: b :: row 2 rest) = Ok [a :: b :: row 2 rest; []]).
    { rewrite (append_ok (empty_domain 1) _ 0); [reflexivity| |simpl; lia]. constructor; [reflexivity|]. constructor; [reflexivity|].
      apply Forall_forall. intros v Iv. destruct (row_In _ _ _ Iv) as (i & x & ->). reflexivity. }
    destruct (graph_lemma 1 fuel [a :: b :: row 2 rest; [e]] 1 [e] eq_refl) as (g & Eg & Ag & Ng).
    { constructor; [exact Hf|constructor]. }
    assert (Only : forall t, reach e t -> t = e).
    { intros t R. induction R as [|t c' R IH C' N]; auto. subst t. destruct C' as [[<-|[<-|[]]]|[]]; destruct N; reflexivity. }
    exists g. split; [|split].
    - unfold build_box_1D. cbn [length seq combine map fst snd get_at nth_error bind set_at].
      change (map (fun c => new_vertex (Z.of_nat (fst c)) (snd c)) (combine (seq 2 (length rest)) rest)) with (row 2 rest).
      change (Z.of_nat 0) with 0%Z. change (Z.of_nat 1) with 1%Z. fold a b. rewrite D0. cbn [bind].
      unfold new_edge. rewrite (boundary_id argsort argsort_ok).
      + cbn [bind]. rewrite (append_ok _ _ 1); [|repeat constructor|simpl; lia]. cbn [bind set_at nth app].
        unfold build_graph in *. exact (f_equal (fun r => do g <- r; Ok ([a :: b :: row 2 rest; [e]], g)) Eg).
      + repeat constructor; unfold admissible; simpl; lia.
      + repeat constructor.
    - apply Ng. left. exists (1, 0)%Z. left. apply Ag. exists e, e, a. split; [left; auto|]. split; [constructor|]. split; [left; left; auto|]. split; reflexivity.
    - intros x I. apply Ag in I as (s & t & c & [<-|[]] & R & C & _ & Q). apply Only in R. subst t. destruct C as [[<-|[<-|[]]]|[]]; discriminate Q.
  Qed.
  Lemma box_1D_accepted fuel (points : list P) line bc_0 bc_1 : 2 <= length points -> 2 <= fuel -> exists D g r, build_box_1D argsort fuel points line bc_0 bc_1 = Ok (D, g) /\
    complete 1 D /\ graph_ready 1 (Some g) D /\ (forall c, In c (nth 1 D []) -> ~ has_parent (Some g) c) /\ transfer_occ pclose fuel 1 (Some g) D = Ok r /\ accepted nothing r.
  Proof.
    intros big Hf. destruct points as [|p [|q rest]]; try (simpl in big; lia).
    destruct (box_1D_explicit fuel p q rest line bc_0 bc_1 Hf) as (g & E & N & Pa).
    set (a := set_physical (new_vertex 0 p) bc_0) in *. set (b := set_physical (new_vertex 1 q) bc_1) in *. set (e := mk_shape Edge 0%Z line None [a; b] [] : shape) in *.
    assert (C : complete 1 [a :: b :: row 2 rest; [e]]).
    { assert (V : forall v, In v (a :: b :: row 2 rest) -> s_kind v = Vertex /\ immersed v = [] /\ s_point v <> None /\ (0 <= s_tag v)%Z).
      { intros v [<-|[<-|I]]; [| |destruct (row_In _ _ _ I) as (i & x & ->)]; (split; [reflexivity|split; [reflexivity|split; [discriminate|simpl; lia]]]). }
      assert (El : forall v, In v (a :: b :: row 2 rest) -> elementary [a :: b :: row 2 rest; [e]] 0 v).
      { intros v I. destruct (V v I) as (K & Im & _). split; [exact I|]. split; [unfold s_composite; rewrite K; reflexivity|auto]. }
      split; [reflexivity|]. split; [repeat constructor; discriminate|]. split; [lia|]. split; [|split; [|split; [|split; [|split]]]]; try (constructor; fail).
      - intros d s I. destruct d as [|[|d]]; cbn [nth] in I.
        + destruct (V s I) as (K & _ & _ & T). split; auto. unfold s_dim. rewrite K. reflexivity.
        + destruct I as [<-|[]]. split; [reflexivity|simpl; lia].
        + destruct d; destruct I.
      - intros d. destruct d as [|[|d]]; cbn [nth].
        + cbn [map]. rewrite row_tags. change (s_tag a :: s_tag b :: map Z.of_nat (seq 2 (length rest))) with (map Z.of_nat (seq 0 (S (S (length rest))))).
          apply FinFun.Injective_map_NoDup; [intros x y; apply Nat2Z.inj|apply seq_NoDup].
        + repeat constructor. auto.
        + destruct d; constructor.
      - apply Forall_forall. intros v I. destruct (V v I) as (K & Im & Po & _). split; auto. rewrite Im. intros i [].
      - constructor; [|constructor]. split; [|split; [intros _; simpl; lia|split; [discriminate|intros i []]]].
        intros v [<-|[<-|[]]]; apply El; [left|right; left]; auto. }
    assert (G : graph_ready 1 (Some g) [a :: b :: row 2 rest; [e]]).
    { intros _. exists g. split; auto. intros c [<-|[]] _. exact N. }
    destruct (transfer_lemma pclose fuel _ 1 (Some g) close_refl ltac:(lia) C G) as (r & Er & A).
    exists [a :: b :: row 2 rest; [e]], g, r. split; [exact E|]. split; [exact C|]. split; [exact G|]. split; [|split; [exact Er|exact A]].
    intros c [<-|[]] (g' & x & Q & I). injection Q as <-. exact (Pa _ I).
  Qed.

  (** the solid *)
  Lemma box_3D_complete p0 p1 p2 p3 p4 p5 p6 p7 (rest : list P) solid bc :
    let W := wires p0 p1 p2 p3 p4 p5 p6 p7 in
    complete 3 [vertices p0 p1 p2 p3 p4 p5 p6 p7 rest; edges p0 p1 p2 p3 p4 p5 p6 p7 ++ W; faces p0 p1 p2 p3 p4 p5 p6 p7 bc ++ [shell p0 p1 p2 p3 p4 p5 p6 p7 bc]; [body p0 p1 p2 p3 p4 p5 p6 p7 solid bc]].
  Proof.
    intros W. set (D := [_; _; _; _]). set (VV := V p0 p1 p2 p3 p4 p5 p6 p7). set (ee := e p0 p1 p2 p3 p4 p5 p6 p7).
    assert (V8 : forall i, i < 8 -> elementary D 0 (VV i)).
    { intros i Hi. split; [|split; reflexivity]. simpl. do 8 (destruct i as [|i]; [tauto|]). lia. }
    assert (E12 : forall i, i < 12 -> elementary D 1 (ee i)).
    { intros i Hi. split; [simpl; do 12 (destruct i as [|i]; [tauto|]); lia|]. do 12 (destruct i as [|i]; [split; reflexivity|]). lia. }
    assert (Vs : forall v, In v (vertices p0 p1 p2 p3 p4 p5 p6 p7 rest) -> exists i x, v = new_vertex (Z.of_nat i) x).
    { intros v I. apply in_app_iff in I as [I|I]; [apply in_map_iff in I as (i & <- & _); unfold V; eauto|exact (row_In 8 rest v I)]. }
    split; [reflexivity|]. split; [repeat constructor; discriminate|]. split; [lia|]. split; [|split; [|split; [|split; [|split]]]].
    - intros d s I. destruct d as [|[|[|[|d]]]]; cbn [nth D] in I.
      + destruct (Vs s I) as (i & x & ->). split; [reflexivity|simpl; lia].
      + simpl in I. repeat (destruct I as [<-|I]; [split; [reflexivity|simpl; lia]|]). destruct I.
      + simpl in I. repeat (destruct I as [<-|I]; [split; [reflexivity|simpl; lia]|]). destruct I.
      + simpl in I. repeat (destruct I as [<-|I]; [split; [reflexivity|simpl; lia]|]). destruct I.
      + destruct d; destruct I.
    - intros d. destruct d as [|[|[|[|d]]]]; cbn [nth D].
      + unfold vertices. rewrite map_app. change (more rest) with (row 8 rest). rewrite row_tags.
        change (map s_tag (map (V p0 p1 p2 p3 p4 p5 p6 p7) (seq 0 8))) with (map Z.of_nat (seq 0 8)). rewrite <- map_app. change (seq 0 8 ++ seq 8 (length rest)) with (seq 0 8 ++ seq (0 + 8) (length rest)). rewrite <- seq_app.
        apply FinFun.Injective_map_NoDup; [intros x y; apply Nat2Z.inj|apply seq_NoDup].
      + change (NoDup (map Z.of_nat (seq 0 18))). apply FinFun.Injective_map_NoDup; [intros x y; apply Nat2Z.inj|apply seq_NoDup].
      + change (NoDup (map Z.of_nat (seq 18 7))). apply FinFun.Injective_map_NoDup; [intros x y; apply Nat2Z.inj|apply seq_NoDup].
      + repeat constructor. auto.
      + destruct d; constructor.
    - apply Forall_forall. intros v I. destruct (Vs v I) as (i & x & ->). split; [discriminate|intros j []].
    - assert (Ec : forall i a b, a < 8 -> b < 8 -> complete_curve D (E p0 p1 p2 p3 p4 p5 p6 p7 i a b)).
      { intros i a b Ha Hb. split; [intros v [<-|[<-|[]]]; apply V8; auto|]. split; [intros _; simpl; lia|]. split; [discriminate|intros j []]. }
      assert (Wc : forall k es v, v < 8 -> es <> [] -> Forall (fun i => i < 12) es -> immersed (Box3Proof.W p0 p1 p2 p3 p4 p5 p6 p7 k es v) = map ee es -> complete_curve D (Box3Proof.W p0 p1 p2 p3 p4 p5 p6 p7 k es v)).
      { intros k es v Hv He Fe Im. split; [intros x [<-|[]]; apply V8; auto|]. split; [discriminate|]. rewrite Im. split; [destruct es; [contradiction|discriminate]|].
        intros i I. apply in_map_iff in I as (j & <- & Hj). rewrite Forall_forall in Fe. apply E12, Fe, Hj. }
      cbn [nth D edges app W wires]. repeat (constructor; [first [apply Ec; lia|apply Wc; [lia|discriminate|repeat constructor; lia|reflexivity]]|]). constructor.
    - assert (Wv := V_vertex p0 p1 p2 p3 p4 p5 p6 p7).
      assert (Fc : forall k es a v l, immersed (nth k W (VV 0)) = map ee es -> s_kind (nth k W (VV 0)) = Wire -> Forall (fun i => i < 12) es ->
        es = map fst ((hd 0 es, v) :: l) -> walk (VV a) (map (fun p => (ee (fst p), VV (snd p))) ((hd 0 es, v) :: l)) -> a < v -> last (map snd ((hd 0 es, v) :: l)) a = a ->
        complete_surface D (F p0 p1 p2 p3 p4 p5 p6 p7 bc k)).
      { intros k es a v l Im K Fe Es Wk T La. unfold complete_surface. cbn [s_composite F]. split; [|intros c []]. exists (nth k W (VV 0)), []. split; [reflexivity|]. split.
        - split; [exact K|]. exists (VV a), (ee (hd 0 es)), (VV v), (map (fun p => (ee (fst p), VV (snd p))) l). split; [|split; [exact Wk|split]].
          + rewrite Im. rewrite Es at 1. cbn [map fst]. f_equal. rewrite !map_map. reflexivity.
          + simpl. lia.
          + cbn [map snd]. rewrite map_map. cbn [snd]. rewrite <- La at 2. cbn [map snd]. 
            change (VV v :: map (fun x : nat * nat => VV (snd x)) l) with (map (fun x : nat * nat => VV (snd x)) ((0, v) :: l)).
            rewrite <- (map_map snd VV). cbn [map snd]. change (VV v :: map VV (map snd l)) with (map VV (v :: map snd l)).
            clear. revert v. induction (map snd l) as [|y m IH]; intros v; [reflexivity|]. exact (IH y).
        - rewrite Im. intros i I. apply in_map_iff in I as (j & <- & Hj). rewrite Forall_forall in Fe. apply E12, Fe, Hj. }
      Ltac around k es a v l Fc VV := apply (Fc k es a v l); [reflexivity|reflexivity|repeat constructor; lia|reflexivity| |lia|reflexivity];
        cbn [map fst snd walk]; repeat split; try apply VV; try (intros Q; vm_compute in Q; discriminate Q); try (left; reflexivity); try (right; reflexivity).
      cbn [nth D faces seq map app].
      constructor; [around 0 [0; 1; 2; 3] 0 1 [(1, 2); (2, 3); (3, 0)] Fc Wv|].
      constructor; [around 1 [4; 5; 6; 7] 4 5 [(5, 6); (6, 7); (7, 4)] Fc Wv|].
      constructor; [around 2 [0; 9; 4; 8] 0 1 [(9, 5); (4, 4); (8, 0)] Fc Wv|].
      constructor; [around 3 [1; 10; 5; 9] 1 2 [(10, 6); (5, 5); (9, 1)] Fc Wv|].
      constructor; [around 4 [2; 11; 6; 10] 2 3 [(11, 7); (6, 6); (10, 2)] Fc Wv|].
      constructor; [around 5 [3; 11; 7; 8] 0 3 [(11, 7); (7, 4); (8, 0)] Fc Wv|].
      constructor; [reflexivity|constructor].
    - constructor; [|constructor]. cbn [complete_volume body s_composite]. split; [|intros c []]. exists (shell p0 p1 p2 p3 p4 p5 p6 p7 bc), [].
      split; [reflexivity|]. split; [discriminate|]. intros f I. simpl in I. repeat (destruct I as [<-|I]; [split; [simpl; tauto|split; [reflexivity|intros Q; lia]]|]). destruct I.
  Qed.
  Lemma box_3D_accepted fuel (points : list P) solid bc : 8 <= length points -> 6 <= fuel -> exists D ws g r, build_box_3D pclose argsort fuel points solid bc = Ok (D, ws, g) /\
    complete 3 D /\ transfer_occ pclose fuel 3 (Some g) D = Ok r /\ accepted nothing r.
  Proof.
    intros big Hf. do 8 (destruct points as [|? points]; [simpl in big; lia|]). rename points into rest.
    destruct (box_3D_gen pclose argsort argsort_ok p p0 p1 p2 p3 p4 p5 p6 rest solid bc fuel close_refl Hf) as (os & g & E & _).
    pose proof (box_3D_complete p p0 p1 p2 p3 p4 p5 p6 rest solid bc) as C. cbv zeta in C.
    destruct (transfer_lemma pclose fuel _ 3 (Some g) close_refl ltac:(lia) C ltac:(intros Q; discriminate Q)) as (r & Er & A).
    do 4 eexists. split; [exact E|]. split; [exact C|]. split; [exact Er|exact A].
  Qed.
End Boxes.

(** ** Together *)
Section Together.
  Context {P : Type}.
  Variable pclose : P -> P -> bool.
  Variable fuel : nat.
  Variable D : domain P.
  Variable dimension : nat.
  Variable graph : option (digraph (Z * Z)).
  Hypothesis close_refl : forall x, pclose x x = true.
  Hypothesis enough : 1 <= fuel.
  Hypothesis whole_domain : complete dimension D.
  Hypothesis ready : graph_ready dimension graph D.
  Variable r : list (call P).
  Hypothesis result : transfer_occ pclose fuel dimension graph D = Ok r.

  Lemma points_lines :
    (forall p t, In (AddPoint p t) r <-> exists v, elementary D 0 v /\ s_point v = Some p /\ t = number D 0 v) /\
    (forall b e t, In (AddLine b e t) r <-> exists c x y rest, elementary D 1 c /\ s_boundary c = x :: y :: rest /\
      t = number D 1 c /\ b = number D 0 x /\ e = number D 0 y).
  Proof. split; [exact (points_iff pclose fuel D dimension graph close_refl enough whole_domain ready r result)|exact (lines_iff pclose fuel D dimension graph close_refl enough whole_domain ready r result)]. Qed.
  Lemma cells :
    (forall f, elementary D 2 f -> exists w rest l, s_boundary f = w :: rest /\ map Z.abs l = map (number D 1) (immersed w) /\
      In (AddCurveLoop l (number D 2 f)) r /\ In (AddPlaneSurface [number D 2 f] (number D 2 f)) r) /\
    (forall l t, In (AddCurveLoop l t) r \/ In (AddPlaneSurface l t) r -> exists f, elementary D 2 f /\ t = number D 2 f) /\
    (forall b, elementary D 3 b -> exists shell rest, s_boundary b = shell :: rest /\
      In (AddSurfaceLoop (map (number D 2) (immersed shell)) (number D 3 b)) r /\ In (AddVolume [number D 3 b] (number D 3 b)) r) /\
    (forall l t, In (AddSurfaceLoop l t) r \/ In (AddVolume l t) r -> exists b, elementary D 3 b /\ t = number D 3 b).
  Proof.
    split; [exact (loops_of pclose fuel D dimension graph close_refl enough whole_domain ready r result)|].
    split; [exact (surfaces_only pclose fuel D dimension graph close_refl enough whole_domain ready r result)|].
    split; [exact (volumes_of pclose fuel D dimension graph close_refl enough whole_domain ready r result)|exact (volumes_only pclose fuel D dimension graph close_refl enough whole_domain ready r result)].
  Qed.
  Lemma groups :
    (forall d s p, In s (nth d D []) -> s_phys s = Some p -> counted dimension graph d s ->
      exists tags, In (AddPhysicalGroup d tags p) r /\ numbers D d (represents d s) tags) /\
    (forall d tags p, In (AddPhysicalGroup d tags p) r ->
      (exists s, In s (nth d D []) /\ s_phys s = Some p /\ counted dimension graph d s /\ numbers D d (represents d s) tags) \/
      (d = 0 /\ 2 <= dimension /\ exists c, In c (nth 1 D []) /\ s_phys c = Some p /\ counted dimension graph 1 c /\ numbers D 0 (loose_ends c) tags)).
  Proof. split; [exact (groups_cover pclose fuel D dimension graph close_refl enough whole_domain ready r result)|exact (groups_sound pclose fuel D dimension graph close_refl enough whole_domain ready r result)]. Qed.
  Lemma embedded :
    (forall f, elementary D 2 f -> exists t0 t1, In (Embed 0 t0 2 (number D 2 f)) r /\ numbers D 0 (in_surface_0 f) t0 /\
      In (Embed 1 t1 2 (number D 2 f)) r /\ numbers D 1 (in_surface_1 f) t1 /\ forall i, in_surface_1 f i -> In (SetTransfiniteCurve (number D 1 i) 10) r) /\
    (forall b, elementary D 3 b -> exists t1 t2, In (Embed 1 t1 3 (number D 3 b)) r /\ numbers D 1 (in_volume_1 b) t1 /\
      In (Embed 2 t2 3 (number D 3 b)) r /\ numbers D 2 (in_volume_2 b) t2 /\ forall i, in_volume_1 b i -> In (SetTransfiniteCurve (number D 1 i) 2) r) /\
    (forall d tags d' t, In (Embed d tags d' t) r -> exists s, elementary D d' s /\ t = number D d' s /\
      ((d = 0 /\ d' = 2 /\ numbers D 0 (in_surface_0 s) tags) \/ (d = 1 /\ d' = 2 /\ numbers D 1 (in_surface_1 s) tags) \/
       (d = 1 /\ d' = 3 /\ numbers D 1 (in_volume_1 s) tags) \/ (d = 2 /\ d' = 3 /\ numbers D 2 (in_volume_2 s) tags))).
  Proof.
    split; [exact (embed_cover_2 pclose fuel D dimension graph close_refl enough whole_domain ready r result)|].
    split; [exact (embed_cover_3 pclose fuel D dimension graph close_refl enough whole_domain ready r result)|exact (embed_sound pclose fuel D dimension graph close_refl enough whole_domain ready r result)].
  Qed.
End Together.

Lemma curves_lost {P} (pclose : P -> P -> bool) fuel D graph : (forall x, pclose x x = true) -> 1 <= fuel ->
  complete 3 D -> forall r, transfer_occ pclose fuel 3 graph D = Ok r ->
  forall tags p, In (AddPhysicalGroup 1 tags p) r -> exists c, In c (nth 1 D []) /\ s_phys c = Some p /\ immersed c <> [].
Proof.
  intros R Hf C r E tags p I.
  destruct (groups_sound pclose fuel D 3 graph R Hf C ltac:(intros Q; discriminate Q) r E 1 tags p I) as [(s & Is & Ps & Co & _)|[Q _]]; [|discriminate Q].
  exists s. split; auto. split; auto. intros N. destruct (Co eq_refl N) as [Q|[Q _]]; discriminate Q.
Qed.

Lemma mapM_error {A B} (f : A -> res B) e : forall l, (forall x, In x l -> (exists y, f x = Ok y) \/ f x = Err e) -> (exists x, In x l /\ f x = Err e) -> mapM f l = Err e.
Proof.
  induction l as [|x l IH]; intros H (y & I & E); [destruct I|]. simpl. destruct (H x (or_introl eq_refl)) as [(z & Ex)|Ex]; rewrite Ex; [|reflexivity]. cbn [bind].
  rewrite IH; [reflexivity| |]; [intros z' Iz; apply H; right; auto|]. destruct I as [->|I]; [congruence|eauto].
Qed.
Lemma no_graph {P} (pclose : P -> P -> bool) fuel D c : (forall x, pclose x x = true) -> 1 <= fuel ->
  complete 1 D -> In c (nth 1 D []) -> immersed c = [] -> s_phys c <> None ->
  transfer_occ pclose fuel 1 None D = Err AttributeError.
Proof.
  intros R Hf C Ic Nc Pc. destruct (built_phase pclose fuel D 1 R Hf C) as (pts & lns & sfs & vls & E0 & E1 & E2 & E3 & A & B).
  destruct (group_vertex_phase D 1 C _ B) as (g0 & F0 & _).
  destruct C as (LD & NE & Hd & _). unfold transfer_occ. rewrite (depth_full D 1 LD NE).
  rewrite (get_level D 1 0 LD) by lia. cbn [bind]. rewrite E0. cbn [bind]. rewrite (get_level D 1 1 LD) by lia. cbn [bind]. rewrite E1. cbn [bind Nat.ltb Nat.leb].
  unfold for_each at 1. cbn [mapM bind]. unfold for_each at 1. cbn [mapM bind]. rewrite F0. cbn [bind].
  assert (M : mapM (group_curve (conformal_num D) 1 None) (nth 1 D []) = Err AttributeError).
  { apply mapM_error.
    - intros x _. unfold group_curve. destruct (s_phys x); [|left; eauto]. destruct (some (immersed x)); [left; eauto|right; reflexivity].
    - exists c. split; auto. unfold group_curve. destruct (s_phys c); [|congruence]. rewrite Nc. reflexivity. }
  unfold for_each at 1. rewrite M. reflexivity.
Qed.
Lemma boxes {P} (pclose : P -> P -> bool) argsort : is_argsort argsort -> (forall x, pclose x x = true) ->
  (forall fuel (points : list P) line bc_0 bc_1, 2 <= length points -> 2 <= fuel -> exists D g r, build_box_1D argsort fuel points line bc_0 bc_1 = Ok (D, g) /\
    complete 1 D /\ graph_ready 1 (Some g) D /\ (forall c, In c (nth 1 D []) -> ~ has_parent (Some g) c) /\ transfer_occ pclose fuel 1 (Some g) D = Ok r /\ accepted nothing r) /\
  (forall fuel (points : list P) area bc, 2 <= length points -> 4 <= fuel -> exists D w g r, build_box_2D pclose argsort fuel points area bc = Ok (D, w, g) /\
    complete 2 D /\ transfer_occ pclose fuel 2 (Some g) D = Ok r /\ accepted nothing r) /\
  (forall fuel (points : list P) solid bc, 8 <= length points -> 6 <= fuel -> exists D ws g r, build_box_3D pclose argsort fuel points solid bc = Ok (D, ws, g) /\
    complete 3 D /\ transfer_occ pclose fuel 3 (Some g) D = Ok r /\ accepted nothing r).
Proof.
  intros A R. split; [|split].
  - intros. apply box_1D_accepted; auto.
  - intros. apply box_2D_accepted; auto.
  - intros. apply box_3D_accepted; auto.
Qed.
