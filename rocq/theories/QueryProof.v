(** * Lemmas: queries of a domain *)
From Coq Require Import List Arith ZArith Bool Lia.
From Verif Require Import Base BaseProof ShapeModel ShapeSpec ShapeProof MemberProof QueryModel QuerySpec.
Import ListNotations.

Lemma max_fold : forall l t, largest (fun x => In x (t :: l)) (fold_left Z.max l t).
Proof.
  induction l as [|y l IH]; intros t; cbn [fold_left].
  - split; [left; auto|]. intros x [<-|[]]. lia.
  - destruct (IH (Z.max t y)) as (H1 & H2). split.
    + destruct H1 as [H1|H1]; [|right; right; auto]. rewrite <- H1. destruct (Z.max_spec t y) as [(_ & ->)|(_ & ->)]; cbn; auto.
    + intros x [<-|[<-|H]].
      * specialize (H2 (Z.max t y) (or_introl eq_refl)). lia.
      * specialize (H2 (Z.max t y) (or_introl eq_refl)). lia.
      * apply H2. right. auto.
Qed.
Lemma max_of_spec l : match max_of l with Ok m => largest (fun x => In x l) m | Err e => e = ValueError /\ l = [] end.
Proof. destruct l as [|t l]; cbn; auto. apply max_fold. Qed.
Lemma in_domain_concat {P} (D : domain P) s : in_domain D s <-> In s (concat D).
Proof.
  rewrite in_concat. split; [intros (d & l & H & I); exists l; split; auto; eapply nth_error_In; eauto|].
  intros (l & H & I). apply In_nth_error in H as (d & H). exists d, l. auto.
Qed.
Lemma filter_selected {A} (f : A -> bool) (Q : A -> Prop) l : (forall x, In x l -> (f x = true <-> Q x)) -> selected Q l (filter f l).
Proof.
  induction l as [|x l IH]; intros H; cbn; [constructor|]. specialize (IH (fun y Hy => H y (or_intror Hy))). destruct (f x) eqn:E.
  - constructor; auto. apply H; auto. left. auto.
  - constructor 3; auto. intros q. apply H in q; [congruence|left; auto].
Qed.

Section Query.
  Context {P : Type}.
  Variable pclose : P -> P -> bool.

  Lemma max_tag_lemma (D : domain P) : match max_tag D with
    | Ok m => largest (fun t => exists s, in_domain D s /\ s_tag s = t) m
    | Err e => e = ValueError /\ forall s, ~ in_domain D s
    end.
  Proof.
    unfold max_tag. pose proof (max_of_spec (flat_map (map s_tag) D)) as M. 
    assert (Q : forall t, In t (flat_map (map s_tag) D) <-> exists s, in_domain D s /\ s_tag s = t).
    { intros t. rewrite in_flat_map. split.
      - intros (l & Hl & Ht). apply in_map_iff in Ht as (s & E & Hs). exists s. split; auto. apply in_domain_concat, in_concat. eauto.
      - intros (s & Hs & E). apply in_domain_concat, in_concat in Hs as (l & Hl & Hs). exists l. split; auto. apply in_map_iff. eauto. }
    destruct (max_of _) as [m|e].
    - destruct M as (M1 & M2). split; [apply Q; auto|]. intros x Hx. apply M2, Q. auto.
    - destruct M as (-> & E). split; auto. intros s Hs. assert (H : In (s_tag s) []) by (rewrite <- E; apply Q; eauto). destruct H.
  Qed.
  Lemma max_physical_lemma (D : domain P) : match max_physical_tag D with
    | Ok m => largest (fun p => exists s, in_domain D s /\ s_phys s = Some p) m
    | Err e => e = ValueError /\ forall s, in_domain D s -> s_phys s = None
    end.
  Proof.
    unfold max_physical_tag. pose proof (max_of_spec (flat_map (fun s => match s_phys s with Some p => [p] | None => [] end) (concat D))) as M.
    assert (Q : forall t, In t (flat_map (fun s => match s_phys s with Some p => [p] | None => [] end) (concat D)) <-> exists s, in_domain D s /\ s_phys s = Some t).
    { intros t. rewrite in_flat_map. split; intros (s & Hs & E); exists s; (split; [apply in_domain_concat; auto|]); (destruct (s_phys s); [|inversion E]); [destruct E as [->|[]]; auto|left; congruence]. }
    destruct (max_of _) as [m|e].
    - destruct M as (M1 & M2). split; [apply Q; auto|]. intros x Hx. apply M2, Q. auto.
    - destruct M as (-> & E). split; auto. intros s Hs. destruct (s_phys s) as [p|] eqn:Ep; auto. assert (H : In p []) by (rewrite <- E; apply Q; eauto). destruct H.
  Qed.
  Lemma same_tag_iff x y : same_tag x y = true <-> x = y.
  Proof. destruct x as [x|], y as [y|]; cbn; rewrite ?Z.eqb_eq; split; congruence. Qed.
  Lemma physical_lemma (D : domain P) p : selected (fun s => s_phys s = p) (concat D) (shapes_with_physical_tag D p).
  Proof. apply filter_selected. intros s _. apply same_tag_iff. Qed.

  Lemma close_all (l : list (shape P)) p : Forall (fun v => s_point v <> None) l ->
    exists c, mapM (fun v => match s_point v with Some q => Ok (pclose q p) | None => Err AttributeError end) l = Ok c /\
      selected (is_at pclose p) l (map snd (filter fst (combine c l))).
  Proof.
    intros F. induction F as [|v l H F IH]; [exists []; split; [reflexivity|constructor]|]. destruct IH as (c & E & S). destruct (s_point v) as [q|] eqn:Eq; [|tauto].
    exists (pclose q p :: c). cbn [mapM]. rewrite Eq. cbn [bind]. rewrite E. split; [reflexivity|]. cbn [combine filter fst]. destruct (pclose q p) eqn:C; cbn [map snd].
    - constructor; auto. exists q. auto.
    - constructor 3; auto. intros (q' & E1 & E2). congruence.
  Qed.
  Lemma selected_in {A} (Q : A -> Prop) l l' : selected Q l l' -> forall x, In x l' <-> In x l /\ Q x.
  Proof.
    intros S. induction S as [|x l l' H S IH|x l l' H S IH]; intros y; cbn [In]; [tauto| |]; rewrite IH.
    - split; [intros [<-|?]; tauto|tauto].
    - split; [tauto|intros ([<-|?] & ?); tauto].
  Qed.
  Lemma selected_one {A} (Q : A -> Prop) l v : selected Q l [v] -> exists l1 l2, l = l1 ++ v :: l2 /\ Q v /\ forall w, In w (l1 ++ l2) -> ~ Q w.
  Proof.
    intros S. remember [v] as r eqn:E. revert E. induction S as [|x l l' H S IH|x l l' H S IH]; intros E; [discriminate| |].
    - injection E as -> ->. exists [], l. split; auto. split; auto. intros w Hw q. apply (proj2 (selected_in _ _ _ S w)). auto.
    - destruct (IH E) as (l1 & l2 & -> & q & N). exists (x :: l1), l2. split; auto. split; auto. intros w [<-|Hw]; auto.
  Qed.
  Lemma selected_two {A} (Q : A -> Prop) l : forall v w r, selected Q l (v :: w :: r) -> exists i j, i < j /\ nth_error l i = Some v /\ nth_error l j = Some w /\ Q v /\ Q w.
  Proof.
    induction l as [|x l IH]; intros v w r Hs; inversion Hs as [|? ? ? Hq Sq|? ? ? Hq Sq]; subst.
    - assert (K : In w l /\ Q w) by (apply (selected_in _ _ _ Sq); left; auto). destruct K as (K1 & K2). apply In_nth_error in K1 as (j & K1). exists 0, (S j). cbn. repeat split; auto. lia.
    - destruct (IH _ _ _ Sq) as (i & j & L & E1 & E2 & Q1 & Q2). exists (S i), (S j). cbn. repeat split; auto. lia.
  Qed.
  Lemma lookup_lemma (D : domain P) vertices p : nth_error D 0 = Some vertices -> Forall (fun v => s_point v <> None) vertices ->
    match lookup_vertex pclose D p with
    | Ok (Some v) => exists l1 l2, vertices = l1 ++ v :: l2 /\ is_at pclose p v /\ forall w, In w (l1 ++ l2) -> ~ is_at pclose p w
    | Ok None => forall v, In v vertices -> ~ is_at pclose p v
    | Err e => e = AssertionError /\ exists i j v w, i < j /\ nth_error vertices i = Some v /\ nth_error vertices j = Some w /\ is_at pclose p v /\ is_at pclose p w
    end.
  Proof.
    intros H F. unfold lookup_vertex, get_at. rewrite H. cbn [bind]. destruct (close_all vertices p F) as (c & E & S). rewrite E. cbn [bind].
    destruct (map snd (filter fst (combine c vertices))) as [|v [|w r]].
    - intros v Hv q. apply (proj2 (selected_in _ _ _ S v)). auto.
    - apply selected_one. auto.
    - split; auto. destruct (selected_two _ _ _ _ _ S) as (i & j & K). exists i, j, v, w. auto.
  Qed.

  Lemma remove_fold dimension (g : digraph (Z * Z)) (Q : shape P -> Prop) : forall l acc, (forall v, In v l -> (memb (Z.of_nat dimension, s_tag v) (g_nodes g) = true <-> Q v)) ->
    exists kept, foldM (fun (acc : list (shape P)) v => match Some g with None => Err AttributeError | Some g => Ok (if memb (Z.of_nat dimension, s_tag v) (g_nodes g) then acc ++ [v] else acc) end) l acc = Ok (acc ++ kept) /\
      selected Q l kept.
  Proof.
    induction l as [|v l IH]; intros acc H; cbn [foldM bind]; [exists []; rewrite app_nil_r; split; [auto|constructor]|].
    destruct (memb (Z.of_nat dimension, s_tag v) (g_nodes g)) eqn:E.
    - destruct (IH (acc ++ [v]) (fun w Hw => H w (or_intror Hw))) as (kept & K & S). exists (v :: kept). rewrite <- app_assoc in K. split; auto. constructor; auto. apply (H v); [left; auto|auto].
    - destruct (IH acc (fun w Hw => H w (or_intror Hw))) as (kept & K & S). exists kept. split; auto. constructor 3; auto. intros q. apply (H v) in q; [congruence|left; auto].
  Qed.
  Lemma remove_lemma dimension fuel (D : domain P) shapes vertices : 0 < dimension -> nth_error D dimension = Some shapes -> nth_error D 0 = Some vertices -> Forall (fun s => depth s <= fuel) shapes ->
    Forall (fun s => 0 < s_dim s) shapes ->
    exists g kept, build_graph dimension fuel D None = Ok g /\ remove_vertex dimension (Some g) D = Ok (set_at D 0 kept) /\ selected (used shapes) vertices kept /\
      build_graph dimension fuel (set_at D 0 kept) None = Ok g /\ remove_vertex dimension (Some g) (set_at D 0 kept) = Ok (set_at D 0 kept).
  Proof.
    intros Ld Hd H0 Hf Hk. destruct (graph_arg dimension fuel D None dimension shapes (or_intror (conj eq_refl eq_refl)) Hd Hf) as (g & E & Ge & Gn).
    assert (RD : forall s t, In s shapes -> reach s t -> 0 < s_dim t).
    { intros s t Hs R. destruct R as [|t c R C D0]; [|lia]. rewrite Forall_forall in Hk. auto. }
    assert (Q : forall v, memb (Z.of_nat dimension, s_tag v) (g_nodes g) = true <-> used shapes v).
    { intros v. rewrite memb_In, Gn. split.
      - intros [(y & [K|K])|(Z & _)]; [| |lia]; apply Ge in K as (s & t & c & Hs & R & C & Ea & Eb).
        + injection Ea as Ea _. specialize (RD s t Hs R). lia.
        + injection Eb as Eb Et. exists s, t, c. repeat split; auto. lia.
      - intros (s & t & c & Hs & R & C & Dc & T). left. exists (Z.of_nat dimension - Z.of_nat (s_dim t), s_tag t)%Z. right. apply Ge. 
        exists s, t, c.
        repeat (split; auto). unfold s_index. rewrite Dc, T. f_equal. lia. }
    exists g. unfold remove_vertex, get_at. rewrite H0. cbn [bind]. destruct (remove_fold dimension g (used shapes) vertices [] (fun v _ => Q v)) as (kept & K & S). exists kept. split; auto. rewrite K. cbn [bind app]. split; auto. split; auto.
    assert (L0 : 0 < length D) by (apply nth_error_Some; congruence).
    split.
    - rewrite <- E. unfold build_graph, get_at. destruct D as [|d0 D]; [discriminate|]. destruct dimension as [|d]; [lia|]. reflexivity.
    - assert (H0' : nth_error (set_at D 0 kept) 0 = Some kept) by (destruct D; [discriminate|reflexivity]). rewrite H0'. cbn [bind].
      destruct (remove_fold dimension g (fun _ => True) kept []) as (kept' & K' & S').
      { intros v Hv. apply (selected_in _ _ _ S) in Hv as (_ & Hv). apply Q in Hv. split; auto. }
      rewrite K'. cbn [bind app]. replace kept' with kept. { f_equal. destruct D; reflexivity. }
      clear - S'. induction S' as [|x l l' _ S IH|x l l' H S IH]; [auto|f_equal; auto|tauto].
  Qed.
End Query.

Lemma refresh_lemma {P} (pclose : P -> P -> bool) fuel (D : domain P) edges : (forall x, pclose x x = true) -> nth_error D 1 = Some edges ->
  (forall w, In w edges -> s_composite w = true -> exists a l, path_of w a l) ->
  exists wires os, refresh_wires pclose (S fuel) D = Ok os /\ selected (fun w => s_composite w = true) edges wires /\
    Forall2 (fun w o => forall a l, path_of w a l -> follows a l o) wires os.
Proof.
  intros Hr He Hw. exists (filter s_composite edges). unfold refresh_wires, get_at. rewrite He. cbn [bind].
  assert (Hf : forall w, In w (filter s_composite edges) -> exists a l, path_of w a l) by (intros w H; apply filter_In in H as (H1 & H2); auto).
  assert (S0 : selected (fun w => s_composite w = true) edges (filter s_composite edges)) by (apply filter_selected; intros; tauto).
  revert Hf S0. generalize (filter s_composite edges) as ws. intros ws Hf S0.
  assert (K : exists os, mapM (orient_immersed_edges pclose (S fuel)) ws = Ok os /\ Forall2 (fun w o => forall a l, path_of w a l -> follows a l o) ws os).
  { clear S0. induction ws as [|w ws IH]; [exists []; split; [reflexivity|constructor]|].
    destruct IH as (os & E & F); [intros; apply Hf; right; auto|]. destruct (Hf w (or_introl eq_refl)) as (a & l & Hi & Hwalk & e & v & l' & -> & Ht).
    destruct (wire_lemma pclose fuel w a e v l' Hr Hi Hwalk Ht) as (o & Eo & Lo & Ho & _).
    exists (o :: os). cbn [mapM]. rewrite Eo. cbn [bind]. rewrite E. split; [reflexivity|]. constructor; auto.
    intros a2 l2 (Hi2 & Hwalk2 & e2 & v2 & l2' & -> & Ht2). destruct (wire_lemma pclose fuel w a2 e2 v2 l2' Hr Hi2 Hwalk2 Ht2) as (o2 & Eo2 & Lo2 & Ho2 & _).
    assert (o2 = o) as -> by congruence. split; auto. }
  destruct K as (os & E & F). exists os. auto.
Qed.

Lemma remove_early {P} dimension (D : domain P) v vertices : nth_error D 0 = Some (v :: vertices) -> remove_vertex dimension None D = Err AttributeError.
Proof. intros H. unfold remove_vertex, get_at. rewrite H. reflexivity. Qed.
