(** * The circulation of an internal boundary ends on every mesh *)
From Coq Require Import List Arith ZArith Bool Lia.
From Verif Require Import Base BaseProof MeshModel GraphModel CutModel LoopModel CircProof.
Import ListNotations.

Section Ends.
  Variables (cs : cells) (tags : list Z) (seed : vid) (g : digraph vid).
  Hypothesis Hnd : NoDup (g_edges g).

  Definition move (s : vid * vid) : res (vid * vid) :=
    do pc <- predecessors g (snd s);
    do neighs <- filterM (on_skin cs tags) pc;
    if negb (length neighs =? 2) then Err AssertionError else
    match filter (fun u => negb (eqb u (fst s))) neighs with
    | [fcell] =>
        do sc <- successors g fcell;
        match filter (fun u => negb (eqb u (snd s))) sc with [next] => Ok (fcell, next) | _ => Err AssertionError end
    | _ => Err AssertionError
    end.
  Lemma next_move fuel s : next_d_m_1 (S fuel) cs tags seed (fst s) (snd s) g =
    do s' <- move s; if eqb seed (snd s') then Ok true else next_d_m_1 fuel cs tags seed (fst s') (snd s') g.
  Proof.
    cbn [next_d_m_1]. unfold move. destruct (predecessors g (snd s)); cbn [bind]; auto. destruct (filterM _ _) as [n|]; cbn [bind]; auto. destruct (negb _); auto.
    destruct (filter _ n) as [|f [|? ?]]; auto. destruct (successors g f) as [sc|]; cbn [bind]; auto. destruct (filter _ sc) as [|x [|? ?]]; auto.
  Qed.
  Lemma filterM_err {A} (f : A -> res bool) l e : filterM f l = Err e -> exists x, f x = Err e.
  Proof.
    induction l as [|x r IH]; cbn [filterM]; [discriminate|]. destruct (f x) as [b|e'] eqn:E; cbn [bind]; [|intros Q; exists x; congruence]. destruct (filterM f r) as [r'|e']; cbn [bind]; [discriminate|]. intros Q. apply IH. exact Q.
  Qed.
  Lemma filterM_in {A} (f : A -> res bool) l l' : filterM f l = Ok l' -> NoDup l -> NoDup l' /\ forall x, In x l' <-> In x l /\ f x = Ok true.
  Proof.
    revert l'. induction l as [|x r IH]; cbn [filterM]; intros l' E N; [injection E as <-; split; [constructor|simpl; tauto]|].
    apply bind_Ok in E as (b & Fx & E). apply bind_Ok in E as (r' & Fr & E). injection E as <-. inversion N as [|? ? N1 N2]; subst. destruct (IH r' Fr N2) as [M P]. destruct b.
    - split; [constructor; auto; rewrite P; tauto|]. intros y. simpl. rewrite P. split; [intros [-> |H]; tauto|]. tauto.
    - split; auto. intros y. rewrite P. simpl. split; [tauto|]. intros [[-> |H] Q]; [congruence|tauto].
  Qed.
  Lemma cell_of_err x e : cell_of cs x = Err e -> e <> RecursionError.
  Proof. unfold cell_of, get_at. destruct (nth_error cs x) as [[c|]|]; cbn; intros E; congruence. Qed.
  Lemma move_err s e : move s = Err e -> e <> RecursionError.
  Proof.
    unfold move, predecessors, successors. intros E. destruct (memb (snd s) (g_nodes g)); cbn [bind] in E; [|congruence].
    destruct (filterM _ _) as [n|e'] eqn:F; cbn [bind] in E.
    - destruct (negb _); [congruence|]. destruct (filter _ n) as [|f [|? ?]]; try congruence. destruct (memb f _); cbn [bind] in E; [|congruence].
      destruct (filter _ (map _ _)) as [|x [|? ?]]; congruence.
    - injection E as ->. apply filterM_err in F as (x & F). unfold on_skin in F. destruct (cell_of cs (snd x)) as [c|e'] eqn:C; cbn [bind] in F; [discriminate|]. apply cell_of_err in C. congruence.
  Qed.
  Lemma preds_ok v l : predecessors g v = Ok l -> NoDup l /\ forall u, In u l <-> In (u, v) (g_edges g).
  Proof.
    unfold predecessors. intros E. destruct (memb v (g_nodes g)); [injection E as <-|discriminate]. split.
    - apply NoDup_map_inj_in; [|apply NoDup_filter; auto]. intros [a b] [c d]; rewrite !filter_In; simpl; rewrite !eqb_true; intuition congruence.
    - intros u. rewrite in_map_iff. split; [intros ([a b] & E1 & E2); rewrite filter_In in E2; simpl in *; rewrite eqb_true in E2; destruct E2; subst; auto|].
      intros H. exists (u, v). split; auto. rewrite filter_In. simpl. rewrite eqb_refl. auto.
  Qed.
  Lemma succs_ok u l : successors g u = Ok l -> NoDup l /\ forall v, In v l <-> In (u, v) (g_edges g).
  Proof.
    unfold successors. intros E. destruct (memb u (g_nodes g)); [injection E as <-|discriminate]. split.
    - apply NoDup_map_inj_in; [|apply NoDup_filter; auto]. intros [a b] [c d]; rewrite !filter_In; simpl; rewrite !eqb_true; intuition congruence.
    - intros v. rewrite in_map_iff. split; [intros ([a b] & E1 & E2); rewrite filter_In in E2; simpl in *; rewrite eqb_true in E2; destruct E2; subst; auto|].
      intros H. exists (u, v). split; auto. rewrite filter_In. simpl. rewrite eqb_refl. auto.
  Qed.
  Lemma only_in {A} `{EqDec A} (l : list A) y x : NoDup l -> filter (fun u => negb (eqb u y)) l = [x] -> x <> y /\ In x l /\ forall z, In z l -> z = x \/ z = y.
  Proof.
    intros N E. assert (I : forall z, In z l /\ z <> y <-> z = x). { intros z. rewrite <- (eqb_false z y), <- negb_true_iff. rewrite <- filter_In with (f := fun u => negb (eqb u y)). rewrite E. simpl. intuition. }
    destruct (proj2 (I x) eq_refl). split; auto. split; auto. intros z Hz. destruct (eq_dec z y) as [-> |Hn]; auto. left. apply I. auto.
  Qed.
  (** A successful step: [f], [w] and the other ends are determined by each other. *)
  Lemma move_ok c v f w : move (c, v) = Ok (f, w) ->
    f <> c /\ w <> v /\ In (f, v) (g_edges g) /\ In (f, w) (g_edges g) /\
    (forall z, In (f, z) (g_edges g) <-> z = w \/ z = v) /\
    (forall z, (In (z, v) (g_edges g) /\ on_skin cs tags z = Ok true) <-> z = f \/ z = c).
  Proof.
    unfold move. cbn [fst snd]. intros E. apply bind_Ok in E as (pc & P & E). apply bind_Ok in E as (n & F & E). destruct (length n =? 2) eqn:L; cbn [negb] in E; [|discriminate]. apply Nat.eqb_eq in L.
    apply preds_ok in P as [Np P]. destruct (filterM_in _ _ _ F Np) as [Nn I]. destruct (filter _ n) as [|f' [|? ?]] eqn:Fc; try discriminate.
    apply bind_Ok in E as (sc & Q & E). apply succs_ok in Q as [Ns Q]. destruct (filter _ sc) as [|w' [|? ?]] eqn:Fw; try discriminate. injection E as -> ->.
    destruct (only_in n c f Nn Fc) as (A1 & A2 & A3). destruct (only_in sc v w Ns Fw) as (B1 & B2 & B3).
    assert (Ef : In (f, v) (g_edges g)). { apply P. apply I. exact A2. }
    assert (In c n). { destruct (in_dec eq_dec c n); auto. exfalso. assert (T : length n <= 1); [|lia]. apply (NoDup_incl_length (l' := [f])); auto. intros z Hz. destruct (A3 z Hz) as [-> | ->]; [simpl; auto|contradiction]. }
    split; auto. split; auto. split; auto. split; [apply Q; auto|]. split.
    - intros z. rewrite <- Q. split; [apply B3|intros [-> | ->]; auto]. apply Q. auto.
    - intros z. rewrite <- P, <- I. split; [apply A3|intros [-> | ->]; auto].
  Qed.
  Lemma move_inj s1 s2 s : move s1 = Ok s -> move s2 = Ok s -> s1 = s2.
  Proof.
    destruct s1 as [c1 v1], s2 as [c2 v2], s as [f w]. intros A B. apply move_ok in A as (A1 & A2 & A3 & A4 & A5 & A6). apply move_ok in B as (B1 & B2 & B3 & B4 & B5 & B6).
    assert (v1 = v2). { destruct (proj1 (B5 v1) A3); congruence. } subst v2.
    assert (c1 = c2). { destruct (proj1 (B6 c1)); [apply A6; auto|congruence|congruence]. } congruence.
  Qed.
  (** the states passed by a run *)
  Fixpoint passed (fuel : nat) (s : vid * vid) : list (vid * vid) :=
    match fuel with 0 => [] | S f => match move s with Ok s' => if eqb seed (snd s') then [] else s' :: passed f s' | Err _ => [] end end.
  Lemma runs_out fuel : forall s, next_d_m_1 fuel cs tags seed (fst s) (snd s) g = Err RecursionError -> length (passed fuel s) = fuel.
  Proof.
    induction fuel as [|f IH]; intros s E; auto. rewrite next_move in E. cbn [passed]. destruct (move s) as [s'|e] eqn:M; cbn [bind] in E.
    - destruct (eqb seed (snd s')); [discriminate|]. cbn [length]. f_equal. apply IH. auto.
    - apply move_err in M. congruence.
  Qed.
  Lemma passed_in fuel : forall s s', In s' (passed fuel s) -> In s' (g_edges g) /\ snd s' <> seed /\ exists r, (r = s \/ In r (passed fuel s)) /\ move r = Ok s'.
  Proof.
    induction fuel as [|f IH]; intros s s' I; [contradiction|]. cbn [passed] in I |- *. destruct (move s) as [t|] eqn:M; [|contradiction]. destruct (eqb seed (snd t)) eqn:Q; [contradiction|]. apply eqb_false in Q.
    destruct I as [<-|I].
    - split; [destruct s, t; apply move_ok in M; tauto|]. split; auto. exists s. auto.
    - destruct (IH _ _ I) as (A & B & r & R & Mr). split; auto. split; auto. exists r. split; auto. right. simpl. destruct R as [-> |R]; auto.
  Qed.
  Fixpoint iter (n : nat) (s : vid * vid) : option (vid * vid) := match n with 0 => Some s | S k => match iter k s with Some t => match move t with Ok t' => Some t' | Err _ => None end | None => None end end.
  Lemma iter_S n : forall s, iter (S n) s = match move s with Ok t => iter n t | Err _ => None end.
  Proof.
    induction n as [|n IH]; intros s; [reflexivity|]. change (iter (S (S n)) s) with (match iter (S n) s with Some t => match move t with Ok t' => Some t' | Err _ => None end | None => None end). rewrite IH. destruct (move s); reflexivity.
  Qed.
  Lemma passed_iter fuel : forall s i t, nth_error (passed fuel s) i = Some t -> iter (S i) s = Some t.
  Proof.
    induction fuel as [|f IH]; intros s i t E; [destruct i; discriminate|]. cbn [passed] in E. rewrite iter_S. destruct (move s) as [s'|] eqn:M; [|destruct i; discriminate]. destruct (eqb seed (snd s')); [destruct i; discriminate|].
    destruct i as [|i]; [injection E as <-; reflexivity|]. cbn [nth_error] in E. apply IH. auto.
  Qed.
  Lemma iter_cancel s t : forall i j, iter i s = Some t -> iter (i + j) s = Some t -> iter j s = Some s.
  Proof.
    intros i. revert t. induction i as [|i IH]; intros t j A B; [injection A as <-; exact B|]. cbn [plus] in B. cbn [iter] in A, B.
    destruct (iter i s) as [a|] eqn:Ea; [|discriminate]. destruct (iter (i + j) s) as [b|] eqn:Eb; [|discriminate].
    destruct (move a) as [a'|] eqn:Ma; [|discriminate]. destruct (move b) as [b'|] eqn:Mb; [|discriminate]. injection A as ->. injection B as ->. apply (IH a j); auto. rewrite Eb. f_equal. eapply move_inj; eauto.
  Qed.
  Lemma passed_NoDup fuel s0 : snd s0 = seed -> NoDup (passed fuel s0).
  Proof.
    intros H0. apply NoDup_nth_error. intros i j Li E. assert (Hi := Li). apply nth_error_Some in Hi. destruct (nth_error (passed fuel s0) i) as [t|] eqn:Ei; [|congruence]. symmetry in E.
    assert (Lj : j < length (passed fuel s0)) by (apply nth_error_Some; congruence).
    assert (G : forall a b, nth_error (passed fuel s0) a = Some t -> nth_error (passed fuel s0) b = Some t -> a < b < length (passed fuel s0) -> False).
    { intros a b Ha Hb L. apply passed_iter in Ha. assert (Hb' := passed_iter _ _ _ _ Hb). assert (R : iter (b - a) s0 = Some s0). { apply (iter_cancel s0 t (S a) (b - a) Ha). replace (S a + (b - a)) with (S b) by lia. auto. }
      destruct (b - a) as [|k] eqn:K; [lia|]. destruct (nth_error (passed fuel s0) k) as [u|] eqn:Ek; [|apply nth_error_None in Ek; lia]. assert (Q := passed_iter _ _ _ _ Ek). rewrite R in Q. injection Q as <-.
      apply nth_error_In in Ek. apply passed_in in Ek. tauto. }
    destruct (lt_eq_lt_dec i j) as [[L|L]|L]; auto; exfalso; [apply (G i j)|apply (G j i)]; auto.
  Qed.
  Lemma next_ends fuel s0 : snd s0 = seed -> length (g_edges g) < fuel -> next_d_m_1 fuel cs tags seed (fst s0) (snd s0) g <> Err RecursionError.
  Proof.
    intros H0 L E. apply runs_out in E. assert (T : length (passed fuel s0) <= length (g_edges g)); [|lia]. apply NoDup_incl_length; [apply passed_NoDup; auto|]. intros s' I. apply passed_in in I. tauto.
  Qed.
End Ends.
Lemma next_more cs tags seed g k : forall f s, next_d_m_1 f cs tags seed (fst s) (snd s) g <> Err RecursionError ->
  next_d_m_1 (f + k) cs tags seed (fst s) (snd s) g = next_d_m_1 f cs tags seed (fst s) (snd s) g.
Proof.
  induction f as [|f IH]; intros s N; [exfalso; apply N; reflexivity|]. change (S f + k) with (S (f + k)). rewrite !next_move in *. destruct (move _ _ _ s) as [s'|]; cbn [bind] in *; auto. destruct (eqb seed (snd s')); auto.
Qed.
Lemma mapM_err_in {A B} (f : A -> res B) l e : mapM f l = Err e -> exists x, In x l /\ f x = Err e.
Proof.
  induction l as [|x r IH]; cbn [mapM]; [discriminate|]. destruct (f x) as [b|e'] eqn:E; cbn [bind]; [|intros Q; exists x; simpl; split; [auto|congruence]].
  destruct (mapM f r) as [r'|e']; cbn [bind]; [discriminate|]. intros Q. destruct IH as (y & I & Y); [exact Q|]. exists y. simpl. auto.
Qed.
Lemma ends_lemma gfuel cs tags g : build_graph_on_materials gfuel cs 1 1 = Ok g ->
  let N := S (length (g_edges g)) in
  circulate_internal_bc gfuel N cs tags <> Err RecursionError /\
  forall k, circulate_internal_bc gfuel (N + k) cs tags = circulate_internal_bc gfuel N cs tags.
Proof.
  intros G N. assert (Hnd : NoDup (g_edges g)). { unfold build_graph_on_materials, graph_of in G. apply bind_Ok in G as (l & _ & G). apply bind_Ok in G as (p & _ & G). injection G as <-. apply NoDup_uniq. }
  unfold circulate_internal_bc. destruct tags as [|t0 rest]; cbn [first bind]; [split; [discriminate|auto]|].
  destruct (all_cells cs) as [l|e] eqn:A; cbn [bind].
  2:{ split; auto. intros Q. injection Q as ->. apply mapM_err_in in A as ([c|] & _ & A); discriminate. }
  destruct (mapM (cell_of cs) _) as [fa|e] eqn:F; cbn [bind].
  2:{ split; auto. intros Q. injection Q as ->. apply mapM_err_in in F as (x & _ & F). apply cell_of_err in F. congruence. }
  destruct (mapM (fun c => get_at (c_sub c) 0) _) as [subs|e] eqn:M; cbn [bind].
  2:{ split; auto. intros Q. injection Q as ->. apply mapM_err_in in M as (x & _ & M). unfold get_at in M. destruct (nth_error _ 0); discriminate. }
  destruct (filterM _ (np_unique (concat subs))) as [fv|e] eqn:V; cbn [bind].
  2:{ split; auto. intros Q. injection Q as ->. apply filterM_err in V as (x & V). destruct (cell_of cs x) eqn:C; cbn [bind] in V; [discriminate|]. apply cell_of_err in C. congruence. }
  rewrite G. cbn [bind]. destruct fv as [|v0 fv]; cbn [first bind]; [split; [discriminate|auto]|].
  destruct (cell_of cs v0) as [c0|e] eqn:C; cbn [bind].
  2:{ split; auto. apply cell_of_err in C. congruence. }
  destruct (predecessors g (c_dim c0, v0)) as [pc|e] eqn:P; cbn [bind].
  2:{ split; auto. unfold predecessors in P. destruct (memb _ _); [discriminate|]. congruence. }
  destruct (filterM (on_skin cs (t0 :: rest)) pc) as [sk|e] eqn:K; cbn [bind].
  2:{ split; auto. intros Q. injection Q as ->. apply filterM_err in K as (x & K). unfold on_skin in K. destruct (cell_of cs (snd x)) eqn:D; cbn [bind] in K; [discriminate|]. apply cell_of_err in D. congruence. }
  destruct sk as [|s0 sk]; cbn [first bind]; [split; [discriminate|auto]|].
  assert (E := next_ends cs (t0 :: rest) (c_dim c0, v0) g Hnd N (s0, (c_dim c0, v0)) eq_refl ltac:(unfold N; lia)). cbn [fst snd] in E.
  split; auto. intros k. apply (next_more cs (t0 :: rest) (c_dim c0, v0) g k N (s0, (c_dim c0, v0))). auto.
Qed.
Lemma from_domain_lemma gfuel fuel dim immersed cs b : circulate_internal_bc_from_domain gfuel fuel dim immersed cs = Ok b ->
  b = true /\ dim = 2 /\ exists tags, immersed = [tags] /\ (tags = [] \/ circulate_internal_bc gfuel fuel cs tags = Ok true).
Proof.
  unfold circulate_internal_bc_from_domain. destruct (dim =? 2) eqn:D; cbn [negb]; [|discriminate]. apply Nat.eqb_eq in D. destruct immersed as [|tags [|? ?]]; try discriminate. destruct (length tags =? 0) eqn:L.
  - intros E. injection E as <-. split; auto. split; auto. exists tags. split; auto. left. apply Nat.eqb_eq in L. destruct tags; [auto|discriminate].
  - intros E. assert (B := circulate_true _ _ _ _ _ E). subst b. split; auto. split; auto. exists tags. auto.
Qed.
