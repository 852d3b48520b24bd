(** * Lemmas: L2 projection, C30 *)
From Coq Require Import List Arith ZArith Bool Lia.
From Verif Require Import Base BaseProof AssemblyModel AssemblySpec AssemblyProof ProjectorModel ProjectorSpec.
Import ListNotations.
Open Scope list_scope.

Section Proof.
  Variables (V : Type) (add : V -> V -> V) (zero : V) (close : V -> bool).
  Hypothesis EX : exact add zero.
  Variable n : nat.
  Notation sys := (sys V).
  Notation vsum := (vsum V add zero).
  Notation delta := (delta V add zero rg_ref).
  Notation sum_j := (sum_j V add zero).
  Notation sum_r := (sum_r V add zero).

  (** rhs *)
  Lemma fold_set_other (pv : list (nat * V)) v k : ~ In k (map fst pv) ->
    nth_error (fold_left (fun v p => set_at v (fst p) (snd p)) pv v) k = nth_error v k.
  Proof.
    revert v; induction pv as [|[a x] pv IH]; intros v H; simpl in *; auto. rewrite IH by tauto.
    destruct (Nat.lt_ge_cases a (List.length v)).
    - rewrite nth_error_set_at by auto. destruct (Nat.eqb_spec a k); auto. subst; tauto.
    - assert (E : set_at v a x = v).
      { clear - H0. revert a H0. induction v as [|y v IHv]; intros [|a] H0; simpl in *; auto; try lia. f_equal. apply IHv. lia. }
      rewrite E. auto.
  Qed.
  Lemma fold_set_len (pv : list (nat * V)) v :
    List.length (fold_left (fun v p => set_at v (fst p) (snd p)) pv v) = List.length v.
  Proof. revert v; induction pv; intros; simpl; auto. rewrite IHpv. apply length_set_at. Qed.

  Lemma add_fancy_ok s d r : ready V rg_ref n s -> (forall g, In g d -> (0 <= g < Z.of_nat n)%Z) -> NoDup d ->
    List.length r = List.length d ->
    exists s', add_fancy V add d r s = (s', Ok tt) /\ delta s s' (combine d r) [] [].
  Proof.
    intros [R L] RG ND LR. unfold add_fancy.
    assert (FI : exists old, fancy V (vec V s rg_ref) d = Ok old /\ restriction V (vec V s rg_ref) d old).
    { clear ND LR r. induction d as [|g d IH].
      - exists []. split; [reflexivity|constructor].
      - destruct IH as (old & E & F); [intros; apply RG; right; auto|].
        assert (G : (0 <= g < Z.of_nat n)%Z) by (apply RG; left; auto).
        destruct (nth_error (vec V s rg_ref) (Z.to_nat g)) as [x|] eqn:N; [|apply nth_error_None in N; lia].
        exists (x :: old). assert (F' : restriction V (vec V s rg_ref) (g :: d) (x :: old)).
        { constructor; auto. split; auto. lia. }
        split; auto. apply fancy_restriction. auto. }
    destruct FI as (old & FI & FR). rewrite FI.
    assert (PO : mapM (np_index (List.length (vec V s rg_ref))) d = Ok (map Z.to_nat d)).
    { apply mapM_Ok_map. intros g Hg. apply np_index_ok. rewrite L. auto. }
    rewrite PO, LR, Nat.eqb_refl. eexists. split; [reflexivity|].
    set (nv := fold_left _ _ _).
    assert (NVL : List.length nv = n) by (unfold nv; rewrite fold_set_len; auto).
    assert (VS : forall q, vec V (mk_sys V (set_at (vecs V s) rg_ref nv) (jac V s) (calls V s)) q
              = if rg_ref =? q then nv else vec V s q).
    { intros q. unfold vec at 1. cbn [vecs]. apply vec_set. auto. }
    assert (NV : forall k x, nth_error (vec V s rg_ref) k = Some x ->
              nth_error nv k = Some (add x (sum_r (Z.of_nat k) (combine d r)))).
    { unfold nv. clear nv NVL VS PO FI. intros k x Hk.
      assert (KN : k < List.length (vec V s rg_ref)) by (apply nth_error_Some; congruence).
      assert (FR' : Forall2 (fun g y => (0 <= g)%Z /\ nth_error (vec V s rg_ref) (Z.to_nat g) = Some y) d old) by exact FR.
      clear FR.
      assert (AUX : forall v0, List.length v0 = List.length (vec V s rg_ref) -> nth_error v0 k = Some x ->
         nth_error (fold_left (fun v p => set_at v (fst p) (snd p))
            (combine (map Z.to_nat d) (map (fun p => add (fst p) (snd p)) (combine old r))) v0) k
         = Some (add x (sum_r (Z.of_nat k) (combine d r)))).
      2:{ apply AUX; auto. }
      clear RG. revert r LR. induction FR' as [|g y d old [G1 G2] F IH]; intros r LR v0 LV N0.
      - destruct r; [|discriminate]. simpl. unfold AssemblyProof.sum_r; simpl. rewrite (add_0_r V add zero EX). auto.
      - destruct r as [|z r]; [discriminate|]. inversion ND; subst. simpl in LR. injection LR as LR.
        cbn [map combine fold_left fst snd].
        destruct (Nat.eq_dec (Z.to_nat g) k) as [Q|Q].
        + assert (x = y) by congruence. subst y.
          rewrite fold_set_other.
          * rewrite nth_error_set_at by lia. rewrite Q, Nat.eqb_refl. f_equal. f_equal.
            unfold AssemblyProof.sum_r. cbn [filter fst]. destruct (Z.eqb_spec g (Z.of_nat k)) as [GK|]; [|lia].
            cbn [map snd AssemblySpec.vsum fold_right].
            assert (FE : filter (fun p : Z * V => (fst p =? Z.of_nat k)%Z) (combine d r) = []).
            { assert (NI : ~ In (Z.of_nat k) d) by (rewrite <- GK; auto). clear - NI.
              revert r; induction d as [|b d IH]; intros [|c r]; simpl; auto.
              destruct (Z.eqb_spec b (Z.of_nat k)); [subst; exfalso; apply NI; left; auto|].
              apply IH. intros H; apply NI; right; auto. }
            rewrite FE. simpl. rewrite (add_0_r V add zero EX). auto.
          * intros HI. apply in_map_iff in HI as ([a b] & Ha & HI). simpl in Ha. subst a.
            apply in_combine_l in HI. apply in_map_iff in HI as (g' & Hg' & HI).
            assert (0 <= g')%Z.
            { clear - F HI. induction F as [|? ? ? ? [A B] F IH]; [destruct HI|]. destruct HI as [<-|HI]; auto. }
            assert (g' = g) by lia. subst. auto.
        + rewrite IH; auto.
          * f_equal. f_equal. unfold AssemblyProof.sum_r. cbn [filter fst].
            destruct (Z.eqb_spec g (Z.of_nat k)); [lia|]. auto.
          * rewrite length_set_at. auto.
          * rewrite nth_error_set_at.
            2:{ rewrite LV. apply nth_error_Some. congruence. }
            destruct (Nat.eqb_spec (Z.to_nat g) k); [congruence|auto]. }
    constructor.
    - intros q Hq. rewrite VS. destruct (Nat.eqb_spec rg_ref q); [congruence|auto].
    - cbn [vecs]. apply length_set_at.
    - rewrite VS, Nat.eqb_refl. congruence.
    - intros k x Hk. rewrite VS, Nat.eqb_refl. auto.
    - intros. unfold AssemblyProof.sum_j; simpl. rewrite (add_0_r V add zero EX). auto.
    - cbn [calls]. rewrite app_nil_r; auto.
  Qed.

  (** lhs *)
  Definition kept (sym : bool) (p : Z * Z * V) : bool :=
    negb (close (snd p)) && (negb sym || (fst (fst p) <=? snd (fst p))%Z).
  Lemma forS_kept (sym : bool) (row col : list Z) (data : list V) : forall len k s,
    (forall g, In g row -> (0 <= g < Z.of_nat n)%Z) -> (forall g, In g col -> (0 <= g < Z.of_nat n)%Z) ->
    List.length row = List.length data -> List.length col = List.length data -> k + len = List.length data ->
    exists s', forS V (fun k =>
      bindS V (lift V (get_at data k)) (fun v =>
      if close v then ret V tt else
      bindS V (lift V (get_at row k)) (fun r =>
      bindS V (lift V (get_at col k)) (fun c =>
      if sym then (if (r <=? c)%Z then add_jac V add (Z.of_nat n) r c v else ret V tt)
      else add_jac V add (Z.of_nat n) r c v)))) (seq k len) s
               = (s', Ok tt) /\ delta s s' [] (filter (kept sym) (skipn k (combine (combine row col) data))) [].
  Proof.
    induction len as [|len IH]; intros k s HR HC LR LC L.
    - exists s. split; [reflexivity|]. rewrite skipn_all2; [apply delta_refl; auto|].
      rewrite !combine_length. lia.
    - destruct (nth_error row k) as [r|] eqn:Er; [|apply nth_error_None in Er; lia].
      destruct (nth_error col k) as [c|] eqn:Ec; [|apply nth_error_None in Ec; lia].
      destruct (nth_error data k) as [v|] eqn:Ed; [|apply nth_error_None in Ed; lia].
      assert (N : nth_error (combine (combine row col) data) k = Some ((r, c), v)).
      { clear - Er Ec Ed. revert k col data Er Ec Ed. induction row as [|a row IH]; intros [|k] [|b col] [|x data] H1 H2 H3;
          simpl in *; try discriminate; [congruence|]. apply IH; auto. }
      assert (SK : skipn k (combine (combine row col) data) = ((r, c), v) :: skipn (S k) (combine (combine row col) data)).
      { clear - N. revert k N. generalize (combine (combine row col) data). induction l as [|a l IH]; intros [|k] E; simpl in *; try discriminate.
        - inversion E; auto.
        - apply IH; auto. }
      rewrite SK. cbn [filter].
      destruct (add_jac_ok V add zero EX rg_ref n s r c v) as (s1 & E1 & D1).
      { apply HR. eapply nth_error_In; eauto. } { apply HC. eapply nth_error_In; eauto. }
      assert (ST : exists s2, (bindS V (lift V (get_at data k)) (fun v =>
          if close v then ret V tt else
          bindS V (lift V (get_at row k)) (fun r =>
          bindS V (lift V (get_at col k)) (fun c =>
          if sym then (if (r <=? c)%Z then add_jac V add (Z.of_nat n) r c v else ret V tt)
          else add_jac V add (Z.of_nat n) r c v)))) s = (s2, Ok tt) /\
          delta s s2 [] (if kept sym (r, c, v) then [(r, c, v)] else []) []).
      { unfold bindS at 1. unfold lift at 1, get_at at 1. rewrite Ed. unfold kept. cbn [fst snd].
        destruct (close v); simpl; [exists s; split; [reflexivity|apply delta_refl; auto]|].
        unfold bindS, lift, get_at. rewrite Er, Ec. destruct sym; simpl.
        - destruct (r <=? c)%Z; [exists s1; auto|]. exists s. split; [reflexivity|apply delta_refl; auto].
        - exists s1; auto. }
      destruct ST as (s2 & E2 & D2).
      destruct (IH (S k) s2 HR HC LR LC) as (s3 & E3 & D3); [lia|].
      exists s3. split.
      + cbn [seq forS]. unfold bindS at 1. rewrite E2. exact E3.
      + pose proof (delta_trans V add zero EX rg_ref s s2 s3 [] _ [] [] _ [] D2 D3) as D. simpl in D.
        destruct (kept sym (r, c, v)); exact D.
  Qed.

  Definition kept_entries (sym : bool) (w : local V) : list (Z * Z * V) :=
    filter (kept sym) (entries V (lo_dest V w) (lo_dest V w) (lo_jac V w)).

  Lemma element_step dm eval shift sym i w s : ready V rg_ref n s -> vec V s alpha_ref = repeat zero n ->
    element_ok zero n dm eval shift i w ->
    exists s', scatter_element V add close (Z.of_nat n) dm eval shift sym i s = (s', Ok tt) /\
      delta s s' (combine (lo_dest V w) (lo_res V w)) (kept_entries sym w) [].
  Proof.
    intros R AL ((d0 & Ed & Ew) & EV & ND & RG & L1 & L2 & F).
    unfold scatter_element. unfold bindS at 1, lift at 1. rewrite Ed. cbv zeta. rewrite <- Ew.
    assert (TK : fancy V (vec V s alpha_ref) (lo_dest V w) = Ok (repeat zero (List.length (lo_dest V w)))).
    { apply fancy_restriction. rewrite AL. clear - RG. induction (lo_dest V w) as [|g d IH]; simpl; constructor.
      - assert (0 <= g < Z.of_nat n)%Z by (apply RG; left; auto). split; [lia|]. apply nth_error_repeat. lia.
      - apply IH. intros; apply RG; right; auto. }
    unfold bindS at 1, take at 1. rewrite TK. unfold bindS at 1, lift at 1. rewrite EV. cbn [fst snd].
    destruct (add_fancy_ok s (lo_dest V w) (lo_res V w) R RG ND L1) as (s1 & E1 & D1).
    unfold bindS at 1. rewrite E1.
    destruct (expansion V (lo_dest V w) (lo_dest V w) (lo_jac V w) L2 F) as (EE & LL1 & LL2).
    destruct (forS_kept sym (np_repeat (lo_dest V w) (List.length (lo_dest V w))) (np_tile (lo_dest V w) (List.length (lo_dest V w)))
       (List.concat (lo_jac V w)) (List.length (List.concat (lo_jac V w))) 0 s1) as (s2 & E2 & D2); auto.
    - intros g Hg. apply RG. eapply In_np_repeat; eauto.
    - intros g Hg. apply RG. eapply In_np_tile; eauto.
    - exists s2. split; [exact E2|]. simpl in D2. unfold np_tile in D2. rewrite EE in D2. fold (kept_entries sym w) in D2.
      pose proof (delta_trans V add zero EX rg_ref _ _ _ _ _ _ _ _ _ D1 D2) as D. rewrite app_nil_r in D. exact D.
  Qed.

  Lemma elements_ok dm eval shift sym : forall is ws s, ready V rg_ref n s -> vec V s alpha_ref = repeat zero n ->
    Forall2 (element_ok zero n dm eval shift) is ws ->
    exists s', forS V (scatter_element V add close (Z.of_nat n) dm eval shift sym) is s = (s', Ok tt) /\
      delta s s' (flat_map (fun w => combine (lo_dest V w) (lo_res V w)) ws) (flat_map (kept_entries sym) ws) [].
  Proof.
    induction is as [|i is IH]; intros ws s R AL F; inversion F; subst; simpl.
    - exists s. split; [reflexivity|apply delta_refl; auto].
    - destruct (element_step dm eval shift sym i y s R AL) as (s1 & E1 & D1); auto.
      destruct (IH l' s1) as (s2 & E2 & D2); auto.
      + eapply ready_delta; eauto.
      + rewrite (d_other _ _ _ _ _ _ _ _ _ D1); auto. discriminate.
      + exists s2. unfold bindS. rewrite E1. split; auto.
        exact (delta_trans V add zero EX rg_ref _ _ _ _ _ _ _ _ _ D1 D2).
  Qed.

  (** nothing lost *)
  Lemma sum_j_kept sym g h w : nothing_lost zero close w -> (sym = true -> (g <= h)%Z) ->
    sum_j g h (kept_entries sym w) = jac_contrib V add zero g h w.
  Proof.
    intros NL S. rewrite <- (sum_j_contrib V add zero). unfold kept_entries.
    assert (Z0 : forall p, In p (entries V (lo_dest V w) (lo_dest V w) (lo_jac V w)) -> close (snd p) = true -> snd p = zero).
    { intros p Hp. unfold entries in Hp. apply in_flat_map in Hp as ([a row] & Hr & Hp). simpl in Hp.
      apply in_combine_r in Hr. destruct p as [q v]. apply in_combine_r in Hp. apply NL with (row := row); auto. }
    induction (entries V (lo_dest V w) (lo_dest V w) (lo_jac V w)) as [|[[a b] v] l IH]; [reflexivity|].
    assert (IH' : sum_j g h (filter (kept sym) l) = sum_j g h l) by (apply IH; intros; apply Z0; [right|]; auto). clear IH.
    cbn [filter]. unfold AssemblyProof.sum_j in *. destruct (kept sym (a, b, v)) eqn:K; cbn [filter fst snd].
    - destruct ((a =? g)%Z && (b =? h)%Z); auto. cbn [map AssemblySpec.vsum fold_right snd]. f_equal. exact IH'.
    - destruct ((a =? g)%Z && (b =? h)%Z) eqn:Q; auto. cbn [map AssemblySpec.vsum fold_right snd].
      apply andb_prop in Q as [Q1 Q2]. apply Z.eqb_eq in Q1, Q2. subst.
      unfold kept in K. cbn [fst snd] in K.
      assert (C : close v = true).
      { destruct (close v); auto. simpl in K. destruct sym; simpl in K; [|discriminate].
        apply Z.leb_gt in K. specialize (S eq_refl). lia. }
      assert (v = zero) as -> by (apply (Z0 (g, h, v)); [left; auto|auto]).
      rewrite (add_0_l V add zero EX). exact IH'.
  Qed.

  (** the contribution of a symmetric matrix is symmetric *)
  Lemma vsum_flat_add (l : list (list V)) : vsum (List.concat l) = vsum (map vsum l).
  Proof. induction l; simpl; auto. rewrite (vsum_app V add zero EX), IHl. auto. Qed.
  Definition cell (m : list (list V)) (a b : nat) : V :=
    match nth_error m a with Some row => match nth_error row b with Some v => v | None => zero end | None => zero end.
  Definition idxs (d : list Z) (g : Z) : list nat :=
    map snd (filter (fun p => Z.eqb (fst p) g) (combine d (seq 0 (List.length d)))).
  Lemma filter_row d row h k : List.length row = List.length d ->
    map snd (filter (fun c => Z.eqb (fst c) h) (combine d row)) =
    map (fun b => match nth_error row (b - k) with Some v => v | None => zero end)
        (map snd (filter (fun p => Z.eqb (fst p) h) (combine d (seq k (List.length d))))).
  Proof.
    revert row k; induction d as [|a d IH]; intros [|x row] k L; simpl in L; try discriminate; auto.
    injection L as L. cbn [List.length seq combine filter fst].
    assert (T : forall l, (forall b, In b l -> k < b) ->
       map (fun b => match nth_error row (b - S k) with Some v => v | None => zero end) l =
       map (fun b => match nth_error (x :: row) (b - k) with Some v => v | None => zero end) l).
    { intros l Hl. apply map_ext_in. intros b Hb. specialize (Hl b Hb).
      replace (b - k) with (S (b - S k)) by lia. reflexivity. }
    assert (GT : forall b, In b (map snd (filter (fun p => Z.eqb (fst p) h) (combine d (seq (S k) (List.length d))))) -> k < b).
    { intros b Hb. apply in_map_iff in Hb as ([q c] & Hc & Hb). simpl in Hc. subst c. apply filter_In in Hb as [Hb _].
      apply in_combine_r in Hb. apply in_seq in Hb. lia. }
    destruct (Z.eqb a h); cbn [map snd].
    - rewrite Nat.sub_diag. cbn [nth_error]. f_equal. rewrite (IH row (S k) L). apply T. auto.
    - rewrite (IH row (S k) L). apply T. auto.
  Qed.
  Lemma contrib_cells d m g h : List.length m = List.length d -> Forall (fun row => List.length row = List.length d) m ->
    vsum (flat_map (fun p => map snd (filter (fun c => Z.eqb (fst c) h) (combine d (snd p))))
                   (filter (fun p => Z.eqb (fst p) g) (combine d m)))
    = vsum (map (fun a => vsum (map (cell m a) (idxs d h))) (idxs d g)).
  Proof.
    intros L F.
    assert (E1 : flat_map (fun p : Z * list V => map snd (filter (fun c => Z.eqb (fst c) h) (combine d (snd p))))
                   (filter (fun p => Z.eqb (fst p) g) (combine d m))
              = List.concat (map (fun row => map (fun b => match nth_error row b with Some v => v | None => zero end) (idxs d h))
                   (map snd (filter (fun p => Z.eqb (fst p) g) (combine d m))))).
    { rewrite flat_map_concat_map. f_equal. rewrite map_map. apply map_ext_in. intros [q row] Hp. simpl.
      rewrite (filter_row d row h 0).
      - apply map_ext. intros b. rewrite Nat.sub_0_r. reflexivity.
      - apply filter_In in Hp as [Hp _]. apply in_combine_r in Hp. rewrite Forall_forall in F. apply F. auto. }
    rewrite E1, vsum_flat_add, map_map. f_equal.
    assert (E2 : forall k, map snd (filter (fun p => Z.eqb (fst p) g) (combine d m)) =
      map (fun a => nth (a - k) m []) (map snd (filter (fun p => Z.eqb (fst p) g) (combine d (seq k (List.length d)))))).
    { clear - L. revert m L; induction d as [|a d IH]; intros [|x m] L k; simpl in L; try discriminate; auto.
      injection L as L. cbn [List.length seq combine filter fst].
      assert (GT : forall b, In b (map snd (filter (fun p => Z.eqb (fst p) g) (combine d (seq (S k) (List.length d))))) -> k < b).
      { intros b Hb. apply in_map_iff in Hb as ([q c] & Hc & Hb). simpl in Hc. subst c. apply filter_In in Hb as [Hb _].
        apply in_combine_r in Hb. apply in_seq in Hb. lia. }
      assert (T : map (fun a => nth (a - S k) m []) (map snd (filter (fun p => Z.eqb (fst p) g) (combine d (seq (S k) (List.length d)))))
               = map (fun a => nth (a - k) (x :: m) []) (map snd (filter (fun p => Z.eqb (fst p) g) (combine d (seq (S k) (List.length d)))))).
      { apply map_ext_in. intros b Hb. specialize (GT b Hb). replace (b - k) with (S (b - S k)) by lia. reflexivity. }
      destruct (Z.eqb a g); cbn [map snd].
      - rewrite Nat.sub_diag. cbn [nth]. f_equal. rewrite (IH m L (S k)). exact T.
      - rewrite (IH m L (S k)). exact T. }
    rewrite (E2 0). fold (idxs d g). rewrite map_map. apply map_ext_in. intros a Ha. f_equal. apply map_ext. intros b.
    unfold cell. rewrite Nat.sub_0_r.
    assert (a < List.length m).
    { unfold idxs in Ha. apply in_map_iff in Ha as ([q c] & Hc & Hb). simpl in Hc. subst c. apply filter_In in Hb as [Hb _].
      apply in_combine_r in Hb. apply in_seq in Hb. lia. }
    rewrite (nth_error_nth' m []) by auto. reflexivity.
  Qed.
  Lemma vsum_swap (f : nat -> nat -> V) l l' :
    vsum (map (fun a => vsum (map (f a) l')) l) = vsum (map (fun b => vsum (map (fun a => f a b) l)) l').
  Proof.
    revert l'; induction l as [|a l IH]; intros l'; simpl.
    - induction l'; simpl; auto. rewrite <- IHl'. rewrite (add_0_l V add zero EX). auto.
    - rewrite IH. clear IH. induction l' as [|b l' IH]; simpl; [apply (add_0_l V add zero EX)|].
      rewrite <- IH. rewrite !(add_assoc V add zero EX). f_equal.
      rewrite <- !(add_assoc V add zero EX). f_equal. apply (add_comm V add zero EX).
  Qed.
  Lemma contrib_sym g h w : List.length (lo_jac V w) = List.length (lo_dest V w) ->
    Forall (fun row => List.length row = List.length (lo_dest V w)) (lo_jac V w) -> symmetric_matrix (lo_jac V w) ->
    jac_contrib V add zero g h w = jac_contrib V add zero h g w.
  Proof.
    intros L F S. unfold jac_contrib. rewrite !contrib_cells by auto. rewrite vsum_swap.
    f_equal. apply map_ext. intros a. f_equal. apply map_ext. intros b.
    specialize (S b a). unfold cell, get_at, bind in *.
    destruct (nth_error (lo_jac V w) b) as [row|], (nth_error (lo_jac V w) a) as [row'|]; auto.
    - destruct (nth_error row a), (nth_error row' b); congruence.
    - destruct (nth_error row a); congruence.
    - destruct (nth_error row' b); congruence.
  Qed.

  Lemma l2_ok sp eval shift sym ws : fs_n_dof sp = n ->
    Forall2 (element_ok zero n (fs_dest sp 0) eval shift) (seq 0 (fs_elements sp)) ws ->
    Forall (nothing_lost zero close) ws -> (sym = true -> Forall (fun w => symmetric_matrix (lo_jac V w)) ws) ->
    exists s, l2_assemble V add zero close sp eval shift sym = (s, fs_shift sp, Ok tt) /\
      (forall g h, represented V sym s g h = vsum (map (jac_contrib V add zero g h) ws)) /\
      List.length (vec V s rg_ref) = n /\
      (forall g, g < n -> nth_error (vec V s rg_ref) g = Some (vsum (map (res_contrib V add zero (Z.of_nat g)) ws))).
  Proof.
    intros N F NL SY. unfold l2_assemble. rewrite N. cbv zeta.
    destruct (elements_ok (fs_dest sp 0) eval shift sym (seq 0 (fs_elements sp)) ws
       (mk_sys V [repeat zero n; repeat zero n] (fun _ _ => zero) [])) as (s & E & D); auto.
    { split; [unfold rg_ref; cbn; lia|cbn; apply repeat_length]. }
    rewrite E. exists s. split; auto.
    assert (SJ : forall g h, (sym = true -> (g <= h)%Z) -> jac V s g h = vsum (map (jac_contrib V add zero g h) ws)).
    { intros g h GH. rewrite (d_jac _ _ _ _ _ _ _ _ _ D). cbn [jac]. rewrite (add_0_l V add zero EX).
      clear - NL EX GH. induction NL as [|w ws H NL IH]; [reflexivity|]. cbn [flat_map map AssemblySpec.vsum fold_right].
      rewrite (sum_j_app V add zero EX), IH. f_equal. apply sum_j_kept; auto. }
    split; [|split].
    - intros g h. unfold represented. destruct sym; [|apply SJ; discriminate].
      rewrite SJ by (intros _; lia). destruct (Z.le_gt_cases g h).
      + rewrite Z.min_l, Z.max_r by lia. reflexivity.
      + rewrite Z.min_r, Z.max_l by lia. f_equal. specialize (SY eq_refl).
        clear - F SY EX. revert SY. induction F as [|i w is ws O F IH]; intros SY; auto. inversion SY; subst. cbn [map].
        f_equal; [|apply IH; auto]. destruct O as (_ & _ & _ & _ & _ & A & B). apply contrib_sym; auto.
    - rewrite (d_len _ _ _ _ _ _ _ _ _ D). cbn. apply repeat_length.
    - intros g Hg. rewrite (d_res _ _ _ _ _ _ _ _ _ D g zero).
      + rewrite (add_0_l V add zero EX), (sum_r_flat V add zero EX). reflexivity.
      + cbn. apply nth_error_repeat. auto.
  Qed.
End Proof.
Lemma l2_lemma V add zero : exact add zero -> forall close n sp eval shift sym ws,
  fs_n_dof sp = n ->
  Forall2 (element_ok zero n (fs_dest sp 0) eval shift) (seq 0 (fs_elements sp)) ws ->
  Forall (nothing_lost zero close) ws ->
  (sym = true -> Forall (fun w => symmetric_matrix (lo_jac V w)) ws) ->
  exists s, l2_assemble V add zero close sp eval shift sym = (s, fs_shift sp, Ok tt) /\
    (forall g h, represented V sym s g h = vsum V add zero (map (jac_contrib V add zero g h) ws)) /\
    List.length (vec V s rg_ref) = n /\
    (forall g, g < n -> nth_error (vec V s rg_ref) g = Some (vsum V add zero (map (res_contrib V add zero (Z.of_nat g)) ws))).
Proof. intros EX close n sp eval shift sym ws. intros. apply l2_ok; auto. Qed.
