(** * Lemmas about [Base.v] *)
From Coq Require Import List Arith ZArith Bool Lia Permutation Sorted.
From Verif Require Import Base.
Import ListNotations.

Lemma eqb_true {A} `{EqDec A} (x y : A) : eqb x y = true <-> x = y.
Proof. unfold eqb; destruct (eq_dec x y); intuition congruence. Qed.
Lemma eqb_false {A} `{EqDec A} (x y : A) : eqb x y = false <-> x <> y.
Proof. unfold eqb; destruct (eq_dec x y); intuition congruence. Qed.
Lemma eqb_refl {A} `{EqDec A} (x : A) : eqb x x = true.
Proof. apply eqb_true; reflexivity. Qed.

Lemma memb_In {A} `{EqDec A} (x : A) l : memb x l = true <-> In x l.
Proof.
  unfold memb; rewrite existsb_exists; split.
  - intros (y & Hy & E). rewrite eqb_true in E; subst; auto.
  - intros Hx; exists x; rewrite eqb_refl; auto.
Qed.
Lemma memb_notIn {A} `{EqDec A} (x : A) l : memb x l = false <-> ~ In x l.
Proof. rewrite <- memb_In; destruct (memb x l); intuition congruence. Qed.

(** ** uniq *)
Lemma In_uniq_acc {A} `{EqDec A} (l seen : list A) x :
  In x (uniq_acc seen l) <-> In x l /\ ~ In x seen.
Proof.
  revert seen; induction l as [|a l IH]; intros seen; simpl.
  - tauto.
  - destruct (memb a seen) eqn:E.
    + apply memb_In in E. rewrite IH. split; [tauto|].
      intros ([->|Hi] & Hn); tauto.
    + apply memb_notIn in E. simpl. rewrite IH, in_app_iff; simpl.
      destruct (eq_dec a x) as [->|N]; [tauto|]. tauto.
Qed.
Lemma In_uniq {A} `{EqDec A} (l : list A) x : In x (uniq l) <-> In x l.
Proof. unfold uniq; rewrite In_uniq_acc; simpl; tauto. Qed.

Lemma NoDup_uniq_acc {A} `{EqDec A} (l seen : list A) : NoDup (uniq_acc seen l).
Proof.
  revert seen; induction l as [|a l IH]; intros seen; simpl; [constructor|].
  destruct (memb a seen); [apply IH|].
  constructor; [|apply IH]. rewrite In_uniq_acc, in_app_iff; simpl; tauto.
Qed.
Lemma NoDup_uniq {A} `{EqDec A} (l : list A) : NoDup (uniq l).
Proof. apply NoDup_uniq_acc. Qed.

Lemma uniq_acc_NoDup {A} `{EqDec A} (l seen : list A) :
  NoDup l -> (forall x, In x l -> ~ In x seen) -> uniq_acc seen l = l.
Proof.
  revert seen; induction l as [|a l IH]; intros seen ND D; simpl; [reflexivity|].
  inversion ND; subst.
  assert (E : memb a seen = false) by (apply memb_notIn, D; left; reflexivity).
  rewrite E, IH; auto.
  intros x Hx; rewrite in_app_iff; simpl; intros [Hs|[->|[]]]; [|contradiction].
  apply (D x); [right|]; auto.
Qed.
Lemma uniq_NoDup {A} `{EqDec A} (l : list A) : NoDup l -> uniq l = l.
Proof. intros; apply uniq_acc_NoDup; auto. Qed.

Lemma uniq_acc_app {A} `{EqDec A} (l1 l2 seen : list A) :
  uniq_acc seen (l1 ++ l2)
  = uniq_acc seen l1 ++ uniq_acc (seen ++ uniq_acc seen l1) l2.
Proof.
  revert seen; induction l1 as [|a l1 IH]; intros seen; simpl.
  - rewrite app_nil_r; reflexivity.
  - destruct (memb a seen); [apply IH|].
    simpl; f_equal. rewrite IH, <- app_assoc; reflexivity.
Qed.

(** filter of a uniq is uniq of the filter *)
Lemma filter_uniq_acc {A} `{EqDec A} (f : A -> bool) (l s1 s2 : list A) :
  (forall x, f x = true -> In x s1 <-> In x s2) ->
  filter f (uniq_acc s1 l) = uniq_acc s2 (filter f l).
Proof.
  revert s1 s2; induction l as [|a l IH]; intros s1 s2 HS; simpl; [reflexivity|].
  destruct (f a) eqn:Fa.
  - simpl. replace (memb a s2) with (memb a s1).
    2:{ destruct (memb a s1) eqn:E1, (memb a s2) eqn:E2; auto;
        try apply memb_In in E1; try apply memb_notIn in E1;
        try apply memb_In in E2; try apply memb_notIn in E2; exfalso;
        specialize (HS a Fa); tauto. }
    destruct (memb a s1); [apply IH; auto|].
    simpl; rewrite Fa. f_equal. apply IH.
    intros x Fx; rewrite !in_app_iff; specialize (HS x Fx); tauto.
  - destruct (memb a s1); [apply IH; auto|].
    simpl; rewrite Fa. apply IH. intros x Fx; rewrite in_app_iff; simpl.
    specialize (HS x Fx). split; [intros [?|[->|[]]]; [tauto|congruence]|tauto].
Qed.
Lemma filter_uniq {A} `{EqDec A} (f : A -> bool) (l : list A) :
  filter f (uniq l) = uniq (filter f l).
Proof. apply filter_uniq_acc; tauto. Qed.

(** ** dict *)
Lemma dget_dset_same {K V} `{EqDec K} (d : dict K V) k v : dget (dset d k v) k = Some v.
Proof.
  induction d as [|[k' v'] d IH]; simpl.
  - destruct (eq_dec k k); congruence.
  - destruct (eq_dec k k'); simpl; destruct (eq_dec k k'); congruence.
Qed.
Lemma dget_dset_other {K V} `{EqDec K} (d : dict K V) k k' v :
  k' <> k -> dget (dset d k v) k' = dget d k'.
Proof.
  intros N; induction d as [|[a b] d IH]; simpl.
  - destruct (eq_dec k' k); congruence.
  - destruct (eq_dec k a); simpl; destruct (eq_dec k' a); congruence.
Qed.
Lemma dget_dset {K V} `{EqDec K} (d : dict K V) k k' v :
  dget (dset d k v) k' = if eq_dec k' k then Some v else dget d k'.
Proof.
  destruct (eq_dec k' k); [subst; apply dget_dset_same | apply dget_dset_other; auto].
Qed.
Lemma dset_new {K V} `{EqDec K} (d : dict K V) k v :
  dget d k = None -> dset d k v = d ++ [(k, v)].
Proof.
  induction d as [|[a b] d IH]; simpl; intros E; [reflexivity|].
  destruct (eq_dec k a); [discriminate|]. rewrite IH; auto.
Qed.
Lemma dget_app {K V} `{EqDec K} (d1 d2 : dict K V) k :
  dget (d1 ++ d2) k = match dget d1 k with Some v => Some v | None => dget d2 k end.
Proof.
  induction d1 as [|[a b] d1 IH]; simpl; [reflexivity|].
  destruct (eq_dec k a); auto.
Qed.
Lemma dget_Some_In {K V} `{EqDec K} (d : dict K V) k v : dget d k = Some v -> In (k, v) d.
Proof.
  induction d as [|[a b] d IH]; simpl; [discriminate|].
  destruct (eq_dec k a); [intros E; inversion E; subst; auto | auto].
Qed.
Lemma dget_None {K V} `{EqDec K} (d : dict K V) k : dget d k = None <-> ~ In k (dkeys d).
Proof.
  unfold dkeys; induction d as [|[a b] d IH]; simpl; [tauto|].
  destruct (eq_dec k a); subst.
  - split; [discriminate | tauto].
  - rewrite IH; intuition congruence.
Qed.
Lemma dget_In_keys {K V} `{EqDec K} (d : dict K V) k :
  In k (dkeys d) <-> exists v, dget d k = Some v.
Proof.
  split.
  - intros Hi. destruct (dget d k) eqn:E; [eauto|]. apply dget_None in E; contradiction.
  - intros (v & E). apply dget_Some_In in E.
    unfold dkeys; apply (in_map fst) in E; exact E.
Qed.
Lemma dget_NoDup {K V} `{EqDec K} (d : dict K V) k v :
  NoDup (dkeys d) -> (dget d k = Some v <-> In (k, v) d).
Proof.
  intros ND; split; [apply dget_Some_In|].
  induction d as [|[a b] d IH]; simpl; [tauto|].
  unfold dkeys in ND; simpl in ND; inversion ND; subst.
  intros [E|E].
  - inversion E; subst. destruct (eq_dec k k); congruence.
  - destruct (eq_dec k a); subst; [|auto].
    exfalso; match goal with X : ~ In _ _ |- _ => apply X end.
    apply (in_map fst) in E; exact E.
Qed.
Lemma dkeys_dset {K V} `{EqDec K} (d : dict K V) k v :
  dkeys (dset d k v) = if memb k (dkeys d) then dkeys d else dkeys d ++ [k].
Proof.
  unfold dkeys, memb; induction d as [|[a b] d IH]; simpl; [reflexivity|].
  unfold eqb at 1; destruct (eq_dec k a); simpl; [reflexivity|].
  rewrite IH; destruct (existsb (eqb k) (map fst d)); reflexivity.
Qed.
Lemma NoDup_app_single {A} (l : list A) (x : A) : NoDup l -> ~ In x l -> NoDup (l ++ [x]).
Proof.
  intros ND NI. apply NoDup_rev in ND. rewrite <- (rev_involutive (l ++ [x])).
  apply NoDup_rev. rewrite rev_app_distr; simpl. constructor; auto.
  rewrite <- in_rev; auto.
Qed.
Lemma NoDup_dset {K V} `{EqDec K} (d : dict K V) k v :
  NoDup (dkeys d) -> NoDup (dkeys (dset d k v)).
Proof.
  rewrite dkeys_dset; destruct (memb k (dkeys d)) eqn:E; auto.
  intros; apply NoDup_app_single; auto. apply memb_notIn; auto.
Qed.
Lemma dict_of_acc_NoDup {K V} `{EqDec K} (l : list (K * V)) d :
  NoDup (dkeys d) -> NoDup (dkeys (fold_left (fun d kv => dset d (fst kv) (snd kv)) l d)).
Proof. revert d; induction l; simpl; intros; auto. apply IHl, NoDup_dset; auto. Qed.
Lemma NoDup_dict_of {K V} `{EqDec K} (l : list (K * V)) : NoDup (dkeys (dict_of l)).
Proof. apply dict_of_acc_NoDup; constructor. Qed.

(** With distinct keys [dict_of] is the list itself. *)
Lemma dict_of_acc_id {K V} `{EqDec K} (l : list (K * V)) d :
  NoDup (dkeys (d ++ l)) ->
  fold_left (fun d kv => dset d (fst kv) (snd kv)) l d = d ++ l.
Proof.
  revert d; induction l as [|[k v] l IH]; simpl; intros d ND.
  - rewrite app_nil_r; reflexivity.
  - rewrite dset_new.
    + rewrite IH; rewrite <- app_assoc; auto.
    + apply dget_None. unfold dkeys in *. rewrite map_app in ND; simpl in ND.
      apply NoDup_remove_2 in ND. rewrite in_app_iff in ND; tauto.
Qed.
Lemma dict_of_id {K V} `{EqDec K} (l : list (K * V)) : NoDup (dkeys l) -> dict_of l = l.
Proof. intros; apply (dict_of_acc_id l []); auto. Qed.

(** last write wins *)
Lemma dget_dict_of_acc {K V} `{EqDec K} (l : list (K * V)) d k :
  dget (fold_left (fun d kv => dset d (fst kv) (snd kv)) l d) k
  = match dget (rev l) k with Some v => Some v | None => dget d k end.
Proof.
  revert d; induction l as [|[a b] l IH]; simpl; intros d; [reflexivity|].
  rewrite IH, dget_app; simpl. destruct (dget (rev l) k); auto.
  rewrite dget_dset. destruct (eq_dec k a); auto.
Qed.
Lemma dget_dict_of {K V} `{EqDec K} (l : list (K * V)) k : dget (dict_of l) k = dget (rev l) k.
Proof. unfold dict_of; rewrite dget_dict_of_acc. simpl; destruct (dget (rev l) k); auto. Qed.

Lemma dkeys_dict_of_acc {K V} `{EqDec K} (l : list (K * V)) d :
  dkeys (fold_left (fun d kv => dset d (fst kv) (snd kv)) l d)
  = dkeys d ++ uniq_acc (dkeys d) (map fst l).
Proof.
  revert d; induction l as [|[a b] l IH]; simpl; intros d.
  - rewrite app_nil_r; auto.
  - rewrite IH, dkeys_dset; simpl. destruct (memb a (dkeys d)); auto.
    rewrite <- app_assoc; reflexivity.
Qed.
Lemma dkeys_dict_of {K V} `{EqDec K} (l : list (K * V)) : dkeys (dict_of l) = uniq (map fst l).
Proof. unfold dict_of; rewrite dkeys_dict_of_acc; reflexivity. Qed.

(** ** set_at / nth_error *)
Lemma length_set_at {A} (l : list A) i v : length (set_at l i v) = length l.
Proof. revert i; induction l; destruct i; simpl; auto. Qed.
Lemma nth_error_set_at_same {A} (l : list A) i v :
  i < length l -> nth_error (set_at l i v) i = Some v.
Proof. revert i; induction l; destruct i; simpl; intros; try lia; auto. apply IHl; lia. Qed.
Lemma nth_error_set_at_other {A} (l : list A) i j v :
  i <> j -> nth_error (set_at l i v) j = nth_error l j.
Proof.
  revert i j; induction l; destruct i, j; simpl; intros; try lia; auto.
Qed.
Lemma nth_error_set_at {A} (l : list A) i j v :
  nth_error (set_at l i v) j
  = if Nat.eq_dec i j then (if j <? length l then Some v else None) else nth_error l j.
Proof.
  destruct (Nat.eq_dec i j) as [->|N]; [|apply nth_error_set_at_other; auto].
  destruct (j <? length l) eqn:E.
  - apply nth_error_set_at_same, Nat.ltb_lt; auto.
  - apply nth_error_None. rewrite length_set_at. apply Nat.ltb_ge; auto.
Qed.

(** ** sort_nat *)
Lemma insert_sorted_perm x l : Permutation (insert_sorted x l) (x :: l).
Proof.
  induction l; simpl; auto. destruct (x <=? a); auto.
  rewrite IHl. apply perm_swap.
Qed.
Lemma sort_nat_perm l : Permutation (sort_nat l) l.
Proof. induction l; simpl; auto. rewrite insert_sorted_perm; auto. Qed.
Lemma insert_sorted_sorted x l : Sorted le l -> Sorted le (insert_sorted x l).
Proof.
  induction l; simpl; intros S; [repeat constructor|].
  destruct (x <=? a) eqn:E.
  - apply Nat.leb_le in E. constructor; auto.
  - apply Nat.leb_gt in E. apply Sorted_inv in S as [S R]. constructor; auto.
    destruct l; simpl; [constructor; lia|].
    destruct (x <=? n); constructor; [lia|]. inversion R; auto.
Qed.
Lemma sort_nat_sorted l : Sorted le (sort_nat l).
Proof. induction l; simpl; [constructor|]. apply insert_sorted_sorted; auto. Qed.
Lemma sorted_perm_eq l1 l2 : Sorted le l1 -> Sorted le l2 -> Permutation l1 l2 -> l1 = l2.
Proof.
  intros S1 S2. apply Sorted_StronglySorted in S1; [|intros ? ? ?; lia].
  apply Sorted_StronglySorted in S2; [|intros ? ? ?; lia].
  revert l2 S2; induction S1 as [|a l1 S1 IH F]; intros l2 S2 P.
  - apply Permutation_nil in P; auto.
  - destruct S2 as [|b l2 S2 F2].
    + apply Permutation_sym, Permutation_nil in P; discriminate.
    + assert (a = b).
      { assert (Ia : In a (b :: l2)) by (eapply Permutation_in; [exact P|left; auto]).
        assert (Ib : In b (a :: l1)) by (eapply Permutation_in; [apply Permutation_sym; exact P|left; auto]).
        rewrite Forall_forall in F, F2. simpl in Ia, Ib.
        destruct Ia as [|Ia]; auto. destruct Ib as [|Ib]; auto.
        apply F2 in Ia; apply F in Ib; lia. }
      subst b. f_equal. apply IH; auto. apply Permutation_cons_inv in P; auto.
Qed.
Lemma sort_nat_eq_iff l1 l2 : sort_nat l1 = sort_nat l2 <-> Permutation l1 l2.
Proof.
  split; intros E.
  - rewrite <- (sort_nat_perm l1), E; apply sort_nat_perm.
  - apply sorted_perm_eq; try apply sort_nat_sorted.
    rewrite !sort_nat_perm; auto.
Qed.
Lemma sort_nat_idem l : sort_nat (sort_nat l) = sort_nat l.
Proof. apply sort_nat_eq_iff, sort_nat_perm. Qed.
Lemma length_sort_nat l : length (sort_nat l) = length l.
Proof. apply Permutation_length, sort_nat_perm. Qed.

(** ** accumulate *)
Lemma nth_accumulate_from acc l i :
  i < length l -> nth i (accumulate_from acc l) 0 = acc + list_sum (firstn (S i) l).
Proof.
  revert acc i; induction l as [|x l IH]; intros acc i Hi; simpl in *; [lia|].
  destruct i; simpl.
  - lia.
  - rewrite IH by lia. simpl. lia.
Qed.
Lemma length_accumulate_from acc l : length (accumulate_from acc l) = length l.
Proof. revert acc; induction l; simpl; auto. Qed.

Lemma fold_max_ge l x : x <= fold_left Nat.max l x.
Proof. revert x; induction l; simpl; intros; auto. specialize (IHl (Nat.max x a)); lia. Qed.
Lemma fold_max_spec l x :
  (forall y, In y (x :: l) -> y <= fold_left Nat.max l x) /\ In (fold_left Nat.max l x) (x :: l).
Proof.
  revert x; induction l as [|a l IH]; simpl; intros x.
  - split; [intros y [->|[]]; auto | auto].
  - destruct (IH (Nat.max x a)) as [H1 H2]. split.
    + intros y [->|[->|Hy]].
      * specialize (fold_max_ge l (Nat.max y a)); lia.
      * specialize (fold_max_ge l (Nat.max x y)); lia.
      * apply H1; right; auto.
    + simpl in H2; destruct H2 as [H2|H2]; auto.
      rewrite <- H2. destruct (Nat.max_spec x a) as [[_ ->]|[_ ->]]; auto.
Qed.

(** ** monad *)
Lemma bind_Ok {A B} (r : res A) (f : A -> res B) b :
  bind r f = Ok b -> exists a, r = Ok a /\ f a = Ok b.
Proof. destruct r; simpl; intros E; [eauto|discriminate]. Qed.

Lemma mapM_Ok_map {A B} (f : A -> res B) (g : A -> B) l :
  (forall x, In x l -> f x = Ok (g x)) -> mapM f l = Ok (map g l).
Proof.
  induction l; simpl; intros Hf; auto.
  rewrite (Hf a) by auto; simpl. rewrite IHl; simpl; auto.
Qed.
Lemma mapM_Forall2 {A B} (f : A -> res B) l ys :
  mapM f l = Ok ys <-> Forall2 (fun x y => f x = Ok y) l ys.
Proof.
  revert ys; induction l as [|a l IH]; simpl; intros ys.
  - split; intros E; inversion E; subst; auto.
  - split.
    + intros E. apply bind_Ok in E as (y & E1 & E). apply bind_Ok in E as (ys' & E2 & E).
      inversion E; subst. constructor; auto. apply IH; auto.
    + intros F; inversion F; subst. rewrite H1; simpl.
      match goal with X : Forall2 _ l _ |- _ => apply IH in X; rewrite X end. reflexivity.
Qed.
Lemma mapM_length {A B} (f : A -> res B) l ys : mapM f l = Ok ys -> length ys = length l.
Proof. intros E. apply mapM_Forall2 in E. induction E; simpl; auto. Qed.

(** ** graphs *)
Lemma In_nodes_from_edgelist {V} `{EqDec V} (l : list (V * V)) x :
  In x (g_nodes (from_edgelist l)) <-> exists e, In e l /\ (fst e = x \/ snd e = x).
Proof.
  simpl; rewrite In_uniq, in_flat_map. split; intros (e & He & Hx); exists e; split; auto;
  simpl in *; intuition.
Qed.
Lemma In_edges_from_edgelist {V} `{EqDec V} (l : list (V * V)) e :
  In e (g_edges (from_edgelist l)) <-> In e l.
Proof. simpl; apply In_uniq. Qed.

Lemma NoDup_map_inj_in {A B} (f : A -> B) (l : list A) :
  (forall x y, In x l -> In y l -> f x = f y -> x = y) -> NoDup l -> NoDup (map f l).
Proof.
  induction l; simpl; intros Hf ND; [constructor|]. inversion ND; subst.
  constructor; auto. rewrite in_map_iff. intros (y & E & Hy).
  apply Hf in E; auto. subst; contradiction.
Qed.

Lemma successors_spec {V} `{EqDec V} (l : list (V * V)) x ys :
  successors (from_edgelist l) x = Ok ys ->
  NoDup ys /\ forall y, In y ys <-> In (x, y) l.
Proof.
  unfold successors. destruct (memb x _) eqn:E; [|discriminate]. intros E2; inversion E2; subst; clear E2.
  split.
  - apply NoDup_map_inj_in.
    + intros [a b] [c d]; rewrite !filter_In; simpl; rewrite !eqb_true; intuition congruence.
    + apply NoDup_filter, NoDup_uniq.
  - intros y; rewrite in_map_iff. split.
    + intros ([a b] & E1 & E2). rewrite filter_In in E2; simpl in *.
      rewrite In_uniq, eqb_true in E2. destruct E2; subst; auto.
    + intros Hi. exists (x, y); simpl; split; auto. rewrite filter_In; simpl.
      rewrite In_uniq, eqb_refl; auto.
Qed.
Lemma predecessors_spec {V} `{EqDec V} (l : list (V * V)) y xs :
  predecessors (from_edgelist l) y = Ok xs ->
  NoDup xs /\ forall x, In x xs <-> In (x, y) l.
Proof.
  unfold predecessors. destruct (memb y _) eqn:E; [|discriminate]. intros E2; inversion E2; subst; clear E2.
  split.
  - apply NoDup_map_inj_in.
    + intros [a b] [c d]; rewrite !filter_In; simpl; rewrite !eqb_true; intuition congruence.
    + apply NoDup_filter, NoDup_uniq.
  - intros x; rewrite in_map_iff. split.
    + intros ([a b] & E1 & E2). rewrite filter_In in E2; simpl in *.
      rewrite In_uniq, eqb_true in E2. destruct E2; subst; auto.
    + intros Hi. exists (x, y); simpl; split; auto. rewrite filter_In; simpl.
      rewrite In_uniq, eqb_refl; auto.
Qed.

Lemma Forall2_impl {A B} (P Q : A -> B -> Prop) l l' :
  (forall a b, P a b -> Q a b) -> Forall2 P l l' -> Forall2 Q l l'.
Proof. induction 2; constructor; auto. Qed.
