(** * Lemmas about domains: C41 *)
From Coq Require Import List Arith ZArith Bool Lia Permutation Sorted.
From Verif Require Import Base BaseProof ShapeModel ShapeSpec ShapeProof.
Import ListNotations.

Section DomProof.
  Context {P : Type}.
  Notation shape := (shape P).

  (** ** append_shapes *)
  Lemma nth_set_at {A} (l : list A) i j v d : j < length l -> nth j (set_at l i v) d = if (j =? i)%nat then v else nth j l d.
  Proof.
    revert i j. induction l as [|x l IH]; intros i j H; simpl in H; [lia|].
    destruct i as [|i], j as [|j]; simpl; auto. apply IH. lia.
  Qed.
  Lemma set_at_same {A} (l : list A) i d : i < length l -> set_at l i (nth i l d) = l.
  Proof. revert i. induction l as [|x l IH]; intros [|i] H; simpl in *; try lia; auto. f_equal. apply IH. lia. Qed.
  Lemma append_ok (D : domain P) (l : list shape) d : Forall (fun s => s_dim s = d) l -> d < length D ->
    append_shapes D l = Ok (set_at D d (nth d D [] ++ l)).
  Proof.
    intros F Hd. destruct l as [|s0 l].
    - simpl. rewrite app_nil_r, set_at_same; auto.
    - unfold append_shapes. set (L := s0 :: l) in *.
      assert (M : map s_dim L = repeat d (length L)).
      { clear -F. induction L as [|x L IH]; simpl; auto. inversion F; subst. f_equal; auto. }
      rewrite M. replace (s_dim s0) with d by (inversion F; auto).
      assert (Mn : fold_left Nat.min (repeat d (length L)) d = d).
      { generalize (length L). induction n; simpl; auto. rewrite Nat.min_id. auto. }
      rewrite Mn. assert (C : count_occ Nat.eq_dec (repeat d (length L)) d = length L).
      { generalize (length L). induction n; simpl; auto. destruct (Nat.eq_dec d d); [f_equal; auto|contradiction]. }
      rewrite C, Nat.eqb_refl. unfold get_at. rewrite (nth_error_nth' D []) by auto. reflexivity.
  Qed.

  (** ** create_domain *)
  Variable hash : nat -> Z -> Z.
  Definition key (s : shape) : Z := hash (s_dim s) (s_tag s).
  Definition put (d : dict Z shape) (s : shape) : dict Z shape := dset d (key s) s.
  Definition of_dim (d : nat) (shapes : list shape) : list shape := filter (fun s => (s_dim s =? d)%nat) shapes.

  Lemma put_dict l : fold_left put l [] = dict_of (map (fun s => (key s, s)) l).
  Proof.
    unfold dict_of. generalize (@nil (Z * shape)). induction l as [|s l IH]; intros d; simpl; auto.
  Qed.

  Lemma classify_gen dimension : forall shapes (acc : list (dict Z shape)), length acc = S dimension -> Forall (fun s => s_dim s <= dimension) shapes ->
    exists acc', foldM (fun (acc : list (dict Z shape)) s =>
               do i <- py_index (S dimension) (Z.of_nat dimension - Z.of_nat (s_dim s));
               do d <- get_at acc i;
               Ok (set_at acc i (dset d (hash (s_dim s) (s_tag s)) s))) shapes acc = Ok acc' /\ length acc' = S dimension /\
    forall c, c <= dimension -> nth c acc' [] = fold_left put (of_dim (dimension - c) shapes) (nth c acc []).
  Proof.
    induction shapes as [|s shapes IH]; intros acc L F.
    - exists acc. repeat split; auto.
    - inversion F as [|? ? Hs F']; subst. cbn [foldM].
      assert (I : py_index (S dimension) (Z.of_nat dimension - Z.of_nat (s_dim s)) = Ok (dimension - s_dim s)).
      { unfold py_index. destruct (Z.leb_spec 0 (Z.of_nat dimension - Z.of_nat (s_dim s))); [|lia].
        destruct (Z.ltb_spec (Z.of_nat dimension - Z.of_nat (s_dim s)) (Z.of_nat (S dimension))); [|lia]. f_equal. lia. }
      rewrite I. cbn [bind]. unfold get_at. rewrite (nth_error_nth' acc []) by lia. cbn [bind].
      destruct (IH (set_at acc (dimension - s_dim s) (put (nth (dimension - s_dim s) acc []) s))) as (acc' & E & L' & N); auto.
      { rewrite length_set_at. auto. }
      exists acc'. split; auto. split; auto. intros c Hc. rewrite N by auto. rewrite nth_set_at by lia.
      unfold of_dim. cbn [filter]. destruct (Nat.eqb_spec c (dimension - s_dim s)) as [->|Hn].
      + destruct (Nat.eqb_spec (s_dim s) (dimension - (dimension - s_dim s))); [|lia]. reflexivity.
      + destruct (Nat.eqb_spec (s_dim s) (dimension - c)); [lia|]. reflexivity.
  Qed.

  Lemma append_gen dimension : forall (L : list (dict Z shape)) k (D : domain P), length D = S dimension -> k + length L = S dimension ->
    (forall i, i < length L -> Forall (fun s => s_dim s = dimension - (k + i)) (dvals (nth i L []))) ->
    (forall d, d + k <= dimension -> nth d D [] = []) ->
    exists D', foldM (fun D c_shapes => append_shapes D (dvals c_shapes)) L D = Ok D' /\ length D' = S dimension /\
      forall d, d <= dimension -> nth d D' [] = if (d + k <=? dimension)%nat then dvals (nth (dimension - d - k) L []) else nth d D [].
  Proof.
    induction L as [|c L IH]; intros k D LD LL F E.
    - exists D. split; auto. split; auto. intros d Hd. simpl in LL. destruct (Nat.leb_spec (d + k) dimension); auto. lia.
    - cbn [foldM]. simpl in LL. assert (F0 := F 0 ltac:(simpl; lia)). cbn [nth] in F0. rewrite Nat.add_0_r in F0.
      rewrite (append_ok D _ (dimension - k)) by (auto; lia). cbn [bind]. rewrite (E (dimension - k)) by lia. cbn [app].
      destruct (IH (S k) (set_at D (dimension - k) (dvals c))) as (D' & E' & L' & N').
      + rewrite length_set_at; auto.
      + lia.
      + intros i Hi. specialize (F (S i) ltac:(simpl; lia)). cbn [nth] in F. replace (S k + i) with (k + S i) by lia. auto.
      + intros d Hd. rewrite nth_set_at by lia. destruct (Nat.eqb_spec d (dimension - k)); [lia|]. apply E. lia.
      + exists D'. split; auto. split; auto. intros d Hd. rewrite N' by auto. rewrite nth_set_at by lia.
        destruct (Nat.leb_spec (d + S k) dimension); destruct (Nat.leb_spec (d + k) dimension); try lia.
        * replace (dimension - d - k) with (S (dimension - d - S k)) by lia. reflexivity.
        * destruct (Nat.eqb_spec d (dimension - k)); [|lia]. subst d. replace (dimension - (dimension - k) - k) with 0 by lia. reflexivity.
        * destruct (Nat.eqb_spec d (dimension - k)); [lia|]. reflexivity.
  Qed.

  Lemma dget_last (l : list shape) k v : dget (rev (map (fun s => (key s, s)) l)) k = Some v <->
    exists l1 l2, l = l1 ++ v :: l2 /\ key v = k /\ forall t, In t l2 -> key t <> k.
  Proof.
    induction l as [|s l IH] using rev_ind.
    - simpl. split; [discriminate|]. intros (l1 & l2 & E & _). destruct l1; discriminate.
    - rewrite map_app, rev_app_distr. cbn [map rev app dget]. destruct (eq_dec k (key s)) as [Q|Q].
      + split.
        * intros H. inversion H; subst v. exists l, []. repeat split; auto.
        * intros (l1 & l2 & E & K & N). destruct l2 as [|t l2 _] using rev_ind.
          -- apply app_inj_tail in E as [_ <-]. auto.
          -- exfalso. assert (E' : l ++ [s] = (l1 ++ v :: l2) ++ [t]) by (rewrite <- app_assoc; exact E).
             apply app_inj_tail in E' as [_ ->]. apply (N t); auto. apply in_or_app. right. simpl. auto.
      + rewrite IH. split.
        * intros (l1 & l2 & E & K & N). exists l1, (l2 ++ [s]). rewrite E, <- app_assoc. split; auto. split; auto.
          intros t Ht. apply in_app_or in Ht as [Ht|[<-|[]]]; auto; try (intros Hk; apply Q; auto).
        * intros (l1 & l2 & E & K & N). destruct l2 as [|t l2 _] using rev_ind.
          -- apply app_inj_tail in E as [_ <-]. exfalso. apply Q. auto.
          -- assert (E' : l ++ [s] = (l1 ++ v :: l2) ++ [t]) by (rewrite <- app_assoc; exact E).
             apply app_inj_tail in E' as [E1 ->]. exists l1, l2. split; auto. split; auto. intros u Hu. apply N. apply in_or_app. auto.
  Qed.

  Lemma In_dvals {K V} `{EqDec K} (d : dict K V) v : NoDup (dkeys d) -> (In v (dvals d) <-> exists k, dget d k = Some v).
  Proof.
    intros N. unfold dvals. rewrite in_map_iff. split.
    - intros ([k v'] & <- & Hi). exists k. apply dget_NoDup; auto.
    - intros (k & Hk). apply dget_Some_In in Hk. exists (k, v). auto.
  Qed.

  Lemma vals_last (l : list shape) v : In v (dvals (dict_of (map (fun s => (key s, s)) l))) <->
    exists l1 l2, l = l1 ++ v :: l2 /\ forall t, In t l2 -> key t <> key v.
  Proof.
    rewrite In_dvals by apply NoDup_dict_of. split.
    - intros (k & Hk). rewrite dget_dict_of in Hk. apply dget_last in Hk as (l1 & l2 & E & K & N). exists l1, l2. split; auto. intros t Ht. rewrite K. auto.
    - intros (l1 & l2 & E & N). exists (key v). rewrite dget_dict_of. apply dget_last. exists l1, l2. auto.
  Qed.

  (** the values of one dimension have different tags *)
  Lemma vals_tags d (l : list shape) : Forall (fun s => s_dim s = d) l -> NoDup (map s_tag (dvals (dict_of (map (fun s => (key s, s)) l)))).
  Proof.
    intros F. set (D := dict_of (map (fun s => (key s, s)) l)).
    assert (K : forall p, In p D -> fst p = hash d (s_tag (snd p))).
    { intros [k v] Hp. assert (G : dget D k = Some v) by (apply dget_NoDup; auto; apply NoDup_dict_of). unfold D in G. rewrite dget_dict_of in G.
      apply dget_last in G as (l1 & l2 & E & Kv & _). simpl. rewrite <- Kv. unfold key. rewrite Forall_forall in F. rewrite (F v); auto. rewrite E. apply in_or_app. right. left. auto. }
    assert (N : NoDup (dkeys D)) by apply NoDup_dict_of. clearbody D. unfold dkeys, dvals in *. clear F.
    induction D as [|[k v] D IH]; simpl; [constructor|]. inversion N; subst. constructor.
    - intros Hi. apply H1. assert (Kk := K (k, v) ltac:(left; auto)). simpl in Kk. rewrite Kk. rewrite map_map in Hi. apply in_map_iff in Hi as (p & T & Hp).
      apply in_map_iff. exists p. split; auto. rewrite (K p) by (right; auto). simpl in T. rewrite T. reflexivity.
    - apply IH; auto. intros p Hp. apply K. right. auto.
  Qed.

  Lemma of_dim_last d (shapes : list shape) v :
    (exists l1 l2, of_dim d shapes = l1 ++ v :: l2 /\ forall t, In t l2 -> key t <> key v) <->
    s_dim v = d /\ exists l1 l2, shapes = l1 ++ v :: l2 /\ forall t, In t l2 -> s_dim t = d -> key t <> key v.
  Proof.
    split.
    - revert shapes. intros shapes (l1 & l2 & E & N). revert l1 E. induction shapes as [|s shapes IH]; intros l1 E; [destruct l1; discriminate|].
      unfold of_dim in E. cbn [filter] in E. destruct (Nat.eqb_spec (s_dim s) d) as [Hd|Hd].
      + destruct l1 as [|x l1]; simpl in E.
        * inversion E; subst s. split; auto. exists [], shapes. split; auto. intros t Ht Hdt. apply N. rewrite <- H1. apply filter_In. split; auto. apply Nat.eqb_eq. auto.
        * inversion E; subst x. destruct (IH l1) as (D & m1 & m2 & E2 & N2); auto. split; auto. exists (s :: m1), m2. rewrite E2. auto.
      + destruct (IH l1 E) as (D & m1 & m2 & E2 & N2). split; auto. exists (s :: m1), m2. rewrite E2. auto.
    - intros (D & l1 & l2 & -> & N). exists (of_dim d l1), (of_dim d l2). unfold of_dim. rewrite filter_app. cbn [filter].
      destruct (Nat.eqb_spec (s_dim v) d); [|contradiction]. split; auto. intros t Ht. apply filter_In in Ht as [Ht Hd]. apply Nat.eqb_eq in Hd. auto.
  Qed.

  Lemma create_domain_gen dimension (shapes : list shape) : Forall (fun s => s_dim s <= dimension) shapes ->
    exists D, create_domain hash dimension shapes = Ok D /\ length D = S dimension /\
      forall d, d <= dimension -> nth d D [] = dvals (dict_of (map (fun s => (key s, s)) (of_dim d shapes))).
  Proof.
    intros F. unfold create_domain, classify. destruct (classify_gen dimension shapes (repeat [] (S dimension))) as (acc & E & L & N); auto.
    { rewrite repeat_length. auto. }
    rewrite E. cbn [bind].
    assert (N' : forall c, c <= dimension -> nth c acc [] = dict_of (map (fun s => (key s, s)) (of_dim (dimension - c) shapes))).
    { intros c Hc. rewrite N by auto. rewrite nth_repeat. apply put_dict. }
    destruct (append_gen dimension acc 0 (empty_domain dimension)) as (D & E' & L' & ND).
    - unfold empty_domain. rewrite repeat_length. auto.
    - simpl. auto.
    - intros i Hi. rewrite N' by lia. apply Forall_forall. intros v Hv. apply vals_last in Hv. apply of_dim_last in Hv as [Hv _]. rewrite Hv. f_equal.
    - intros d Hd. unfold empty_domain. apply nth_repeat.
    - exists D. split; auto. split; auto. intros d Hd. rewrite ND by auto. rewrite Nat.add_0_r. destruct (Nat.leb_spec d dimension); [|lia].
      rewrite Nat.sub_0_r, N' by lia. replace (dimension - (dimension - d)) with d by lia. reflexivity.
  Qed.

  Lemma create_domain_lemma dimension (shapes : list shape) : Forall (fun s => s_dim s <= dimension) shapes ->
    (forall s t, In s shapes -> In t shapes -> s_dim s = s_dim t -> hash (s_dim s) (s_tag s) = hash (s_dim t) (s_tag t) -> s_tag s = s_tag t) ->
    exists D, create_domain hash dimension shapes = Ok D /\ length D = S dimension /\
      forall d, d <= dimension -> NoDup (map s_tag (nth d D [])) /\ forall s, In s (nth d D []) <-> s_dim s = d /\ last_of shapes s.
  Proof.
    intros F H. destruct (create_domain_gen dimension shapes F) as (D & E & L & N). exists D. split; auto. split; auto.
    intros d Hd. rewrite N by auto. split.
    - apply (vals_tags d). apply Forall_forall. intros s Hs. apply filter_In in Hs as [_ Hs]. apply Nat.eqb_eq in Hs. auto.
    - intros s. rewrite vals_last, of_dim_last. split.
      + intros (Ds & l1 & l2 & E2 & N2). split; auto. exists l1, l2. split; auto. intros t Ht (Dt & Tt). apply (N2 t Ht); [congruence|]. unfold key. rewrite Dt, Tt. auto.
      + intros (Ds & l1 & l2 & E2 & N2). split; auto. exists l1, l2. split; auto. intros t Ht Dt K. apply (N2 t Ht). split; [congruence|].
        apply H; auto; try congruence; rewrite E2; apply in_or_app; right; [right; auto|left; auto].
  Qed.
End DomProof.

(** the hash of -1 and -2 *)
Lemma collision_lemma {P} (tuple_hash : Z -> Z -> Z) (p q : P) :
  let a := new_vertex (-1) p in let b := new_vertex (-2) q in
  create_domain (fun d t => tuple_hash (int_hash (Z.of_nat d)) (int_hash t)) 1 [a; b] = Ok [[b]; []].
Proof.
  intros a b. unfold create_domain, classify. cbn [repeat foldM].
  change (py_index 2 (Z.of_nat 1 - Z.of_nat (s_dim a))) with (@Ok nat 1). change (py_index 2 (Z.of_nat 1 - Z.of_nat (s_dim b))) with (@Ok nat 1).
  cbn [bind get_at nth_error set_at]. change (s_dim a) with 0. change (s_dim b) with 0. change (s_tag a) with (-1)%Z. change (s_tag b) with (-2)%Z.
  change (int_hash (-1)) with (-2)%Z. change (int_hash (-2)) with (-2)%Z. cbn [dset]. destruct (eq_dec _ _) as [_|N]; [reflexivity|contradiction N; reflexivity].
Qed.
