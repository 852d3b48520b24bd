(** * Lemmas about the cell registry *)
From Coq Require Import List Arith ZArith Bool Lia String Decimal DecimalString DecimalZ.
From Verif Require Import Base BaseProof RegistryModel.
Import ListNotations.

Lemma app_str_nil s : String.append s EmptyString = s.
Proof. induction s; simpl; congruence. Qed.
Lemma app_str_assoc a b c : String.append (String.append a b) c = String.append a (String.append b c).
Proof. induction a; simpl; congruence. Qed.

Fixpoint cstr (l : list Z) : string :=
  match l with [] => EmptyString | z :: l' => String.append (str_int z) (cstr l') end.
Lemma fold_cstr l s : fold_left (fun k i => String.append k (str_int i)) l s = String.append s (cstr l).
Proof.
  revert s; induction l; simpl; intros; [rewrite app_str_nil; auto|].
  rewrite IHl. apply app_str_assoc.
Qed.
Lemma concat_cstr l : concat_str l = cstr l.
Proof. unfold concat_str. rewrite fold_cstr. reflexivity. Qed.

Lemma to_int_not_nil z : Z.to_int z <> Pos Nil /\ Z.to_int z <> Neg Nil.
Proof.
  split; intros E.
  - pose proof (DecimalZ.of_to z) as F. rewrite E in F. destruct z; cbv in F; try discriminate;
    cbv in E; discriminate.
  - pose proof (DecimalZ.of_to z) as F. rewrite E in F. destruct z; cbv in F; try discriminate;
    cbv in E; discriminate.
Qed.
Lemma str_int_inj a b : str_int a = str_int b -> a = b.
Proof.
  unfold str_int. intros E. apply (f_equal NilZero.int_of_string) in E.
  rewrite !NilZero.isi in E by apply to_int_not_nil. inversion E as [E'].
  apply (f_equal Z.of_int) in E'. rewrite !DecimalZ.of_to in E'. auto.
Qed.
Lemma append_inj a b c d :
  String.length a = String.length b -> String.append a c = String.append b d -> a = b /\ c = d.
Proof.
  revert b; induction a; destruct b; simpl; intros L E; try discriminate; auto.
  inversion E; subst. inversion L. destruct (IHa b H0 H1); subst; auto.
Qed.
Lemma cstr_inj l l' :
  Forall2 (fun a b => String.length (str_int a) = String.length (str_int b)) l l' ->
  cstr l = cstr l' -> l = l'.
Proof.
  induction 1; simpl; intros E; auto. apply append_inj in E as [E1 E2]; auto.
  apply str_int_inj in E1. rewrite IHForall2; congruence.
Qed.

Lemma key_inj r r' k :
  key_of r = Ok k -> key_of r' = Ok k ->
  Forall2 (fun a b => String.length (str_int a) = String.length (str_int b))
          (r_sign r :: r_type r :: r_tags r) (r_sign r' :: r_type r' :: r_tags r') -> r = r'.
Proof.
  unfold key_of, chunk. intros H H' F.
  destruct (_ <? _) in H; [discriminate|]. destruct (_ <? _) in H'; [discriminate|]. cbn [bind] in *.
  assert (H1 : cstr (r_sign r :: r_type r :: r_tags r ++ repeat 0%Z (4 - List.length (r_tags r)))
             = cstr (r_sign r' :: r_type r' :: r_tags r' ++ repeat 0%Z (4 - List.length (r_tags r'))))
    by (rewrite <- !concat_cstr; congruence).
  clear H H'.
  inversion F as [|? ? ? ? F1 F2]; subst. inversion F2 as [|? ? ? ? F3 F4]; subst.
  apply cstr_inj in H1.
  - injection H1 as E1 E2 H3.
    assert (r_tags r = r_tags r').
    { assert (L : List.length (r_tags r) = List.length (r_tags r')) by (clear - F4; induction F4; simpl; auto).
      apply (f_equal (firstn (List.length (r_tags r)))) in H3.
      rewrite firstn_app, firstn_all, Nat.sub_diag in H3. simpl in H3. rewrite app_nil_r in H3.
      rewrite L in H3. rewrite firstn_app, firstn_all, Nat.sub_diag in H3. simpl in H3.
      rewrite app_nil_r in H3. auto. }
    destruct r, r'; simpl in *; congruence.
  - constructor; auto. constructor; auto. apply Forall2_app; auto.
    replace (List.length (r_tags r')) with (List.length (r_tags r))
      by (clear - F4; induction F4; simpl; auto).
    clear H1. induction (4 - List.length (r_tags r)); simpl; constructor; auto.
Qed.

Record reg_ok (g : registry) : Prop := {
  ro_keys : NoDup (dkeys (g_data g));
  ro_len : List.length (g_cells g) = List.length (g_data g);
  ro_at : forall k id, dget (g_data g) k = Some id ->
            exists r, nth_error (g_cells g) id = Some r /\ key_of r = Ok k }.

Lemma empty_ok : reg_ok empty_registry.
Proof. constructor; simpl; try constructor; discriminate. Qed.

Definition served (g : registry) (r : request) (id : nat) : Prop :=
  exists k, key_of r = Ok k /\ dget (g_data g) k = Some id.

Lemma insert_ok g r g' id :
  reg_ok g -> insert_cell_data g r = Ok (g', id) ->
  reg_ok g' /\ served g' r id /\ (forall r0 i, served g r0 i -> served g' r0 i).
Proof.
  intros O H. unfold insert_cell_data in H. destruct (key_of r) as [k|] eqn:K; [|discriminate].
  simpl in H. destruct (dget (g_data g) k) as [i|] eqn:D.
  - apply bind_Ok in H as (? & _ & H). inversion H; subst. split; [auto|split; [exists k; auto|auto]].
  - inversion H; subst; clear H. split; [|split].
    + constructor; simpl.
      * apply NoDup_dset, O.
      * rewrite dset_new by auto. rewrite !app_length; simpl. rewrite (ro_len _ O). auto.
      * intros k' id. rewrite dget_dset. destruct (eq_dec k' k).
        -- intros E; inversion E; subst. exists r. rewrite <- (ro_len _ O).
           rewrite nth_error_app2, Nat.sub_diag by lia. auto.
        -- intros E. destruct (ro_at _ O _ _ E) as (r0 & H1 & H2). exists r0; split; auto.
           rewrite nth_error_app1; auto. apply nth_error_Some; congruence.
    + exists k. simpl. rewrite dget_dset_same; auto.
    + intros r0 i (k0 & H1 & H2). exists k0; split; auto. simpl. rewrite dget_dset.
      destruct (eq_dec k0 k); congruence.
Qed.
Lemma run_ok rs g g' ids :
  reg_ok g -> run_inserts g rs = Ok (g', ids) ->
  reg_ok g' /\ Forall2 (served g') rs ids /\ (forall r0 i, served g r0 i -> served g' r0 i).
Proof.
  revert g ids; induction rs as [|r rs IH]; simpl; intros g ids O H.
  - inversion H; subst; auto.
  - apply bind_Ok in H as ([g1 id] & H1 & H). apply bind_Ok in H as ([g2 ids'] & H2 & H).
    inversion H; subst; clear H. destruct (insert_ok _ _ _ _ O H1) as (O1 & S1 & M1).
    destruct (IH _ _ O1 H2) as (O2 & F & M2). split; auto.
Qed.

Lemma served_eq g r r' i i' : reg_ok g -> served g r i -> served g r' i' -> (i = i' <-> key_of r = key_of r').
Proof.
  intros O (k & K & D) (k' & K' & D'). split; intros E.
  - subst i'. destruct (ro_at _ O _ _ D) as (x & X1 & X2). destruct (ro_at _ O _ _ D') as (y & Y1 & Y2).
    congruence.
  - congruence.
Qed.

Lemma F2_nth {A B} (P : A -> B -> Prop) l l' i a b :
  Forall2 P l l' -> nth_error l i = Some a -> nth_error l' i = Some b -> P a b.
Proof.
  intros F; revert i; induction F; intros [|i]; simpl; try discriminate; eauto.
  intros E E'; inversion E; inversion E'; subst; auto.
Qed.

Lemma C07_key_lemma rs g ids :
  run_inserts empty_registry rs = Ok (g, ids) ->
  forall i j r r' a b, nth_error rs i = Some r -> nth_error rs j = Some r' ->
    nth_error ids i = Some a -> nth_error ids j = Some b ->
    (a = b <-> key_of r = key_of r').
Proof.
  intros H i j r r' a b Hi Hj Ha Hb. destruct (run_ok _ _ _ _ empty_ok H) as (O & F & _).
  eapply served_eq; eauto; eapply F2_nth; eauto.
Qed.
Lemma C07_lemma rs g ids :
  run_inserts empty_registry rs = Ok (g, ids) ->
  (forall r r', In r rs -> In r' rs ->
     Forall2 (fun a b => String.length (str_int a) = String.length (str_int b))
          (r_sign r :: r_type r :: r_tags r) (r_sign r' :: r_type r' :: r_tags r')) ->
  forall i j r r' a b, nth_error rs i = Some r -> nth_error rs j = Some r' ->
    nth_error ids i = Some a -> nth_error ids j = Some b ->
    (a = b <-> r = r') /\ nth_error (g_cells g) a = Some r.
Proof.
  intros H U i j r r' a b Hi Hj Ha Hb. pose proof (C07_key_lemma _ _ _ H _ _ _ _ _ _ Hi Hj Ha Hb) as K.
  destruct (run_ok _ _ _ _ empty_ok H) as (O & F & _).
  destruct (F2_nth _ _ _ _ _ _ F Hi Ha) as (k & K1 & K2).
  destruct (F2_nth _ _ _ _ _ _ F Hj Hb) as (k' & K1' & K2').
  split.
  - rewrite K. split; [|congruence]. intros E. eapply key_inj with (k := k); try congruence.
    apply U; eapply nth_error_In; eauto.
  - destruct (ro_at _ O _ _ K2) as (r0 & R1 & R2). rewrite R1. f_equal.
    (* the registered request with the same key is one of the sequence *)
    assert (In r0 rs).
    { assert (G : forall rs g g' ids, run_inserts g rs = Ok (g', ids) ->
                forall x, In x (g_cells g') -> In x (g_cells g) \/ In x rs).
      { clear. induction rs as [|r rs IH]; simpl; intros g g' ids H x Hx.
        - inversion H; subst; auto.
        - apply bind_Ok in H as ([g1 id] & H1 & H). apply bind_Ok in H as ([g2 ids'] & H2 & H).
          inversion H; subst; clear H. destruct (IH _ _ _ H2 x Hx) as [Q|Q]; auto.
          unfold insert_cell_data in H1. destruct (key_of r); [|discriminate]. simpl in H1.
          destruct (dget (g_data g) s).
          + apply bind_Ok in H1 as (? & _ & H1). inversion H1; subst; auto.
          + inversion H1; subst. simpl in Q. apply in_app_iff in Q as [Q|[Q|[]]]; auto. }
      destruct (G _ _ _ _ H r0) as [[]|]; auto. eapply nth_error_In; eauto. }
    eapply key_inj; eauto. apply U; auto. eapply nth_error_In; eauto.
Qed.
