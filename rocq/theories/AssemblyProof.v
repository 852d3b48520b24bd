(** * Lemmas: assembly, C24-C29 *)
From Coq Require Import List Arith ZArith Bool String Lia Permutation.
From Verif Require Import Base BaseProof AssemblyModel AssemblySpec.
Import ListNotations.
Open Scope list_scope.

Section Proof.
  Variables (V : Type) (add : V -> V -> V) (zero : V).
  Hypothesis EX : exact add zero.
  Variables (res_g n : nat).
  Notation sys := (sys V).
  Notation vsum := (vsum V add zero).

  Lemma add_assoc a b c : add (add a b) c = add a (add b c). Proof. apply EX. Qed.
  Lemma add_comm a b : add a b = add b a. Proof. apply EX. Qed.
  Lemma add_0_r a : add a zero = a. Proof. apply EX. Qed.
  Lemma add_0_l a : add zero a = a. Proof. rewrite add_comm. apply add_0_r. Qed.
  Lemma vsum_app l l' : vsum (l ++ l') = add (vsum l) (vsum l').
  Proof. induction l; simpl; [rewrite add_0_l; auto|]. rewrite IHl, add_assoc. auto. Qed.
  Lemma vsum_perm l l' : Permutation l l' -> vsum l = vsum l'.
  Proof.
    induction 1; simpl; auto.
    - congruence.
    - rewrite <- !add_assoc. rewrite (add_comm y x). auto.
    - congruence.
  Qed.

  (** entries *)
  Definition sum_r (g : Z) (er : list (Z * V)) : V := vsum (map snd (filter (fun p => Z.eqb (fst p) g) er)).
  Definition sum_j (g h : Z) (ej : list (Z * Z * V)) : V :=
    vsum (map snd (filter (fun p => Z.eqb (fst (fst p)) g && Z.eqb (snd (fst p)) h) ej)).
  Lemma sum_r_app g a b : sum_r g (a ++ b) = add (sum_r g a) (sum_r g b).
  Proof. unfold sum_r. rewrite filter_app, map_app, vsum_app. auto. Qed.
  Lemma sum_j_app g h a b : sum_j g h (a ++ b) = add (sum_j g h a) (sum_j g h b).
  Proof. unfold sum_j. rewrite filter_app, map_app, vsum_app. auto. Qed.

  Record delta (s s' : sys) (er : list (Z * V)) (ej : list (Z * Z * V)) (cl : list (weak_form V * call V)) : Prop := {
    d_other : forall r, r <> res_g -> vec V s' r = vec V s r;
    d_nvec : List.length (vecs V s') = List.length (vecs V s);
    d_len : List.length (vec V s' res_g) = List.length (vec V s res_g);
    d_res : forall g x, nth_error (vec V s res_g) g = Some x ->
              nth_error (vec V s' res_g) g = Some (add x (sum_r (Z.of_nat g) er));
    d_jac : forall r c, jac V s' r c = add (jac V s r c) (sum_j r c ej);
    d_calls : calls V s' = calls V s ++ cl }.

  Lemma delta_refl s : delta s s [] [] [].
  Proof.
    constructor; auto.
    - intros g x H. unfold sum_r; simpl. rewrite add_0_r. auto.
    - intros. unfold sum_j; simpl. rewrite add_0_r. auto.
    - rewrite app_nil_r. auto.
  Qed.
  Lemma delta_trans s s' s'' er ej cl er' ej' cl' :
    delta s s' er ej cl -> delta s' s'' er' ej' cl' -> delta s s'' (er ++ er') (ej ++ ej') (cl ++ cl').
  Proof.
    intros [A1 A2 A3 A4 A5 A6] [B1 B2 B3 B4 B5 B6]. constructor.
    - intros r Hr. rewrite B1, A1; auto.
    - congruence.
    - congruence.
    - intros g x H. apply A4 in H. apply B4 in H. rewrite sum_r_app, <- add_assoc. auto.
    - intros. rewrite B5, A5, sum_j_app, add_assoc. auto.
    - rewrite B6, A6, app_assoc. auto.
  Qed.

  Definition ready (s : sys) : Prop := res_g < List.length (vecs V s) /\ List.length (vec V s res_g) = n.
  Lemma ready_delta s s' er ej cl : ready s -> delta s s' er ej cl -> ready s'.
  Proof. intros [A B] D. split. - rewrite (d_nvec _ _ _ _ _ D); auto. - rewrite (d_len _ _ _ _ _ D); auto. Qed.

  Lemma np_index_ok len g : (0 <= g < Z.of_nat len)%Z -> np_index len g = Ok (Z.to_nat g).
  Proof.
    intros. unfold np_index. destruct (Z.ltb_spec g 0); [lia|]. cbv zeta.
    destruct (Z.leb_spec 0 g); [|lia]. destruct (Z.ltb_spec g (Z.of_nat len)); [|lia]. reflexivity.
  Qed.

  Lemma nth_error_set_at {A} (l : list A) i v j :
    i < List.length l -> nth_error (set_at l i v) j = if i =? j then Some v else nth_error l j.
  Proof.
    revert i j; induction l as [|a l IH]; intros [|i] [|j] H; simpl in *; try lia; auto.
    apply IH. lia.
  Qed.
  Lemma length_set_at {A} (l : list A) i v : List.length (set_at l i v) = List.length l.
  Proof. revert i; induction l; destruct i; simpl; auto. Qed.
  Lemma vec_set s r v r' : r < List.length (vecs V s) ->
    nth r' (set_at (vecs V s) r v) [] = if r =? r' then v else vec V s r'.
  Proof.
    intros H. unfold vec. destruct (Nat.lt_ge_cases r' (List.length (vecs V s))) as [L|L].
    - pose proof (nth_error_set_at (vecs V s) r v r' H) as E. destruct (r =? r').
      + apply nth_error_nth; auto.
      + rewrite (nth_error_nth' _ []) in E by (rewrite length_set_at; auto).
        rewrite (nth_error_nth' (vecs V s) []) in E by auto. congruence.
    - destruct (Nat.eqb_spec r r'); [lia|]. rewrite !nth_overflow; auto. rewrite length_set_at; auto.
  Qed.

  Lemma add_res_ok s g v : ready s -> (0 <= g < Z.of_nat n)%Z ->
    exists s', add_res V add res_g g (Ok v) s = (s', Ok tt) /\ delta s s' [(g, v)] [] [].
  Proof.
    intros [R L] Hg. unfold add_res. rewrite L, np_index_ok by auto.
    unfold get_at. destruct (nth_error (vec V s res_g) (Z.to_nat g)) as [old|] eqn:E.
    2:{ apply nth_error_None in E. lia. }
    eexists. split; [reflexivity|]. constructor; simpl.
    - intros r Hr. unfold vec at 1. cbn [vecs]. rewrite vec_set by auto. destruct (Nat.eqb_spec res_g r); [congruence|auto].
    - apply length_set_at.
    - unfold vec at 1. cbn [vecs]. rewrite vec_set by auto. rewrite Nat.eqb_refl. apply length_set_at.
    - intros k x Hk. unfold vec at 1. cbn [vecs]. rewrite vec_set by auto. rewrite Nat.eqb_refl.
      rewrite nth_error_set_at by lia. unfold sum_r. simpl.
      destruct (Nat.eqb_spec (Z.to_nat g) k) as [Q|Q].
      + destruct (Z.eqb_spec g (Z.of_nat k)); [|lia]. simpl. rewrite add_0_r. subst k. congruence.
      + destruct (Z.eqb_spec g (Z.of_nat k)); [lia|]. simpl. rewrite add_0_r. auto.
    - intros. unfold sum_j; simpl. rewrite add_0_r. auto.
    - rewrite app_nil_r; auto.
  Qed.

  Lemma rhs_ok r : forall d s k, ready s -> (forall g, In g d -> (0 <= g < Z.of_nat n)%Z) ->
    k + List.length d = List.length r ->
    exists s', scatter_rhs_from V add res_g k r d s = (s', Ok tt) /\ delta s s' (combine d (skipn k r)) [] [].
  Proof.
    induction d as [|g d IH]; intros s k R H L; simpl.
    - exists s. split; [reflexivity|]. apply delta_refl.
    - destruct (nth_error r k) as [v|] eqn:E.
      2:{ apply nth_error_None in E. simpl in L. lia. }
      destruct (add_res_ok s g v R) as (s1 & E1 & D1); [apply H; left; auto|].
      destruct (IH s1 (k + 1)) as (s2 & E2 & D2).
      + eapply ready_delta; eauto.
      + intros; apply H; right; auto.
      + simpl in L. lia.
      + exists s2. unfold bindS, get_at. rewrite E, E1. split; auto.
        assert (SK : skipn k r = v :: skipn (k + 1) r).
        { clear - E. revert k E. induction r as [|a r IH]; intros [|k] E; simpl in *; try discriminate.
          - inversion E; auto.
          - apply IH; auto. }
        rewrite SK. change (combine (g :: d) (v :: skipn (k + 1) r)) with ([(g, v)] ++ combine d (skipn (k + 1) r)).
        apply (delta_trans _ _ _ _ _ _ _ _ _ D1 D2).
  Qed.

  Lemma add_jac_ok s r c v : (0 <= r < Z.of_nat n)%Z -> (0 <= c < Z.of_nat n)%Z ->
    exists s', add_jac V add (Z.of_nat n) r c v s = (s', Ok tt) /\ delta s s' [] [((r, c), v)] [].
  Proof.
    intros Hr Hc. unfold add_jac.
    destruct (Z.ltb_spec r 0); [lia|]. destruct (Z.ltb_spec c 0); [lia|].
    destruct (Z.leb_spec (Z.of_nat n) r); [lia|]. destruct (Z.leb_spec (Z.of_nat n) c); [lia|]. simpl.
    eexists. split; [reflexivity|]. constructor; simpl; auto.
    - intros g x Hx. unfold sum_r; simpl. rewrite add_0_r. auto.
    - intros r' c'. unfold sum_j; simpl. rewrite (Z.eqb_sym r r'), (Z.eqb_sym c c').
      destruct ((r' =? r)%Z && (c' =? c)%Z); simpl; rewrite add_0_r; auto.
    - rewrite app_nil_r; auto.
  Qed.

  (** the expansion of rows and columns matches the row-major flattening *)
  Lemma combine_app {A B} (a a' : list A) (b b' : list B) : List.length a = List.length b ->
    combine (a ++ a') (b ++ b') = combine a b ++ combine a' b'.
  Proof. revert b; induction a; destruct b; simpl; intros; try discriminate; auto. rewrite IHa; auto. Qed.
  Lemma combine_repeat {A B} (x : A) (l : list B) : combine (repeat x (List.length l)) l = map (pair x) l.
  Proof. induction l; simpl; congruence. Qed.
  Definition entries (outer d : list Z) (j : list (list V)) : list (Z * Z * V) :=
    flat_map (fun p => combine (map (pair (fst p)) d) (snd p)) (combine outer j).
  Lemma expansion d outer j : List.length j = List.length outer ->
    Forall (fun row => List.length row = List.length d) j ->
    combine (combine (np_repeat outer (List.length d)) (List.concat (repeat d (List.length outer)))) (List.concat j)
    = entries outer d j /\
    List.length (np_repeat outer (List.length d)) = List.length (List.concat j) /\
    List.length (List.concat (repeat d (List.length outer))) = List.length (List.concat j).
  Proof.
    revert j; induction outer as [|g outer IH]; intros [|row j] L F; simpl in L; try discriminate.
    - simpl. auto.
    - inversion F; subst. destruct (IH j) as (E & L1 & L2); auto.
      unfold entries. cbn [combine flat_map fst snd].
      unfold np_repeat in *. cbn [flat_map repeat List.length List.concat].
      rewrite combine_app by (rewrite repeat_length; auto). rewrite combine_app.
      2:{ rewrite combine_length, repeat_length. lia. }
      rewrite E, combine_repeat. split; [reflexivity|].
      rewrite !app_length, L1, L2, repeat_length. lia.
  Qed.

  Lemma forS_entries (row col : list Z) (data : list V) : forall len k s,
    (forall g, In g row -> (0 <= g < Z.of_nat n)%Z) -> (forall g, In g col -> (0 <= g < Z.of_nat n)%Z) ->
    List.length row = List.length data -> List.length col = List.length data -> k + len = List.length data ->
    exists s', forS V (fun k => bindS V (lift V (get_at row k)) (fun r =>
                     bindS V (lift V (get_at col k)) (fun c =>
                     bindS V (lift V (get_at data k)) (fun v => add_jac V add (Z.of_nat n) r c v)))) (seq k len) s
               = (s', Ok tt) /\ delta s s' [] (skipn k (combine (combine row col) data)) [].
  Proof.
    induction len as [|len IH]; intros k s HR HC LR LC L.
    - exists s. split; [reflexivity|]. rewrite skipn_all2; [apply delta_refl|].
      rewrite !combine_length. lia.
    - destruct (nth_error row k) as [r|] eqn:Er; [|apply nth_error_None in Er; lia].
      destruct (nth_error col k) as [c|] eqn:Ec; [|apply nth_error_None in Ec; lia].
      destruct (nth_error data k) as [v|] eqn:Ed; [|apply nth_error_None in Ed; lia].
      destruct (add_jac_ok s r c v) as (s1 & E1 & D1).
      { apply HR. eapply nth_error_In; eauto. } { apply HC. eapply nth_error_In; eauto. }
      destruct (IH (S k) s1 HR HC LR LC) as (s2 & E2 & D2); [lia|].
      exists s2. split.
      + cbn [seq forS]. unfold bindS at 1. unfold bindS at 1. unfold lift at 1, get_at at 1. rewrite Er.
        unfold bindS at 1. unfold lift at 1, get_at at 1. rewrite Ec.
        unfold bindS at 1. unfold lift at 1, get_at at 1. rewrite Ed. rewrite E1. exact E2.
      + assert (N : nth_error (combine (combine row col) data) k = Some ((r, c), v)).
        { clear - Er Ec Ed. revert k col data Er Ec Ed. induction row as [|a row IH]; intros [|k] [|b col] [|x data] H1 H2 H3;
            simpl in *; try discriminate; [congruence|]. apply IH; auto. }
        assert (SK : skipn k (combine (combine row col) data) = ((r, c), v) :: skipn (S k) (combine (combine row col) data)).
        { clear - N. revert k N. generalize (combine (combine row col) data). induction l as [|a l IH]; intros [|k] E; simpl in *; try discriminate.
          - inversion E; auto.
          - apply IH; auto. }
        rewrite SK. apply (delta_trans s s1 s2 [] [((r, c), v)] [] [] _ [] D1 D2).
  Qed.

  Lemma In_np_repeat {A} (l : list A) m x : In x (np_repeat l m) -> In x l.
  Proof.
    unfold np_repeat. intros H. apply in_flat_map in H as (y & Hy & H). apply repeat_spec in H. subst; auto.
  Qed.
  Lemma In_np_tile {A} (l : list A) m x : In x (np_tile l m) -> In x l.
  Proof.
    unfold np_tile. intros H. apply in_concat in H as (y & Hy & H). apply repeat_spec in Hy. subst; auto.
  Qed.

  Lemma lhs_ok s d j : (forall g, In g d -> (0 <= g < Z.of_nat n)%Z) -> List.length j = List.length d ->
    Forall (fun row => List.length row = List.length d) j ->
    exists s', scatter_lhs V add (Z.of_nat n) j d s = (s', Ok tt) /\ delta s s' [] (entries d d j) [].
  Proof.
    intros H L F. destruct (expansion d d j L F) as (E & L1 & L2). unfold scatter_lhs. cbv zeta.
    destruct (forS_entries (np_repeat d (List.length d)) (np_tile d (List.length d)) (List.concat j)
                (List.length (List.concat j)) 0 s) as (s' & E' & D'); auto.
    - intros g Hg. apply H. eapply In_np_repeat; eauto.
    - intros g Hg. apply H. eapply In_np_tile; eauto.
    - exists s'. split; [exact E'|]. simpl in D'. unfold np_tile in D'. rewrite E in D'. exact D'.
  Qed.

  Lemma generic_ok s d r j : ready s -> (forall g, In g d -> (0 <= g < Z.of_nat n)%Z) ->
    List.length r = List.length d -> List.length j = List.length d ->
    Forall (fun row => List.length row = List.length d) j ->
    exists s', scatter_generic V add res_g (Z.of_nat n) (r, j) d s = (s', Ok tt) /\
               delta s s' (combine d r) (entries d d j) [].
  Proof.
    intros R H L1 L2 F. unfold scatter_generic, scatter_rhs. cbn [fst snd].
    destruct (rhs_ok r d s 0 R H) as (s1 & E1 & D1); [lia|].
    destruct (lhs_ok s1 d j H L2 F) as (s2 & E2 & D2).
    exists s2. unfold bindS. rewrite E1. split; auto.
    pose proof (delta_trans _ _ _ _ _ _ _ _ _ D1 D2) as D. simpl in D. rewrite app_nil_r in D. exact D.
  Qed.

  (** contributions by destination *)
  Lemma sum_r_contrib g (w : local V) :
    sum_r g (combine (lo_dest V w) (lo_res V w)) = res_contrib V add zero g w.
  Proof. reflexivity. Qed.
  Lemma sum_j_contrib g h (w : local V) :
    sum_j g h (entries (lo_dest V w) (lo_dest V w) (lo_jac V w)) = jac_contrib V add zero g h w.
  Proof.
    unfold sum_j, jac_contrib, entries. f_equal.
    induction (combine (lo_dest V w) (lo_jac V w)) as [|[a row] l IH]; simpl; auto.
    rewrite filter_app, map_app, IH. clear IH.
    assert (E : map snd (filter (fun p : Z * Z * V => (fst (fst p) =? g)%Z && (snd (fst p) =? h)%Z)
                  (combine (map (pair a) (lo_dest V w)) row))
              = if (a =? g)%Z then map snd (filter (fun c => (fst c =? h)%Z) (combine (lo_dest V w) row)) else []).
    { generalize (lo_dest V w). intros d. revert row. induction d as [|b d IH]; intros [|x row]; simpl;
        try (destruct (a =? g)%Z; reflexivity).
      destruct (a =? g)%Z eqn:Q; simpl.
      - specialize (IH row). destruct (b =? h)%Z; simpl; rewrite IH; auto.
      - exact (IH row). }
    rewrite E. destruct (a =? g)%Z; simpl; auto.
  Qed.

  (** restriction of solution vectors *)
  Lemma fancy_restriction v d l : restriction V v d l -> fancy V v d = Ok l.
  Proof.
    unfold fancy. intros H. apply mapM_Forall2. induction H as [|g x d l [H1 H2] F IH]; constructor; auto.
    assert (Z.to_nat g < List.length v) by (apply nth_error_Some; congruence).
    rewrite np_index_ok by lia. cbn [bind]. unfold get_at. rewrite H2. auto.
  Qed.

  (** tasks *)
  Definition run_task (t : task V) : st V unit :=
    bindS V (lift V (lookup V (tk_type V t) (callable_map V add res_g (Z.of_nat n)))) (fun r =>
      match r, tk_args V t with
      | Plain _ g, [alpha] => g (tk_form V t) alpha (tk_item V t)
      | Timed _ g, [ATuple _ [an; a]; ANum _ tv] => g (tk_form V t) (AVec V an) (AVec V a) tv (tk_item V t)
      | _, _ => fail V TypeError
      end).

  Definition same_alphas (t : task V) (s s' : sys) : Prop :=
    forall a, In a (flat_map (fun a => match a with AVec _ r => [r] | ATuple _ l => l | ANum _ _ => [] end) (tk_args V t)) ->
      vec V s' a = vec V s a.

  Lemma task_ok s0 s t w : ready s -> same_alphas t s0 s -> local_ok V s0 n t w ->
    exists s', run_task t s = (s', Ok tt) /\
      delta s s' (combine (lo_dest V w) (lo_res V w)) (entries (lo_dest V w) (lo_dest V w) (lo_jac V w))
            [(tk_form V t, lo_call V w)].
  Proof.
    intros R SA (LC & EV & RG & L1 & L2 & F).
    assert (G : forall sc, calls V sc = calls V s ++ [(tk_form V t, lo_call V w)] -> vecs V sc = vecs V s -> jac V sc = jac V s ->
      exists s', scatter_generic V add res_g (Z.of_nat n) (lo_res V w, lo_jac V w) (lo_dest V w) sc = (s', Ok tt) /\
        delta s s' (combine (lo_dest V w) (lo_res V w)) (entries (lo_dest V w) (lo_dest V w) (lo_jac V w))
            [(tk_form V t, lo_call V w)]).
    { intros sc C1 C2 C3.
      destruct (generic_ok sc (lo_dest V w) (lo_res V w) (lo_jac V w)) as (s' & E & D); auto.
      { unfold ready, vec in *. rewrite C2. auto. }
      exists s'. split; auto. destruct D as [A1 A2 A3 A4 A5 A6].
      unfold vec in *. rewrite C2, C3, C1, app_nil_r in *. constructor; auto. }
    unfold run_task. destruct w as [d c r j]. cbn [lo_dest lo_call lo_res lo_jac] in *.
    unfold same_alphas in SA.
    inversion LC; subst; cbn [tk_type tk_form tk_args tk_item] in *;
      unfold bindS at 1, lift at 1; cbn [lookup callable_map String.eqb Ascii.eqb Bool.eqb];
      unfold scatter_form_data, scatter_bc_form_data, scatter_interface_form_data,
        scatter_bc_interface_form_data, scatter_time_dependent_form_data, scatter_time_dependent_bc_form_data;
      cbn [take_arg as_idx as_pair as_triplet];
      unfold bindS, lift, take, evaluate; cbn iota beta; cbv zeta;
      repeat match goal with
        | H : wf_dest _ _ _ = Ok _ |- _ => rewrite H; clear H
        | H : wf_bc_dest _ _ _ = Ok _ |- _ => rewrite H; clear H
        | H : restriction _ (vec _ s0 ?a) _ _ |- _ =>
            rewrite <- (SA a) in H by (simpl; auto); apply fancy_restriction in H
        end;
      repeat match goal with H : fancy _ _ _ = Ok _ |- _ => rewrite H; clear H end;
      rewrite EV; apply G; reflexivity.
  Qed.

  (** running a form is running its tasks *)
  Lemma forS_map {A B} (f : B -> st V unit) (g : A -> B) l s : forS V f (map g l) s = forS V (fun x => f (g x)) l s.
  Proof.
    revert s; induction l as [|a l IH]; intros s; simpl; auto.
    unfold bindS. destruct (f (g a) s) as [s1 [[]|e]]; auto.
  Qed.
  Lemma forS_app {A} (f : A -> st V unit) l l' s :
    forS V f (l ++ l') s = let (s1, r) := forS V f l s in match r with Ok _ => forS V f l' s1 | Err e => (s1, Err e) end.
  Proof.
    revert s; induction l as [|a l IH]; intros s; simpl; auto.
    unfold bindS. destruct (f a s) as [s1 [[]|e]]; auto.
  Qed.
  Lemma forS_ext {A} (f g : A -> st V unit) l s : (forall x s, f x s = g x s) -> forS V f l s = forS V g l s.
  Proof.
    intros E. revert s; induction l as [|a l IH]; intros s; simpl; auto.
    unfold bindS. rewrite E. destruct (g a s) as [s1 [[]|e]]; auto.
  Qed.
  Definition form_tasks (f : form_input V) : list (task V) :=
    map (mk_task V (fi_type V f) (fi_form V f) (fi_args V f)) (fi_seq V f).

  Lemma scatter_one_tasks f s : valid_input V f ->
    scatter_one V add res_g (Z.of_nat n) f s = forS V run_task (form_tasks f) s.
  Proof.
    intros VI. unfold form_tasks. rewrite forS_map.
    destruct f as [ty sq w args]. unfold valid_input in VI. cbn [fi_type fi_seq fi_form fi_args] in *.
    destruct VI as [[T (a & ->)]|[T (an & a & tv & ->)]]; simpl in T;
      repeat (destruct T as [<-|T]; [cbv [scatter_one contains]; simpl; apply forS_ext; intros; reflexivity|]); contradiction.
  Qed.

  Lemma scatter_forms_tasks forms : forall s, Forall (valid_input V) forms ->
    scatter_forms V add res_g (Z.of_nat n) forms s = forS V run_task (tasks V forms) s.
  Proof.
    induction forms as [|f forms IH]; intros s F; [reflexivity|]. inversion F; subst.
    unfold scatter_forms in *. cbn [forS]. unfold bindS. rewrite scatter_one_tasks by auto.
    unfold tasks. cbn [flat_map]. change (flat_map _ forms) with (tasks V forms).
    rewrite forS_app. fold (form_tasks f).
    destruct (forS V run_task (form_tasks f) s) as [s1 [[]|e]]; auto.
  Qed.

  Lemma tasks_ok s0 : forall ts ws s, Forall2 (local_ok V s0 n) ts ws -> ready s ->
    (forall t, In t ts -> ~ In res_g (flat_map (fun a => match a with AVec _ r => [r] | ATuple _ l => l | ANum _ _ => [] end) (tk_args V t))) ->
    (forall r, r <> res_g -> vec V s r = vec V s0 r) ->
    exists s', forS V run_task ts s = (s', Ok tt) /\
      delta s s' (flat_map (fun w => combine (lo_dest V w) (lo_res V w)) ws)
                 (flat_map (fun w => entries (lo_dest V w) (lo_dest V w) (lo_jac V w)) ws)
                 (combine (map (tk_form V) ts) (map (lo_call V) ws)).
  Proof.
    induction ts as [|t ts IH]; intros ws s F R NA SA; inversion F; subst; simpl.
    - exists s. split; [reflexivity|apply delta_refl].
    - destruct (task_ok s0 s t y R) as (s1 & E1 & D1); auto.
      { intros a Ha. apply SA. intros ->. apply (NA t); simpl; auto. }
      destruct (IH l' s1) as (s2 & E2 & D2); auto.
      + eapply ready_delta; eauto.
      + intros; apply NA; right; auto.
      + intros r Hr. rewrite (d_other _ _ _ _ _ D1); auto.
      + exists s2. unfold bindS. rewrite E1. split; auto.
        exact (delta_trans _ _ _ _ _ _ _ _ _ D1 D2).
  Qed.

  Lemma sum_r_flat g ws :
    sum_r g (flat_map (fun w => combine (lo_dest V w) (lo_res V w)) ws) = vsum (map (res_contrib V add zero g) ws).
  Proof. induction ws; simpl; auto. rewrite sum_r_app, IHws. auto. Qed.
  Lemma sum_j_flat g h ws :
    sum_j g h (flat_map (fun w => entries (lo_dest V w) (lo_dest V w) (lo_jac V w)) ws) = vsum (map (jac_contrib V add zero g h) ws).
  Proof. induction ws; simpl; auto. rewrite sum_j_app, IHws, sum_j_contrib. auto. Qed.

  Lemma tasks_args forms t : In t (tasks V forms) -> exists f, In f forms /\ tk_args V t = fi_args V f.
  Proof.
    unfold tasks. intros H. apply in_flat_map in H as (f & Hf & H). apply in_map_iff in H as (x & <- & Hx).
    exists f; auto.
  Qed.

  Lemma assembly_ok s forms ws : well_posed V res_g n s forms ws ->
    exists s', scatter_forms V add res_g (Z.of_nat n) forms s = (s', Ok tt) /\
      delta s s' (flat_map (fun w => combine (lo_dest V w) (lo_res V w)) ws)
                 (flat_map (fun w => entries (lo_dest V w) (lo_dest V w) (lo_jac V w)) ws)
                 (combine (map (tk_form V) (tasks V forms)) (map (lo_call V) ws)).
  Proof.
    intros (A & B & C & D & E). rewrite scatter_forms_tasks by auto.
    apply tasks_ok with (s0 := s); auto.
    - split; auto.
    - intros t Ht. destruct (tasks_args _ _ Ht) as (f & Hf & ->). apply D. auto.
  Qed.

  (** reordering *)
  Lemma reordered_tasks forms forms' : reordered V forms forms' -> Permutation (tasks V forms) (tasks V forms').
  Proof.
    intros (f1 & P & F). transitivity (tasks V f1).
    - unfold tasks. apply Permutation_flat_map. auto.
    - clear P. induction F as [|f g l l' (A & B & C & D) F IH]; [constructor|].
      unfold tasks in *. cbn [flat_map]. apply Permutation_app; auto. rewrite A, B, C. apply Permutation_map. auto.
  Qed.
  Lemma reordered_valid forms forms' : reordered V forms forms' -> Forall (valid_input V) forms -> Forall (valid_input V) forms'.
  Proof.
    intros (f1 & P & F) H. apply (Permutation_Forall P) in H. clear P.
    induction F as [|f g l l' (A & B & C & D) F IH]; [constructor|]. inversion H; subst. constructor; auto.
    unfold valid_input in *. rewrite <- A, <- C. auto.
  Qed.
  Lemma reordered_alias forms forms' : reordered V forms forms' -> no_alias V res_g forms -> no_alias V res_g forms'.
  Proof.
    intros (f1 & P & F) H.
    assert (H1 : no_alias V res_g f1). { intros f Hf. apply H. eapply Permutation_in; [apply Permutation_sym; eauto|auto]. }
    clear P H. induction F as [|f g l l' (A & B & C & D) F IH]; intros f' Hf; [destruct Hf|].
    destruct Hf as [<-|Hf].
    - unfold refs. rewrite <- C. apply H1. left; auto.
    - apply IH; auto. intros x Hx. apply H1. right; auto.
  Qed.
  Lemma reordered_well_posed s forms forms' ws : reordered V forms forms' -> well_posed V res_g n s forms ws ->
    exists ws', Permutation ws ws' /\ well_posed V res_g n s forms' ws'.
  Proof.
    intros RO (A & B & C & D & E).
    destruct (Permutation_Forall2 (reordered_tasks _ _ RO) E) as (ws' & P & F).
    exists ws'. split; auto. unfold well_posed.
    split; auto. split; auto. split; [eapply reordered_valid; eauto|]. split; [eapply reordered_alias; eauto|]. auto.
  Qed.
  Lemma nth_error_eq {A} (l l' : list A) : (forall i, nth_error l i = nth_error l' i) -> l = l'.
  Proof.
    revert l'; induction l as [|a l IH]; intros [|b l'] H; auto; try (specialize (H 0); discriminate).
    f_equal; [specialize (H 0); simpl in H; congruence|]. apply IH. intros i. exact (H (S i)).
  Qed.

  Lemma assembly_reordered s forms forms' ws : well_posed V res_g n s forms ws -> reordered V forms forms' ->
    exists s1 s2, scatter_forms V add res_g (Z.of_nat n) forms s = (s1, Ok tt) /\
      scatter_forms V add res_g (Z.of_nat n) forms' s = (s2, Ok tt) /\
      vecs V s1 = vecs V s2 /\ forall r c, jac V s1 r c = jac V s2 r c.
  Proof.
    intros WP RO. destruct (reordered_well_posed _ _ _ _ RO WP) as (ws' & P & WP').
    destruct (assembly_ok _ _ _ WP) as (s1 & E1 & D1). destruct (assembly_ok _ _ _ WP') as (s2 & E2 & D2).
    exists s1, s2. split; auto. split; auto.
    assert (PR : forall g, vsum (map (res_contrib V add zero g) ws) = vsum (map (res_contrib V add zero g) ws')).
    { intros. apply vsum_perm. apply Permutation_map. auto. }
    assert (PJ : forall g h, vsum (map (jac_contrib V add zero g h) ws) = vsum (map (jac_contrib V add zero g h) ws')).
    { intros. apply vsum_perm. apply Permutation_map. auto. }
    split.
    - assert (VE : forall r, vec V s1 r = vec V s2 r).
      { intros r. destruct (Nat.eq_dec r res_g) as [->|Hr].
        - apply nth_error_eq. intros i. destruct (nth_error (vec V s res_g) i) as [x|] eqn:E.
          + rewrite (d_res _ _ _ _ _ D1 i x E), (d_res _ _ _ _ _ D2 i x E), !sum_r_flat, PR. auto.
          + apply nth_error_None in E.
            rewrite (proj2 (nth_error_None _ _)) by (rewrite (d_len _ _ _ _ _ D1); auto).
            rewrite (proj2 (nth_error_None _ _)) by (rewrite (d_len _ _ _ _ _ D2); auto). auto.
        - rewrite (d_other _ _ _ _ _ D1), (d_other _ _ _ _ _ D2); auto. }
      apply nth_ext with (d := []) (d' := []).
      + rewrite (d_nvec _ _ _ _ _ D1), (d_nvec _ _ _ _ _ D2). auto.
      + intros r _. apply VE.
    - intros r c. rewrite (d_jac _ _ _ _ _ D1), (d_jac _ _ _ _ _ D2), !sum_j_flat, PJ. auto.
  Qed.

  Lemma assembly_residual s forms ws : well_posed V res_g n s forms ws ->
    exists s', scatter_forms V add res_g (Z.of_nat n) forms s = (s', Ok tt) /\
      List.length (vec V s' res_g) = n /\
      forall g x, nth_error (vec V s res_g) g = Some x ->
        nth_error (vec V s' res_g) g = Some (add x (vsum (map (res_contrib V add zero (Z.of_nat g)) ws))).
  Proof.
    intros WP. destruct (assembly_ok _ _ _ WP) as (s1 & E1 & D1). exists s1. split; auto. split.
    - rewrite (d_len _ _ _ _ _ D1). apply WP.
    - intros g x H. rewrite <- sum_r_flat. apply (d_res _ _ _ _ _ D1). auto.
  Qed.
  Lemma assembly_jacobian s forms ws : well_posed V res_g n s forms ws ->
    exists s', scatter_forms V add res_g (Z.of_nat n) forms s = (s', Ok tt) /\
      forall g h, jac V s' g h = add (jac V s g h) (vsum (map (jac_contrib V add zero g h) ws)).
  Proof.
    intros WP. destruct (assembly_ok _ _ _ WP) as (s1 & E1 & D1). exists s1. split; auto.
    intros. rewrite <- sum_j_flat. apply (d_jac _ _ _ _ _ D1).
  Qed.
  Lemma assembly_calls s forms ws : well_posed V res_g n s forms ws ->
    exists s', scatter_forms V add res_g (Z.of_nat n) forms s = (s', Ok tt) /\
      calls V s' = calls V s ++ combine (map (tk_form V) (tasks V forms)) (map (lo_call V) ws).
  Proof.
    intros WP. destruct (assembly_ok _ _ _ WP) as (s1 & E1 & D1). exists s1. split; auto. apply (d_calls _ _ _ _ _ D1).
  Qed.
End Proof.

(** * Frame: whatever happens *)
Section Frame.
  Variables (V : Type) (add : V -> V -> V) (res_g : nat) (n : Z).
  Notation sys := (sys V).

  Section Rel.
    Variable R : sys -> sys -> Prop.
    Hypothesis R_refl : forall s, R s s.
    Hypothesis R_trans : forall a b c, R a b -> R b c -> R a c.
    Definition pres {A} (m : st V A) : Prop := forall s, R s (fst (m s)).
    Lemma pres_bind {A B} (m : st V A) (f : A -> st V B) : pres m -> (forall a, pres (f a)) -> pres (bindS V m f).
    Proof.
      intros H1 H2 s. unfold bindS. specialize (H1 s). destruct (m s) as [s1 [a|e]]; simpl in *; auto.
      eapply R_trans; [exact H1|]. apply H2.
    Qed.
    Lemma pres_lift_bind {A B} (r : res A) (f : A -> st V B) : (forall a, r = Ok a -> pres (f a)) -> pres (bindS V (lift V r) f).
    Proof. intros H s. unfold bindS, lift. destruct r as [a|e]; simpl; auto. apply (H a eq_refl s). Qed.
    Lemma pres_ret {A} (a : A) : pres (ret V a). Proof. intros s. apply R_refl. Qed.
    Lemma pres_fail {A} e : pres (@fail V A e). Proof. intros s. apply R_refl. Qed.
    Lemma pres_take_arg a idx : pres (take_arg V a idx).
    Proof. intros s. destruct a; apply R_refl. Qed.
    Lemma pres_forS {A} (f : A -> st V unit) l : (forall x, In x l -> pres (f x)) -> pres (forS V f l).
    Proof.
      induction l as [|a l IH]; intros H; [apply pres_ret|]. cbn [forS]. apply pres_bind; [apply H; left; auto|].
      intros _. apply IH. intros; apply H; right; auto.
    Qed.
  End Rel.

  Definition frame (D : list Z -> Prop) (s s' : sys) : Prop :=
    (forall r, r <> res_g -> vec V s' r = vec V s r) /\
    List.length (vecs V s') = List.length (vecs V s) /\
    List.length (vec V s' res_g) = List.length (vec V s res_g) /\
    (forall k, (forall d, D d -> ~ In (Z.of_nat k) d /\ ~ In (Z.of_nat k - Z.of_nat (List.length (vec V s res_g)))%Z d) ->
        nth_error (vec V s' res_g) k = nth_error (vec V s res_g) k) /\
    (forall g h, (forall d, D d -> ~ (In g d /\ In h d)) -> jac V s' g h = jac V s g h) /\
    (exists cl, calls V s' = calls V s ++ cl).
  Lemma frame_refl D s : frame D s s.
  Proof. unfold frame. repeat (split; auto). exists []. rewrite app_nil_r. auto. Qed.
  Lemma frame_trans D a b c : frame D a b -> frame D b c -> frame D a c.
  Proof.
    intros (A1 & A2 & A3 & A4 & A5 & cl & A6) (B1 & B2 & B3 & B4 & B5 & cl' & B6). unfold frame.
    split; [intros; rewrite B1, A1; auto|]. split; [congruence|]. split; [congruence|].
    split; [intros k H; rewrite B4, A4; auto; rewrite A3; auto|].
    split; [intros; rewrite B5, A5; auto|]. exists (cl ++ cl'). rewrite B6, A6, app_assoc. auto.
  Qed.

  Variable D : list Z -> Prop.
  Notation keeps := (pres (frame D)).
  Hint Resolve frame_refl frame_trans : core.

  Lemma keeps_add_res d g v : D d -> In g d -> keeps (add_res V add res_g g v).
  Proof.
    intros HD HI s. unfold add_res. destruct (np_index (List.length (vec V s res_g)) g) as [k|e] eqn:NI; [|apply frame_refl].
    destruct (get_at (vec V s res_g) k) as [old|e] eqn:G; [|apply frame_refl].
    destruct v as [x|e]; [|apply frame_refl]. simpl.
    assert (LT : res_g < List.length (vecs V s)).
    { unfold get_at in G. destruct (nth_error (vec V s res_g) k) eqn:E; [|discriminate].
      destruct (Nat.lt_ge_cases res_g (List.length (vecs V s))); auto.
      unfold vec in E. rewrite nth_overflow in E by auto. destruct k; discriminate. }
    assert (KL : k < List.length (vec V s res_g)).
    { unfold get_at in G. destruct (nth_error (vec V s res_g) k) eqn:E; [|discriminate]. apply nth_error_Some. congruence. }
    assert (VS : forall r, vec V (mk_sys V (set_at (vecs V s) res_g (set_at (vec V s res_g) k (add old x))) (jac V s) (calls V s)) r
              = if res_g =? r then set_at (vec V s res_g) k (add old x) else vec V s r).
    { intros r. unfold vec at 1. cbn [vecs]. apply vec_set. auto. }
    unfold frame. rewrite !VS, Nat.eqb_refl. cbn [jac calls vecs].
    split; [intros r Hr; rewrite VS; destruct (Nat.eqb_spec res_g r); [congruence|auto]|].
    split; [apply length_set_at|]. split; [apply length_set_at|]. split.
    - intros j Hj. destruct (Hj d HD) as [N1 N2]. rewrite nth_error_set_at by auto.
      destruct (Nat.eqb_spec k j) as [->|]; auto. exfalso.
      unfold np_index in NI. destruct (Z.ltb_spec g 0); cbv zeta in NI.
      + destruct ((0 <=? g + Z.of_nat (List.length (vec V s res_g))) && (g + Z.of_nat (List.length (vec V s res_g)) <? Z.of_nat (List.length (vec V s res_g))))%Z eqn:B;
          [|discriminate]. inversion NI. apply andb_prop in B as [B1 B2]. apply Z.leb_le in B1. apply N2.
        replace (Z.of_nat j - Z.of_nat (List.length (vec V s res_g)))%Z with g by lia. auto.
      + destruct ((0 <=? g) && (g <? Z.of_nat (List.length (vec V s res_g))))%Z; [|discriminate]. inversion NI. apply N1.
        replace (Z.of_nat j) with g by lia. auto.
    - split; auto. exists []. rewrite app_nil_r. auto.
  Qed.
  Lemma keeps_add_jac d r c v : D d -> In r d -> In c d -> keeps (add_jac V add n r c v).
  Proof.
    intros HD HR HC s. unfold add_jac. destruct ((r <? 0) || (c <? 0))%Z; [apply frame_refl|].
    destruct ((n <=? r) || (n <=? c))%Z; [apply frame_refl|]. unfold frame. cbn [fst vecs jac calls].
    split; [reflexivity|]. split; [reflexivity|]. split; [reflexivity|]. split; [reflexivity|]. split.
    - intros g h H. destruct (Z.eqb_spec g r); destruct (Z.eqb_spec h c); simpl; auto. subst. exfalso. apply (H d); auto.
    - exists []. rewrite app_nil_r. auto.
  Qed.
  Lemma get_at_In {A} (l : list A) k x : get_at l k = Ok x -> In x l.
  Proof. unfold get_at. destruct (nth_error l k) eqn:E; intros H; inversion H; subst. eapply nth_error_In; eauto. Qed.
  Lemma keeps_generic d r : D d -> keeps (scatter_generic V add res_g n r d).
  Proof.
    intros HD. unfold scatter_generic. apply pres_bind; eauto.
    - unfold scatter_rhs. assert (SUB : forall g, In g d -> In g d) by auto. revert SUB. generalize d at 1 3. generalize 0.
      intros k d'. revert k. induction d' as [|g d' IH]; intros k SUB; simpl; [apply pres_ret; auto|].
      apply pres_bind; eauto.
      + apply keeps_add_res with (d := d); auto. apply SUB. left; auto.
      + intros _. apply IH. intros; apply SUB; right; auto.
    - intros _. unfold scatter_lhs. cbv zeta. apply pres_forS; eauto. intros k _.
      apply pres_lift_bind; auto. intros row Hrow. apply pres_lift_bind; auto. intros col Hcol.
      apply pres_lift_bind; auto. intros v _. apply keeps_add_jac with (d := d); auto.
      + apply get_at_In in Hrow. eapply In_np_repeat; eauto.
      + apply get_at_In in Hcol. eapply In_np_tile; eauto.
  Qed.
  Lemma keeps_evaluate w c : keeps (evaluate V w c).
  Proof. intros s. unfold evaluate, frame. cbn [fst vecs jac calls]. repeat (split; [reflexivity|]). eexists. reflexivity. Qed.

  Ltac go :=
    repeat first
      [ apply keeps_generic; assumption
      | apply keeps_evaluate
      | apply pres_take_arg; auto
      | apply pres_lift_bind; [auto|intros]
      | apply pres_bind; [eauto| |intros] ].
  Lemma keeps_routine ty g w x :
    lookup V ty (callable_map V add res_g n) = Ok g ->
    (forall d, item_dest V w ty x d -> D d) ->
    match g with
    | Plain _ f => forall alpha, keeps (f w alpha x)
    | Timed _ f => forall an a t, keeps (f w an a t x)
    end.
  Proof.
    unfold callable_map. cbn [lookup].
    repeat match goal with |- context [String.eqb ty ?s] => destruct (String.eqb_spec ty s) as [->|?] end;
      intros E HD; inversion E; subst; intros;
      unfold scatter_form_data, scatter_bc_form_data, scatter_interface_form_data,
        scatter_bc_interface_form_data, scatter_time_dependent_form_data, scatter_time_dependent_bc_form_data;
      destruct x as [i|i p|i p q]; unfold as_idx, as_pair, as_triplet;
      (apply pres_lift_bind; [auto|]; intros idx Hidx; inversion Hidx; subst; clear Hidx).
    - apply pres_lift_bind; auto. intros d Hd. assert (D d) by (apply HD; constructor; auto). go.
    - apply pres_lift_bind; auto. intros d Hd. assert (D d) by (apply HD; constructor; auto). go.
    - apply pres_lift_bind; auto. intros d Hd. apply pres_lift_bind; auto. intros d' Hd'.
      assert (D (d ++ d')) by (apply HD; constructor; auto). cbv zeta. go.
    - apply pres_lift_bind; auto. intros d Hd. assert (D d) by (apply HD; constructor; auto). go.
    - apply pres_lift_bind; auto. intros d Hd. assert (D d) by (apply HD; constructor; auto). go.
    - apply pres_lift_bind; auto. intros d Hd. assert (D d) by (apply HD; constructor; auto). go.
  Qed.

  Lemma keeps_one f : (forall x d, In x (fi_seq V f) -> item_dest V (fi_form V f) (fi_type V f) x d -> D d) ->
    keeps (scatter_one V add res_g n f).
  Proof.
    intros H. unfold scatter_one. destruct (contains "time_dependent" (fi_type V f)).
    - unfold time_dependent_scatter_form. destruct (fi_args V f) as [|[r|l|t] [|[r'|l'|t'] [|? ?]]]; try (apply pres_fail; auto);
        destruct l as [|an0 [|a0 [|? ?]]]; try (apply pres_fail; auto).
      apply pres_lift_bind; auto. intros g Hg. destruct g as [g|g].
      + destruct (fi_seq V f); [apply pres_ret|apply pres_fail]; auto.
      + apply pres_forS; eauto. intros x Hx.
        apply (keeps_routine (fi_type V f) (Timed V g) (fi_form V f) x); eauto.
    - unfold scatter_form. destruct (fi_args V f) as [|al [|]]; try (apply pres_fail; auto).
      apply pres_lift_bind; auto. intros g Hg. destruct g as [g|g].
      + apply pres_forS; eauto. intros x Hx.
        apply (keeps_routine (fi_type V f) (Plain V g) (fi_form V f) x); eauto.
      + destruct (fi_seq V f); [apply pres_ret|apply pres_fail]; auto.
  Qed.
End Frame.

Lemma assembly_frame V add res_g n forms s s' r :
  scatter_forms V add res_g n forms s = (s', r) -> frame V res_g (dest_of V forms) s s'.
Proof.
  intros E. replace s' with (fst (scatter_forms V add res_g n forms s)) by (rewrite E; auto).
  unfold scatter_forms. apply pres_forS; [apply frame_refl|apply frame_trans|].
  intros f Hf. apply keeps_one. intros x d Hx Hd. exists f, x. auto.
Qed.

(** * Rejection *)
Lemma contains_occurs s t : s <> ""%string -> contains s t = true <-> occurs s t.
Proof.
  intros NE. unfold contains, occurs. destruct (String.index 0 s t) as [m|] eqn:E.
  - split; auto. intros _. exists m. eapply String.index_correct1; eauto.
  - split; [discriminate|]. intros (m & H). exfalso.
    apply (String.index_correct3 0 m s t E NE); auto. lia.
Qed.
Lemma lookup_unknown V add res_g n ty : ~ In ty plain_types -> ~ In ty timed_types ->
  lookup V ty (callable_map V add res_g n) = Err KeyError.
Proof.
  intros H1 H2. unfold callable_map. cbn [lookup].
  repeat match goal with |- context [String.eqb ty ?s] => destruct (String.eqb_spec ty s) as [->|?];
    [exfalso; simpl in H1, H2; tauto|] end. reflexivity.
Qed.
Lemma rejected_one V add res_g n f e s : rejected V f e -> scatter_one V add res_g n f s = (s, Err e).
Proof.
  assert (NE : "time_dependent"%string <> ""%string) by discriminate.
  intros H. unfold scatter_one. destruct H as [H L|H L|H L T|an a t H L T].
  - destruct (contains "time_dependent" (fi_type V f)) eqn:C; [apply contains_occurs in C; tauto|].
    unfold scatter_form. destruct (fi_args V f) as [|? [|]]; simpl in L; try reflexivity. lia.
  - apply contains_occurs in H; auto. rewrite H. unfold time_dependent_scatter_form.
    destruct (fi_args V f) as [|[] [|[] [|]]]; simpl in L; try reflexivity; try lia; destruct refs as [|? [|? [|]]]; reflexivity.
  - destruct (contains "time_dependent" (fi_type V f)) eqn:C; [apply contains_occurs in C; tauto|].
    unfold scatter_form. destruct (fi_args V f) as [|? [|]]; simpl in L; try discriminate.
    rewrite lookup_unknown; auto. intros [Q|[Q|[]]]; rewrite <- Q in C; vm_compute in C; discriminate.
  - assert (C := proj2 (contains_occurs _ _ NE) H). rewrite C. unfold time_dependent_scatter_form. rewrite L.
    rewrite lookup_unknown; auto. intros [Q|[Q|[Q|[Q|[]]]]]; rewrite <- Q in C; vm_compute in C; discriminate.
Qed.
Lemma rejected_forms V add res_g n pre f post e s s1 :
  scatter_forms V add res_g n pre s = (s1, Ok tt) -> rejected V f e ->
  scatter_forms V add res_g n (pre ++ f :: post) s = (s1, Err e).
Proof.
  intros E H. unfold scatter_forms in *. rewrite forS_app, E. cbn [forS]. unfold bindS. rewrite rejected_one with (e := e); auto.
Qed.
Lemma dispatch_lemma V add zero : exact add zero -> forall res_g n s pre ws f e post,
  well_posed V res_g n s pre ws -> rejected V f e ->
  exists s', scatter_forms V add res_g (Z.of_nat n) (pre ++ f :: post) s = (s', Err e) /\
    calls V s' = calls V s ++ combine (map (tk_form V) (tasks V pre)) (map (lo_call V) ws) /\
    (forall g x, nth_error (vec V s res_g) g = Some x ->
      nth_error (vec V s' res_g) g = Some (add x (vsum V add zero (map (res_contrib V add zero (Z.of_nat g)) ws)))) /\
    (forall g h, jac V s' g h = add (jac V s g h) (vsum V add zero (map (jac_contrib V add zero g h) ws))).
Proof.
  intros EX res_g n s pre ws f e post WP RJ.
  destruct (assembly_ok V add zero EX res_g n s pre ws WP) as (s1 & E1 & D).
  exists s1. split; [eapply rejected_forms; eauto|]. split; [apply (d_calls _ _ _ _ _ _ _ _ _ D)|]. split.
  - intros g x H. rewrite <- (sum_r_flat V add zero EX). apply (d_res _ _ _ _ _ _ _ _ _ D). auto.
  - intros g h. rewrite <- (sum_j_flat V add zero EX). apply (d_jac _ _ _ _ _ _ _ _ _ D).
Qed.
