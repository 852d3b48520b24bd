(** * Proofs about MDProductSpace *)
From Coq Require Import String List Arith ZArith Bool Lia Sorted.
From Verif Require Import Base MeshModel GraphModel DofModel SpaceModel SpaceSpec CutModel CutProof MdSpaceModel.
Import ListNotations.
Local Open Scope list_scope.

Section Proofs.
  Context {T : Type}.
  Implicit Types o : md T.

  Lemma new_lemma : forall products : list T,
    (length products <= 3 -> exists o, new_md products = Ok o /\ md_products o = products /\ md_order o = None /\ md_spaces o = None /\ md_dofs o = None /\ md_n o = None) /\
    (3 < length products -> new_md products = Err ValueError).
  Proof.
    intros products. unfold new_md. destruct (Nat.ltb_spec 3 (length products)); split; intros; try lia; auto.
    eexists; split; [reflexivity|]. repeat split.
  Qed.

  (** ** Quadrature *)
  Lemma max_fold l : forall a, a <= fold_left Nat.max l a /\ (forall x, In x l -> x <= fold_left Nat.max l a) /\ (fold_left Nat.max l a = a \/ In (fold_left Nat.max l a) l).
  Proof.
    induction l as [|y l IH]; intros a; cbn [fold_left].
    - repeat split; [lia|intros x []|auto].
    - destruct (IH (Nat.max a y)) as (A & B & C). repeat split; [lia|intros x [->|Hx]; [lia|auto]|].
      destruct C as [C|C]; [|right; right; exact C]. rewrite C. destruct (Nat.max_spec a y) as [[_ E]|[_ E]]; rewrite E; [right; left; reflexivity|auto].
  Qed.
  Lemma quad_ok d order : d <= 3 -> exists r, quadrature_for (Z.of_nat d) order = Ok r /\ rule_for d order = Some r.
  Proof. intros H. destruct d as [|[|[|[|d]]]]; try lia; eexists; split; reflexivity. Qed.
  Lemma fill_ok order q d : length q = 4 -> d <= 3 -> fill order q (Z.of_nat d) = Ok (set_at q d (rule_for d order)).
  Proof.
    intros L H. unfold fill. destruct (quad_ok d order H) as (r & E & R). rewrite E, R. cbn [bind]. unfold set4. rewrite L.
    destruct (Z.ltb_spec (Z.of_nat d) 0); [lia|]. destruct (Z.leb_spec 0 (Z.of_nat d)); [|lia]. destruct (Z.ltb_spec (Z.of_nat d) (Z.of_nat 4)); [|lia].
    cbn [andb]. rewrite Nat2Z.id. reflexivity.
  Qed.
  Lemma set_at_length {A} (l : list A) : forall i v, length (set_at l i v) = length l.
  Proof. induction l as [|x l IH]; intros [|i] v; cbn; auto. Qed.
  Lemma set_at_nth {A} (l : list A) : forall i v j, i < length l -> nth_error (set_at l i v) j = if j =? i then Some v else nth_error l j.
  Proof.
    induction l as [|x l IH]; intros [|i] v [|j] H; cbn in *; try lia; auto. apply IH; lia.
  Qed.
  Lemma loop_fill order (g : nat -> nat) : forall l q, length q = 4 -> (forall d, In d l -> g d <= 3) ->
    exists q', run_loop (fun q d => fill order q (Z.of_nat (g d))) l q = (q', Ok tt) /\ length q' = 4 /\
      forall e, e < 4 -> (In e (map g l) -> nth_error q' e = Some (rule_for e order)) /\ (~ In e (map g l) -> nth_error q' e = nth_error q e).
  Proof.
    induction l as [|d l IH]; intros q L H.
    - exists q. cbn. repeat split; auto. intros [].
    - cbn [run_loop]. rewrite fill_ok by (auto; apply H; left; reflexivity).
      assert (Hd : g d <= 3) by (apply H; left; reflexivity).
      destruct (IH (set_at q (g d) (rule_for (g d) order))) as (q' & E & L' & N); [rewrite set_at_length; exact L|intros; apply H; right; auto|].
      exists q'. split; [exact E|]. split; [exact L'|]. intros e He. destruct (N e He) as [N1 N2]. cbn [map].
      assert (Q : nth_error (set_at q (g d) (rule_for (g d) order)) e = if e =? g d then Some (rule_for (g d) order) else nth_error q e) by (apply set_at_nth; lia).
      split.
      + intros I. destruct (in_dec Nat.eq_dec e (map g l)) as [J|J]; [auto|]. rewrite (N2 J), Q.
        destruct I as [I|I]; [|contradiction]. subst e. rewrite Nat.eqb_refl. reflexivity.
      + intros I. rewrite N2 by (intros J; apply I; right; exact J). rewrite Q.
        destruct (Nat.eqb_spec e (g d)); [|reflexivity]. exfalso; apply I; left; auto.
  Qed.
  Lemma loop_map {S A B} (f : S -> B -> res S) (h : A -> B) : forall l s, run_loop f (map h l) s = run_loop (fun s x => f s (h x)) l s.
  Proof. induction l as [|x l IH]; intros s; cbn; [reflexivity|]. destruct (f s (h x)); auto. Qed.
  Lemma loop_ext {S A} (f g : S -> A -> res S) : forall l s, (forall s x, In x l -> f s x = g s x) -> run_loop f l s = run_loop g l s.
  Proof.
    induction l as [|x l IH]; intros s H; cbn; [reflexivity|]. rewrite H by (left; reflexivity). destruct (g s x); auto. apply IH. intros; apply H; right; auto.
  Qed.
  Lemma none4 e : e < 4 -> nth_error [None; None; None; None] e = Some (@None quadrature).
  Proof. intros H. destruct e as [|[|[|[|e]]]]; try lia; reflexivity. Qed.

  Lemma quadrature_lemma : forall o (fields : dict nat field), fields <> [] -> (forall n f, In (n, f) fields -> 1 <= f_dim f <= 3) ->
    exists o' k q b, md_define_quadrature o fields = (o', Ok tt) /\ md_order o' = Some (2 * k + 1) /\
      (forall n f, In (n, f) fields -> f_order f <= k) /\ (exists n f, In (n, f) fields /\ f_order f = k) /\
      md_quadrature o' = Some q /\ md_bc_quadrature o' = Some b /\ length q = 4 /\ length b = 4 /\
      forall e, e < 4 ->
        ((exists n f, In (n, f) fields /\ f_dim f = e) -> nth_error q e = Some (rule_for e (2 * k + 1))) /\
        (~ (exists n f, In (n, f) fields /\ f_dim f = e) -> nth_error q e = Some None) /\
        ((exists n f, In (n, f) fields /\ f_dim f = S e) -> nth_error b e = Some (rule_for e (2 * k + 1))) /\
        (~ (exists n f, In (n, f) fields /\ f_dim f = S e) -> nth_error b e = Some None).
  Proof.
    intros o fields NE D. unfold md_define_quadrature.
    set (orders := map (fun nf : nat * field => f_order (snd nf)) fields). set (dims := np_unique (map (fun nf : nat * field => f_dim (snd nf)) fields)).
    assert (M : exists k, np_max orders = Ok k /\ (forall x, In x orders -> x <= k) /\ In k orders).
    { unfold np_max. destruct orders as [|x l] eqn:E; [destruct fields; [congruence|discriminate]|].
      destruct (max_fold l x) as (A & B & C). eexists; split; [reflexivity|]. split; [intros y [->|Hy]; auto|]. destruct C as [C|C]; [left; auto|right; exact C]. }
    destruct M as (k & -> & M1 & M2).
    assert (I : forall d, In d dims <-> exists n f, In (n, f) fields /\ f_dim f = d).
    { intros d. unfold dims. rewrite (proj2 (np_unique_spec _) d), in_map_iff. split.
      - intros ([n f] & E & Hf). exists n, f. auto.
      - intros (n & f & Hf & E). exists (n, f). auto. }
    assert (R : forall d, In d dims -> 1 <= d <= 3) by (intros d Hd; apply I in Hd; destruct Hd as (n & f & Hf & <-); eauto).
    rewrite !loop_map.
    destruct (loop_fill (2 * k + 1) (fun d => d) dims [None; None; None; None] eq_refl) as (q & -> & Lq & Q); [intros d Hd; apply R in Hd; lia|].
    rewrite (loop_ext (fun s x => fill (2 * k + 1) s (Z.of_nat x - 1)) (fun s d => fill (2 * k + 1) s (Z.of_nat (d - 1)))).
    2:{ intros s d Hd. apply R in Hd. f_equal. lia. }
    destruct (loop_fill (2 * k + 1) (fun d => d - 1) dims [None; None; None; None] eq_refl) as (b & -> & Lb & B); [intros d Hd; apply R in Hd; lia|].
    eexists _, k, q, b. split; [reflexivity|]. cbn [md_order md_quadrature md_bc_quadrature]. split; [reflexivity|].
    split; [intros n f Hf; apply M1; unfold orders; apply in_map_iff; exists (n, f); auto|].
    split; [unfold orders in M2; apply in_map_iff in M2; destruct M2 as ([n f] & E & Hf); exists n, f; auto|].
    do 4 (split; [auto|]). intros e He. destruct (Q e He) as [Q1 Q2]. destruct (B e He) as [B1 B2].
    rewrite map_id in Q1, Q2. rewrite none4 in Q2, B2 by exact He.
    assert (J : In e (map (fun d => d - 1) dims) <-> exists n f, In (n, f) fields /\ f_dim f = S e).
    { rewrite in_map_iff. split.
      - intros (d & E & Hd). pose proof (R d Hd). apply I. replace (S e) with d by lia. exact Hd.
      - intros H. apply I in H. exists (S e). split; [lia|exact H]. }
    repeat split; intros H.
    - apply Q1, I, H.
    - apply Q2. rewrite I. exact H.
    - apply B1, J, H.
    - apply B2. rewrite J. exact H.
  Qed.

  (** ** Fields of dimension 0 *)
  Lemma sorted_first l : StronglySorted lt l -> In 0 l -> exists l', l = 0 :: l'.
  Proof.
    intros H I. destruct l as [|x l]; [destruct I|]. destruct I as [->|I]; [eauto|]. inversion H as [|? ? _ F]; subst.
    rewrite Forall_forall in F. apply F in I. lia.
  Qed.
  Lemma quadrature_zero_lemma : forall o (fields : dict nat field), (forall n f, In (n, f) fields -> f_dim f <= 3) -> (exists n f, In (n, f) fields /\ f_dim f = 0) ->
    snd (md_define_quadrature o fields) = Err KeyError.
  Proof.
    intros o fields D (n & f & Hf & Z). unfold md_define_quadrature.
    destruct (np_max (map (fun nf : nat * field => f_order (snd nf)) fields)) as [k|] eqn:E.
    2:{ destruct fields; [destruct Hf|discriminate]. }
    destruct (np_unique_spec (map (fun nf : nat * field => f_dim (snd nf)) fields)) as [S I].
    assert (R : forall d, In d (np_unique (map (fun nf : nat * field => f_dim (snd nf)) fields)) -> d <= 3).
    { intros d Hd. apply I in Hd. apply in_map_iff in Hd. destruct Hd as ([n' f'] & <- & H'). eapply D, H'. }
    destruct (sorted_first _ S) as (l & L). { apply I, in_map_iff. exists (n, f). auto. }
    rewrite loop_map. destruct (loop_fill (2 * k + 1) (fun d => d) _ [None; None; None; None] eq_refl R) as (q & -> & _).
    rewrite L. reflexivity.
  Qed.
  Lemma quadrature_empty_lemma : forall o, md_define_quadrature o [] = (o, Err ValueError).
  Proof. reflexivity. Qed.

  (** ** No space is ever made *)
  Lemma spaces_lemma : forall o (fields : dict nat field),
    md_define_spaces o fields = (mk_md (md_products o) (md_order o) (md_quadrature o) (md_bc_quadrature o) (Some []) (md_dofs o) (md_n o),
                                 match fields with [] => Ok tt | _ => Err NameError end).
  Proof. intros o [|[n f] fields]; reflexivity. Qed.

  Lemma spaces_refuted : forall o (fields : dict nat field), fields <> [] ->
    snd (md_define_spaces o fields) = Err NameError /\ md_spaces (fst (md_define_spaces o fields)) = Some [].
  Proof. intros o fields H. rewrite spaces_lemma. destruct fields; [congruence|]. split; reflexivity. Qed.

  Definition bare o : Prop := (md_spaces o = None \/ md_spaces o = Some []) /\ (md_dofs o = None \/ md_dofs o = Some []) /\ (md_n o = None \/ md_n o = Some 0%Z).
  Lemma keep_quadrature o (fields : dict nat field) : let o' := fst (md_define_quadrature o fields) in
    md_spaces o' = md_spaces o /\ md_dofs o' = md_dofs o /\ md_n o' = md_n o.
  Proof.
    unfold md_define_quadrature. destruct (np_max _); [|cbn; auto]. destruct (run_loop _ _ _) as [q [|]]; [|cbn; auto].
    destruct (run_loop _ _ _) as [b r]. cbn. auto.
  Qed.
  Lemma keep_products o (products : list T) : let o' := fst (define_products o products) in
    md_spaces o' = md_spaces o /\ md_dofs o' = md_dofs o /\ md_n o' = md_n o.
  Proof. unfold define_products. destruct (3 <? length products); cbn; auto. Qed.
  Lemma dofs_bare o : bare o -> md_dofs (fst (md_define_dofs o)) = Some [].
  Proof. intros ([S|S] & _); unfold md_define_dofs; rewrite S; reflexivity. Qed.
  Lemma step_bare o (c : call T) : bare o -> bare (fst (perform o c)).
  Proof.
    intros B. pose proof (dofs_bare o B) as DB. destruct B as (S & D & N). destruct c as [products|fields|fields| |]; cbn [perform].
    - destruct (keep_products o products) as (E1 & E2 & E3). unfold bare. rewrite E1, E2, E3. auto.
    - destruct (keep_quadrature o fields) as (E1 & E2 & E3). unfold bare. rewrite E1, E2, E3. auto.
    - rewrite spaces_lemma. unfold bare; cbn. auto.
    - unfold bare. rewrite DB. unfold md_define_dofs. destruct (match attr (md_spaces o) with Err e => _ | Ok s => _ end). cbn. auto.
    - unfold bare, md_define_n. destruct D as [D|D]; rewrite D; cbn; auto.
  Qed.
  Definition has_spaces (c : call T) : Prop := exists fields, c = DefineSpaces fields.
  Lemma calls_lemma : forall (calls : list (call T)) o, bare o ->
    bare (perform_all o calls) /\
    (md_spaces (perform_all o calls) <> None <-> md_spaces o <> None \/ exists c, In c calls /\ has_spaces c) /\
    (md_dofs (perform_all o calls) <> None <-> md_dofs o <> None \/ In DefineDofs calls).
  Proof.
    induction calls as [|c calls IH]; intros o B.
    - cbn. split; [exact B|]. split; (split; [intros H; left; exact H|]); intros [H|H]; try exact H; [destruct H as (c & [] & _)|destruct H].
    - change (perform_all o (c :: calls)) with (perform_all (fst (perform o c)) calls).
      destruct (IH _ (step_bare o c B)) as (A & S & D). split; [exact A|].
      assert (S1 : md_spaces (fst (perform o c)) <> None <-> md_spaces o <> None \/ has_spaces c).
      { destruct c as [products|fields|fields| |]; cbn [perform].
        - rewrite (proj1 (keep_products o products)). split; auto. intros [H|(? & H)]; [auto|discriminate].
        - rewrite (proj1 (keep_quadrature o fields)). split; auto. intros [H|(? & H)]; [auto|discriminate].
        - rewrite spaces_lemma. cbn. split; [intros _; right; eexists; reflexivity|discriminate].
        - unfold md_define_dofs. destruct (match attr (md_spaces o) with Err e => _ | Ok s => _ end). cbn. split; auto. intros [H|(? & H)]; [auto|discriminate].
        - unfold md_define_n. destruct (match attr (md_dofs o) with Err e => _ | Ok s => _ end). cbn. split; auto. intros [H|(? & H)]; [auto|discriminate]. }
      assert (D1 : md_dofs (fst (perform o c)) <> None <-> md_dofs o <> None \/ c = DefineDofs).
      { destruct c as [products|fields|fields| |]; cbn [perform].
        - rewrite (proj1 (proj2 (keep_products o products))). split; auto. intros [H|H]; [auto|discriminate].
        - rewrite (proj1 (proj2 (keep_quadrature o fields))). split; auto. intros [H|H]; [auto|discriminate].
        - rewrite spaces_lemma. cbn. split; auto. intros [H|H]; [auto|discriminate].
        - rewrite (dofs_bare o B). split; [auto|discriminate].
        - unfold md_define_n. destruct (match attr (md_dofs o) with Err e => _ | Ok s => _ end). cbn. split; auto. intros [H|H]; [auto|discriminate]. }
      rewrite S, D, S1, D1. split; split.
      + intros [[H|H]|(c' & I & H)]; [auto|right; exists c; split; [left; reflexivity|exact H]|right; exists c'; split; [right; exact I|exact H]].
      + intros [H|(c' & [<-|I] & H)]; [auto|auto|right; exists c'; auto].
      + intros [[H|H]|H]; [auto|right; left; exact H|right; right; exact H].
      + intros [H|[H|H]]; auto.
  Qed.

  Lemma never_lemma : forall products o (calls : list (call T)) i, new_md products = Ok o ->
    let o' := perform_all o calls in
    ((exists fields, In (DefineSpaces fields) calls) /\ In DefineDofs calls ->
       md_destinations o' i = Ok [] /\ md_bc_destinations o' i = Ok [] /\ md_destination_indexes o' i = Err ValueError /\ md_bc_destination_indexes o' i = Err ValueError) /\
    (~ ((exists fields, In (DefineSpaces fields) calls) /\ In DefineDofs calls) ->
       md_destinations o' i = Err AttributeError /\ md_bc_destinations o' i = Err AttributeError /\
       md_destination_indexes o' i = Err AttributeError /\ md_bc_destination_indexes o' i = Err AttributeError) /\
    (md_n o' = None \/ md_n o' = Some 0%Z).
  Proof.
    intros products o calls i E. cbv zeta. unfold new_md in E. destruct (3 <? length products); [discriminate|]. inversion E; subst o; clear E.
    set (o := mk_md products None None None None None None).
    assert (B0 : bare o) by (unfold bare, o; cbn; auto).
    destruct (calls_lemma calls o B0) as ((S & D & N) & S1 & D1). cbn in S1, D1.
    assert (S2 : (exists fields, In (DefineSpaces fields) calls) <-> md_spaces (perform_all o calls) <> None).
    { rewrite S1. split; [intros (f & H); right; exists (DefineSpaces f); split; [exact H|eexists; reflexivity]|].
      intros [H|(c & I & f & ->)]; [congruence|eauto]. }
    assert (D2 : In DefineDofs calls <-> md_dofs (perform_all o calls) <> None) by (rewrite D1; intuition congruence).
    rewrite S2, D2. clear S1 D1 S2 D2. unfold md_destination_indexes, md_bc_destination_indexes, md_destinations, md_bc_destinations.
    destruct S as [S|S], D as [D|D]; rewrite S, D; cbn [attr bind]; (split; [|split; [|exact N]]); intros H; try (exfalso; intuition congruence); repeat split; try reflexivity.
  Qed.
End Proofs.
