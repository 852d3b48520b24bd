(** * Export of solutions: exact solutions and files *)
From Coq Require Import String List Arith Bool ZArith Lia Ring Field Ascii.
From Verif Require Import Base BaseProof MeshModel MeshSpec GraphModel GraphProof CutModel FormModel FormSpec FormProof FormProof2 DualModel
  PostModel PostSpec PostProof ExportModel ExportSpec ExportProof ExportProof2.
Import ListNotations.
Open Scope list_scope.
Open Scope nat_scope.

(** *** Names *)
Lemma append_length : forall a b, String.length (String.append a b) = String.length a + String.length b.
Proof. induction a as [|c a IH]; intros b; [reflexivity|]. simpl. rewrite IH. reflexivity. Qed.
Lemma append_inj : forall s a b, String.append a s = String.append b s -> a = b.
Proof.
  intros s a. induction a as [|c a IH]; intros [|c' b] E; [reflexivity| | |].
  - exfalso. apply (f_equal String.length) in E. simpl in E. rewrite append_length in E. lia.
  - exfalso. apply (f_equal String.length) in E. simpl in E. rewrite append_length in E. lia.
  - simpl in E. injection E as -> E. rewrite (IH b E). reflexivity.
Qed.
Lemma append_h_e : forall a b, String.append a "_h" <> String.append b "_e".
Proof.
  intros a. induction a as [|c a IH]; intros [|c' b] E.
  - discriminate.
  - simpl in E. injection E as _ E. destruct b as [|c2 b]; [discriminate|]. simpl in E. injection E as _ E. destruct b; discriminate.
  - simpl in E. injection E as _ E. destruct a as [|c2 a]; [discriminate|]. simpl in E. injection E as _ E. destruct a; discriminate.
  - simpl in E. injection E as _ E. exact (IH b E).
Qed.

Lemma NoDup_app_intro : forall {A} (l l' : list A), NoDup l -> NoDup l' -> (forall x, In x l -> ~ In x l') -> NoDup (l ++ l').
Proof.
  intros A l l' H H' D. induction H as [|x l N1 N2 IH]; [exact H'|]. simpl. constructor.
  - rewrite in_app_iff. intros [K|K]; [exact (N1 K)|exact (D x (or_introl eq_refl) K)].
  - apply IH. intros y Hy. apply D. right. exact Hy.
Qed.

(** *** Filling two dictionaries *)
Definition put {R} (d : dict string R) (l : list (string * R)) : dict string R := fold_left (fun d kv => dset d (fst kv) (snd kv)) l d.
Lemma put_new : forall {R} (l : list (string * R)), NoDup (dkeys l) -> put [] l = l.
Proof. intros R l H. exact (dict_of_id l H). Qed.
Lemma put_app : forall {R} (d : dict string R) l l', put d (l ++ l') = put (put d l) l'.
Proof. intros. unfold put. apply fold_left_app. Qed.

Section Files.
  Context {A R : Type}.
  Variables (centred : list string) (endings : list string) (Q : bool -> string -> A -> list R -> Prop).
  Hypothesis ends : NoDup endings.
  Hypothesis apart : forall e e' a b, In e endings -> In e' endings -> String.append a e = String.append b e' -> e = e'.
  Variable body : bool -> string * A -> res (list R).
  Definition keyed (name : string) (rs : list R) : list (string * R) := map (fun er => (String.append name (fst er), snd er)) (combine endings rs).
  Definition store (pc : dict string R * dict string R) (nf : string * A) : res (dict string R * dict string R) :=
    if memb (fst nf) centred then do rs <- body true nf; Ok (fst pc, put (snd pc) (keyed (fst nf) rs))
    else do rs <- body false nf; Ok (put (fst pc) (keyed (fst nf) rs), snd pc).

  Definition got (b : bool) (nf : string * A) : list (string * R) := match body b nf with Ok rs => keyed (fst nf) rs | Err _ => [] end.
  Lemma names_memb : forall b (l : list (string * A)), names_of centred b l = filter (fun nf => if memb (fst nf) centred then b else negb b) l.
  Proof.
    intros b l. unfold names_of. apply filter_ext. intros nf. destruct (in_dec string_dec (fst nf) centred) as [H|H].
    - rewrite (proj2 (memb_In _ _) H). reflexivity.
    - rewrite (proj2 (memb_notIn _ _) H). reflexivity.
  Qed.
  Lemma keys_nodup : forall (l : list (string * A)) b, NoDup (dkeys l) ->
    (forall nf, In nf l -> forall rs, body b nf = Ok rs -> length rs = length endings) -> NoDup (dkeys (flat_map (got b) l)).
  Proof.
    intros l b ND HL.
    assert (KEY : forall nf k, In nf l -> In k (dkeys (got b nf)) -> exists e, In e endings /\ k = String.append (fst nf) e).
    { intros nf k Hnf Hk. unfold got in Hk. destruct (body b nf) as [rs|] eqn:E; [|destruct Hk]. unfold dkeys, keyed in Hk. rewrite map_map in Hk.
      apply in_map_iff in Hk as ((e & r) & <- & Hin). exists e. split; [exact (in_combine_l _ _ _ _ Hin)|reflexivity]. }
    induction l as [|nf l IH]; [constructor|]. inversion ND as [|? ? N1 N2]; subst.
    cbn [flat_map]. unfold dkeys. rewrite map_app. apply NoDup_app_intro.
    - unfold got. destruct (body b nf) as [rs|] eqn:E; [|constructor]. unfold keyed. rewrite map_map. simpl.
      assert (L : length rs = length endings) by (apply (HL nf (or_introl eq_refl)); exact E).
      rewrite <- (map_map fst (String.append (fst nf))). replace (map fst (combine endings rs)) with endings.
      + apply NoDup_map; [exact ends|]. intros x y Hx Hy K. exact (apart _ _ _ _ Hx Hy K).
      + clear -L. revert rs L. induction endings as [|e l IH]; intros [|r rs] L; simpl in *; try congruence. f_equal. apply IH. lia.
    - apply IH; [exact N2|intros; eapply HL; [right|]; eassumption|intros; apply KEY; [right|]; assumption].
    - intros k H1 H2. destruct (KEY nf k (or_introl eq_refl) H1) as (e & He & ->).
      apply in_map_iff in H2 as ((k' & r) & K & H2). simpl in K. apply in_flat_map in H2 as (nf' & Hnf' & H2).
      destruct (KEY nf' k' (or_intror Hnf')) as (e' & He' & ->); [exact (in_map fst _ _ H2)|].
      assert (e' = e) by (exact (apart _ _ _ _ He' He K)). subst e'. apply append_inj in K. apply N1. rewrite <- K. exact (in_map fst _ _ Hnf').
  Qed.
  Lemma holds_got : forall b (l : list (string * A)),
    (forall nf, In nf l -> exists rs, body b nf = Ok rs /\ length rs = length endings /\ Q b (fst nf) (snd nf) rs) -> holds endings (Q b) l (flat_map (got b) l).
  Proof.
    intros b l H. induction l as [|nf l IH]; [reflexivity|]. destruct (H nf (or_introl eq_refl)) as (rs & E & L & HQ). cbn [holds flat_map].
    exists rs, (flat_map (got b) l). split; [exact L|]. split; [unfold got at 1; rewrite E; reflexivity|]. split; [exact HQ|]. apply IH. intros; apply H; right; assumption.
  Qed.
  Lemma NoDup_dkeys_filter : forall p (l : list (string * A)), NoDup (dkeys l) -> NoDup (dkeys (filter p l)).
  Proof. intros p l H. exact (NoDup_filter_map fst p l H). Qed.

  Lemma store_ok : forall l : list (string * A), NoDup (dkeys l) ->
    (forall nf, In nf l -> exists rs, body (memb (fst nf) centred) nf = Ok rs /\ length rs = length endings /\ Q (memb (fst nf) centred) (fst nf) (snd nf) rs) ->
    exists p c, foldM store l ([], []) = Ok (p, c) /\ holds endings (Q false) (names_of centred false l) p /\ holds endings (Q true) (names_of centred true l) c.
  Proof.
    intros l ND H. rewrite !names_memb. set (NC := filter (fun nf => if memb (fst nf) centred then false else negb false) l).
    set (YC := filter (fun nf => if memb (fst nf) centred then true else negb true) l).
    exists (flat_map (got false) NC), (flat_map (got true) YC).
    assert (H0 : forall nf, In nf NC -> exists rs, body false nf = Ok rs /\ length rs = length endings /\ Q false (fst nf) (snd nf) rs).
    { intros nf Hnf. apply filter_In in Hnf as (H1 & H2). destruct (H nf H1) as (rs & X). destruct (memb (fst nf) centred); [discriminate|]. exists rs. exact X. }
    assert (H1 : forall nf, In nf YC -> exists rs, body true nf = Ok rs /\ length rs = length endings /\ Q true (fst nf) (snd nf) rs).
    { intros nf Hnf. apply filter_In in Hnf as (H1 & H2). destruct (H nf H1) as (rs & X). destruct (memb (fst nf) centred); [|discriminate]. exists rs. exact X. }
    split; [|split; [apply holds_got; exact H0|apply holds_got; exact H1]].
    rewrite <- (put_new (flat_map (got false) NC)), <- (put_new (flat_map (got true) YC)).
    2:{ apply keys_nodup; [apply NoDup_dkeys_filter; exact ND|]. intros nf Hnf rs E. destruct (H1 nf Hnf) as (rs' & E' & L & _). congruence. }
    2:{ apply keys_nodup; [apply NoDup_dkeys_filter; exact ND|]. intros nf Hnf rs E. destruct (H0 nf Hnf) as (rs' & E' & L & _). congruence. }
    subst NC YC. clear H0 H1 ND.
    assert (X : forall p c, foldM store l (p, c) =
      Ok (put p (flat_map (got false) (filter (fun nf => if memb (fst nf) centred then false else negb false) l)),
          put c (flat_map (got true) (filter (fun nf => if memb (fst nf) centred then true else negb true) l)))); [|apply X].
    induction l as [|nf l IH]; intros p c; [reflexivity|]. cbn [foldM]. destruct (H nf (or_introl eq_refl)) as (rs & E & _ & _).
    unfold store at 1. cbn [filter fst snd].
    assert (G : got (memb (fst nf) centred) nf = keyed (fst nf) rs) by (unfold got; rewrite E; reflexivity).
    destruct (memb (fst nf) centred); rewrite E; cbn [bind]; rewrite IH by (intros; apply H; right; assumption); cbn [negb flat_map]; rewrite put_app, G; reflexivity.
  Qed.
End Files.

Lemma cell_type_ok : forall d, d <= 3 -> exists s, cell_type d = Ok s /\ nth_error type_names d = Some s.
Proof. intros d H. do 4 (destruct d as [|d]; [eexists; split; reflexivity|]). lia. Qed.
Lemma foldM_ext_in : forall {A S} (f g : S -> A -> res S) l s, (forall s x, In x l -> f s x = g s x) -> foldM f l s = foldM g l s.
Proof.
  intros A S f g l. induction l as [|x l IH]; intros s H; [reflexivity|]. simpl. rewrite H by (left; reflexivity). destruct (g s x); [|reflexivity]. simpl.
  apply IH. intros; apply H; right; assumption.
Qed.
