(** * Lemmas for C110 *)
From Coq Require Import String List Arith Bool ZArith Lia.
From Verif Require Import Base MeshModel MeshSpec MeshProof4 GraphModel ReportModel ReportSpec.
Import ListNotations.
Open Scope string_scope.
Open Scope list_scope.

Lemma all_cells_some l : all_cells (map Some l) = Ok l.
Proof. unfold all_cells. induction l as [|c l IH]; [reflexivity|]. cbn in *. rewrite IH. reflexivity. Qed.
Lemma all_cells_none cs : In None cs -> all_cells cs = Err AttributeError.
Proof.
  unfold all_cells. induction cs as [|[c|] cs IH]; cbn; [intros []| |reflexivity].
  intros [H|H]; [discriminate|]. cbn in *. rewrite (IH H). reflexivity.
Qed.
Lemma all_cells_inv cs : forall l, all_cells cs = Ok l -> cs = map Some l.
Proof.
  unfold all_cells. induction cs as [|[c|] cs IH]; intros l; cbn.
  - now inversion 1.
  - cbn in *. destruct (mapM _ cs) as [l'|] eqn:E; cbn; [|discriminate]. inversion 1. cbn. f_equal. now apply IH.
  - discriminate.
Qed.

Lemma fold_min l : forall x, least (fold_left Nat.min l x) (fun n => In n (x :: l)).
Proof.
  induction l as [|y l IH]; intros x; cbn [fold_left]; [split; [now left|intros n [->|[]]; lia]|].
  destruct (IH (Nat.min x y)) as [A B]. split.
  - destruct A as [A|A]; [|now right; right]. rewrite <- A. destruct (Nat.min_dec x y) as [->| ->]; cbn; auto.
  - assert (C := B _ (or_introl eq_refl)).
    intros n [<-|[<-|Hn]]; [lia|lia|]. apply B. now right.
Qed.
Lemma fold_max l : forall x, greatest (fold_left Nat.max l x) (fun n => In n (x :: l)).
Proof.
  induction l as [|y l IH]; intros x; cbn [fold_left]; [split; [now left|intros n [->|[]]; lia]|].
  destruct (IH (Nat.max x y)) as [A B]. split.
  - destruct A as [A|A]; [|now right; right]. rewrite <- A. destruct (Nat.max_dec x y) as [->| ->]; cbn; auto.
  - assert (C := B _ (or_introl eq_refl)).
    intros n [<-|[<-|Hn]]; [lia|lia|]. apply B. now right.
Qed.
Lemma min_of_least l : l <> [] -> exists m, min_of l = Ok m /\ least m (fun n => In n l).
Proof. destruct l as [|x l]; [congruence|]. intros _. eexists. split; [reflexivity|apply fold_min]. Qed.
Lemma max_of_greatest l : l <> [] -> exists m, max_of l = Ok m /\ greatest m (fun n => In n l).
Proof. destruct l as [|x l]; [congruence|]. intros _. eexists. split; [reflexivity|apply fold_max]. Qed.

Lemma prints_ok {X} (l : list (line X)) : prints (map Ok l) = (l, Ok tt).
Proof. induction l as [|x l IH]; [reflexivity|]. cbn. rewrite IH. reflexivity. Qed.

Lemma enumerated_from {A} (l : list A) : forall k i x, nth_error l i = Some x -> nth_error (combine (seq k (length l)) l) i = Some (k + i, x).
Proof.
  induction l as [|a l IH]; intros k [|i] x; cbn; try discriminate.
  - inversion 1. now rewrite Nat.add_0_r.
  - intros H. rewrite (IH (S k) i x H). now rewrite Nat.add_succ_r.
Qed.
Lemma enumerated_nth {A} (l : list A) i x : nth_error l i = Some x -> nth_error (enumerated l) i = Some (i, x).
Proof. apply (enumerated_from l 0). Qed.
Lemma enumerated_length {A} (l : list A) : length (enumerated l) = length l.
Proof. unfold enumerated. rewrite combine_length, seq_length. lia. Qed.
Lemma enumerated_snd {A} (l : list A) : map snd (enumerated l) = l.
Proof.
  unfold enumerated. generalize 0. induction l as [|a l IH]; intros k; [reflexivity|]. cbn. now rewrite IH.
Qed.

Section Report.
  Context {X : Type} (physical_name : cell -> string).
  Notation write_data := (@write_data X physical_name).
  Notation cell_lines := (@cell_lines X physical_name).
  Notation section_of := (@section_of X physical_name).

  Lemma tagged_spec c : tagged c = true <-> is_tagged c.
  Proof. unfold tagged, is_tagged. destruct (c_mat c); split; try discriminate; eauto. intros [t H]; discriminate. Qed.

  (** The text of a mesh with a tagged cell *)
  Definition body (points : list (list X)) (l : list cell) : list (line X) :=
    point_lines points ++ [[Text ""]; [Text "Cell data"]; [Text "Number_of_cells: "; Num (length l)]] ++ flat_map cell_lines l.
  Lemma write_shape points l : (exists c, In c l /\ is_tagged c) ->
    exists a b a' b', least a (fun n => In n (map c_dim l)) /\ greatest b (fun n => In n (map c_dim l)) /\
      least a' (fun n => In n (map c_dim (filter tagged l))) /\ greatest b' (fun n => In n (map c_dim (filter tagged l))) /\
      write_data points (map Some l) =
      ([ [Text "Dimension data"]; [Text "Min entity dimension: "; Num a]; [Text "Max entity dimension: "; Num b];
         [Text "Min entity dimension with physical tag: "; Num a']; [Text "Max entity dimension with physical tag: "; Num b']; [Text ""] ] ++
       body points l, Ok tt).
  Proof.
    intros (c & Hc & Ht).
    assert (N : map c_dim l <> []) by (destruct l; [destruct Hc|discriminate]).
    assert (T : map c_dim (filter tagged l) <> []).
    { assert (I : In c (filter tagged l)) by (apply filter_In; split; [assumption|now apply tagged_spec]).
      destruct (filter tagged l); [destruct I|discriminate]. }
    destruct (min_of_least _ N) as (a & Ea & Ha). destruct (max_of_greatest _ N) as (b & Eb & Hb).
    destruct (min_of_least _ T) as (a' & Ea' & Ha'). destruct (max_of_greatest _ T) as (b' & Eb' & Hb').
    exists a, b, a', b'. do 4 (split; [assumption|]).
    unfold ReportModel.write_data. rewrite all_cells_some, map_length. unfold dimension_lines. rewrite Ea, Eb, Ea', Eb'. cbn [bind app prints].
    fold (body points l). rewrite prints_ok. reflexivity.
  Qed.

  Lemma cell_section c : section_of c (cell_lines c).
  Proof.
    unfold ReportSpec.section_of, ReportModel.cell_lines. eexists. split; [reflexivity|]. rewrite map_length, enumerated_length. split; [reflexivity|].
    intros d ids H. exact (map_nth_error (fun di : nat * list nat => Text "Entities of dimension" :: Num (fst di) :: Text ": " :: map Num (snd di)) d (enumerated (c_sub c)) (enumerated_nth _ _ _ H)).
  Qed.
  Lemma flat_sections l : exists ss, flat_map cell_lines l = concat ss /\ length ss = length l /\
    forall k c, nth_error l k = Some c -> exists s, nth_error ss k = Some s /\ section_of c s.
  Proof.
    exists (map cell_lines l). rewrite flat_map_concat_map, map_length. do 2 (split; [reflexivity|]).
    intros k c H. exists (cell_lines c). split; [now apply map_nth_error|apply cell_section].
  Qed.

  Lemma report_lemma : forall points l, (exists c, In c l /\ is_tagged c) ->
    exists lines, write_data points (map Some l) = (lines, Ok tt) /\
      (exists a, nth_error lines 1 = Some [Text "Min entity dimension: "; Num a] /\ least a (fun n => exists c, In c l /\ c_dim c = n)) /\
      (exists a, nth_error lines 2 = Some [Text "Max entity dimension: "; Num a] /\ greatest a (fun n => exists c, In c l /\ c_dim c = n)) /\
      (exists a, nth_error lines 3 = Some [Text "Min entity dimension with physical tag: "; Num a] /\ least a (fun n => exists c, In c l /\ is_tagged c /\ c_dim c = n)) /\
      (exists a, nth_error lines 4 = Some [Text "Max entity dimension with physical tag: "; Num a] /\ greatest a (fun n => exists c, In c l /\ is_tagged c /\ c_dim c = n)) /\
      nth_error lines 7 = Some [Text "Number_of_points: "; Num (length points)] /\
      (forall i p, nth_error points i = Some p -> nth_error lines (8 + i) = Some (Text "tag: " :: Num i :: Text " " :: map Coord p)) /\
      nth_error lines (10 + length points) = Some [Text "Number_of_cells: "; Num (length l)] /\
      exists sections, skipn (11 + length points) lines = concat sections /\ length sections = length l /\
        forall k c, nth_error l k = Some c -> exists s, nth_error sections k = Some s /\ section_of c s.
  Proof.
    intros points l H. destruct (write_shape points l H) as (a & b & a' & b' & Ha & Hb & Ha' & Hb' & E).
    eexists. split; [exact E|].
    assert (M : forall n, In n (map c_dim l) <-> exists c, In c l /\ c_dim c = n).
    { intros n. rewrite in_map_iff. split; intros (c & ? & ?); exists c; auto. }
    assert (M' : forall n, In n (map c_dim (filter tagged l)) <-> exists c, In c l /\ is_tagged c /\ c_dim c = n).
    { intros n. rewrite in_map_iff. split.
      - intros (c & E1 & E2). apply filter_In in E2 as [E2 E3]. exists c. rewrite <- tagged_spec. auto.
      - intros (c & E1 & E2 & E3). exists c. rewrite filter_In, tagged_spec. auto. }
    unfold least, greatest in *. cbn [app nth_error].
    split; [exists a; split; [reflexivity|]; rewrite <- M; split; [apply Ha|intros n Hn; apply Ha; now apply M]|].
    split; [exists b; split; [reflexivity|]; rewrite <- M; split; [apply Hb|intros n Hn; apply Hb; now apply M]|].
    split; [exists a'; split; [reflexivity|]; rewrite <- M'; split; [apply Ha'|intros n Hn; apply Ha'; now apply M']|].
    split; [exists b'; split; [reflexivity|]; rewrite <- M'; split; [apply Hb'|intros n Hn; apply Hb'; now apply M']|].
    unfold body, point_lines. cbn [app nth_error skipn plus].
    set (pl := map _ (enumerated points)).
    assert (L : length pl = length points) by (unfold pl; now rewrite map_length, enumerated_length).
    split; [reflexivity|]. split; [|split].
    - intros i p Hp. rewrite nth_error_app1 by (refine (eq_ind_r (fun k => i < k) _ L); apply nth_error_Some; congruence).
      unfold pl. exact (map_nth_error (fun ip : nat * list X => Text "tag: " :: Num (fst ip) :: Text " " :: map Coord (snd ip)) i (enumerated points) (enumerated_nth _ _ _ Hp)).
    - change (nth_error (pl ++ ([[Text ""]; [Text "Cell data"]; [Text "Number_of_cells: "; Num (length l)]] ++ flat_map cell_lines l)) (2 + length points) = Some [Text "Number_of_cells: "; Num (length l)]). rewrite nth_error_app2 by lia. replace (2 + length points - length pl) with 2 by lia. reflexivity.
    - destruct (flat_sections l) as (ss & Es & El & Hs). exists ss. split; [|now split].
      change (skipn (3 + length points) (pl ++ ([[Text ""]; [Text "Cell data"]; [Text "Number_of_cells: "; Num (length l)]] ++ flat_map cell_lines l)) = concat ss). rewrite skipn_app, skipn_all2 by lia.
      replace (3 + length points - length pl) with 3 by lia. cbn. exact Es.
  Qed.

  (** Reading the text back *)
  Lemma map_num_inj (l l' : list nat) : map (@Num X) l = map Num l' -> l = l'.
  Proof. revert l'. induction l as [|x l IH]; intros [|y l']; cbn; try discriminate; [reflexivity|]. inversion 1. f_equal; auto. Qed.
  Lemma map_coord_inj (l l' : list X) : map Coord l = map Coord l' -> l = l'.
  Proof. revert l'. induction l as [|x l IH]; intros [|y l']; cbn; try discriminate; [reflexivity|]. inversion 1. f_equal; auto. Qed.
  Lemma subs_inj (s : list (nat * list nat)) : forall s' (r r' : list (line X)),
    map (fun di => Text "Entities of dimension" :: Num (fst di) :: Text ": " :: map Num (snd di)) s ++ [Text ""] :: r =
    map (fun di => Text "Entities of dimension" :: Num (fst di) :: Text ": " :: map Num (snd di)) s' ++ [Text ""] :: r' ->
    map snd s = map snd s' /\ r = r'.
  Proof.
    induction s as [|[d ids] s IH]; intros [|[d' ids'] s'] r r'; cbn; try discriminate.
    - inversion 1. auto.
    - intros E. inversion E as [[E1 E2 E3]]. apply map_num_inj in E2. destruct (IH _ _ _ E3). subst. split; [congruence|reflexivity].
  Qed.
  Lemma cell_inj c c' (r r' : list (line X)) : cell_lines c ++ r = cell_lines c' ++ r' -> c = c' /\ r = r'.
  Proof.
    unfold ReportModel.cell_lines. rewrite <- !app_assoc. cbn [app]. intros E.
    inversion E as [[E1 E2 E3 E4 E5 E6 E7]]. apply map_num_inj in E6. apply subs_inj in E7 as [E7 E8]. rewrite !enumerated_snd in E7.
    split; [|assumption]. destruct c, c'; cbn in *; subst; reflexivity.
  Qed.
  Lemma cells_inj l : forall l', flat_map cell_lines l = flat_map cell_lines l' -> l = l'.
  Proof.
    induction l as [|c l IH]; intros [|c' l'] E; [reflexivity|discriminate|discriminate|].
    cbn [flat_map] in E. apply cell_inj in E as [-> E]. f_equal. auto.
  Qed.
  Lemma points_inj (s : list (nat * list X)) : forall s' (r r' : list (line X)),
    map (fun ip => Text "tag: " :: Num (fst ip) :: Text " " :: map Coord (snd ip)) s ++ [Text ""] :: r =
    map (fun ip => Text "tag: " :: Num (fst ip) :: Text " " :: map Coord (snd ip)) s' ++ [Text ""] :: r' ->
    map snd s = map snd s' /\ r = r'.
  Proof.
    induction s as [|[d ids] s IH]; intros [|[d' ids'] s'] r r'; cbn; try discriminate.
    - inversion 1. auto.
    - intros E. inversion E as [[E1 E2 E3]]. apply map_coord_inj in E2. destruct (IH _ _ _ E3). subst. split; [congruence|reflexivity].
  Qed.

  Lemma prints_fst_ok (l : list (res (line X))) w : prints l = (w, Ok tt) -> l = map Ok w.
  Proof.
    revert w. induction l as [|[x|e] l IH]; intros w; cbn.
    - now inversion 1.
    - destruct (prints l) as [w' r] eqn:E. inversion 1. subst. cbn. f_equal. now apply IH.
    - discriminate.
  Qed.
  Lemma write_ok points cs lines : write_data points cs = (lines, Ok tt) -> exists h l, cs = map Some l /\ length h = 6 /\ lines = h ++ body points l.
  Proof.
    unfold ReportModel.write_data. destruct (all_cells cs) as [l|] eqn:E; [|discriminate].
    apply all_cells_inv in E. subst cs. rewrite map_length. fold (body points l). intros H. apply prints_fst_ok in H.
    exists (firstn 6 lines), l. split; [reflexivity|].
    assert (L : length lines = 6 + length (body points l)).
    { rewrite <- (map_length Ok lines), <- H, app_length, map_length. reflexivity. }
    split; [rewrite firstn_length; lia|].
    rewrite <- (firstn_skipn 6 lines) at 1. f_equal.
    apply (f_equal (skipn 6)) in H. change (map Ok (body points l) = skipn 6 (map Ok lines)) in H. rewrite skipn_map in H.
    assert (J : forall (u v : list (line X)), map Ok u = map Ok v -> u = v).
    { induction u as [|x u IHu]; intros [|y v]; cbn; try discriminate; [reflexivity|]. inversion 1. f_equal; auto. }
    apply J. symmetry. exact H.
  Qed.

  Lemma faithful_lemma : forall points cs points' cs' lines,
    write_data points cs = (lines, Ok tt) -> write_data points' cs' = (lines, Ok tt) -> points = points' /\ cs = cs'.
  Proof.
    intros points cs points' cs' lines H H'.
    apply write_ok in H as (h & l & -> & L & E). apply write_ok in H' as (h' & l' & -> & L' & E').
    assert (B : body points l = body points' l').
    { assert (S := E). rewrite E' in S. apply (f_equal (skipn 6)) in S.
      rewrite !skipn_app, (skipn_all2 h), (skipn_all2 h') in S by lia. rewrite L, L' in S. symmetry. exact S. }
    unfold body, point_lines in B. cbn [app] in B. inversion B as [[B1 B2]].
    apply points_inj in B2 as [B2 B3]. rewrite !enumerated_snd in B2. subst points'.
    inversion B3 as [[B4 B5]]. apply cells_inj in B5. subst. auto.
  Qed.

  Lemma untagged_lemma : forall points l, l <> [] -> (forall c, In c l -> c_mat c = None) ->
    exists a b, write_data points (map Some l) =
      ([ [Text "Dimension data"]; [Text "Min entity dimension: "; Num a]; [Text "Max entity dimension: "; Num b] ], Err ValueError).
  Proof.
    intros points l N T.
    assert (N' : map c_dim l <> []) by (destruct l; [congruence|discriminate]).
    destruct (min_of_least _ N') as (a & Ea & _). destruct (max_of_greatest _ N') as (b & Eb & _). exists a, b.
    assert (F : filter tagged l = []).
    { clear - T. induction l as [|c l IH]; [reflexivity|]. cbn. unfold tagged at 1. rewrite (T c) by now left. apply IH. intros; apply T; now right. }
    unfold ReportModel.write_data. rewrite all_cells_some. unfold dimension_lines. rewrite Ea, Eb, F. reflexivity.
  Qed.
  Lemma empty_lemma : forall points, write_data points [] = ([[Text "Dimension data"]], Err ValueError).
  Proof. reflexivity. Qed.
  Lemma slot_lemma : forall points cs, In None cs -> write_data points cs = ([], Err AttributeError).
  Proof. intros points cs H. unfold ReportModel.write_data. now rewrite all_cells_none. Qed.
End Report.

Lemma unused_lemma {X} (physical_name : cell -> string) (points : list (list X)) np blocks physical cs i :
  well_shaped blocks -> build_conformal_mesh np blocks physical = Ok cs -> fully_tagged blocks physical ->
  i < length cs -> i < np -> (forall d row t, In (d, row, t) (input_rows blocks physical) -> d <= 3 -> ~ In i row) ->
  write_data physical_name points cs = ([], Err AttributeError).
Proof.
  intros W B F L N U. apply slot_lemma. apply (nth_error_In cs i). apply (C06_lemma np blocks physical cs W B F i L). auto.
Qed.
