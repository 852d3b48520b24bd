(** * Lemmas: cells of the fractures, lines of a network of lines, C95 *)
From Coq Require Import List Arith ZArith Bool Lia Permutation Sorted.
From Verif Require Import Base BaseProof FracModel FracSpec FracProof2 NetProof SurfModel SurfSpec.
Import ListNotations.
Local Open Scope nat_scope.

(** ** lists *)
Lemma list_ext {A} (l l' : list A) : (forall i, nth_error l i = nth_error l' i) -> l = l'.
Proof.
  revert l'. induction l as [|x l IH]; intros [|y l'] H; [reflexivity|specialize (H 0); discriminate|specialize (H 0); discriminate|].
  pose proof (H 0) as H0. injection H0 as ->. f_equal. apply IH. intros i. exact (H (S i)).
Qed.
Lemma get_at_Ok {A} (l : list A) i : i < length l -> exists x, get_at l i = Ok x.
Proof. intros H. unfold get_at. destruct (nth_error l i) as [x|] eqn:E; [exists x; reflexivity|]. apply nth_error_None in E. lia. Qed.
Lemma get_at_err {A} (l : list A) i : length l <= i -> get_at l i = Err IndexError.
Proof. intros H. unfold get_at. apply nth_error_None in H. rewrite H. reflexivity. Qed.
Lemma nth_error_seq s n i : i < n -> nth_error (seq s n) i = Some (s + i).
Proof. intros H. rewrite (nth_error_nth' _ 0) by (rewrite seq_length; exact H). rewrite seq_nth by exact H. reflexivity. Qed.
Lemma nth_error_map_seq {A} (g : nat -> A) n i : i < n -> nth_error (map g (seq 0 n)) i = Some (g i).
Proof. intros H. rewrite nth_error_map, nth_error_seq by exact H. reflexivity. Qed.
Lemma set_at_app1 {A} (l l' : list A) i x : i < length l -> set_at (l ++ l') i x = set_at l i x ++ l'.
Proof. revert i. induction l as [|y l IH]; intros i H; [simpl in H; lia|]. destruct i as [|i]; [reflexivity|]. simpl in *. rewrite IH by lia. reflexivity. Qed.
Lemma set_at_app2 {A} (l l' : list A) i x : set_at (l ++ l') (length l + i) x = l ++ set_at l' i x.
Proof. induction l as [|y l IH]; [reflexivity|]. simpl. rewrite IH. reflexivity. Qed.
Lemma sorted_filter (f : nat -> bool) l : StronglySorted lt l -> StronglySorted lt (filter f l).
Proof.
  induction 1 as [|x l S IH F]; [constructor|]. cbn [filter]. destruct (f x); [|exact IH]. constructor; [exact IH|].
  rewrite Forall_forall in *. intros y Y. apply filter_In in Y. apply F. tauto.
Qed.
Lemma sorted_seq n s : StronglySorted lt (seq s n).
Proof. revert s. induction n as [|n IH]; intros s; [constructor|]. cbn [seq]. constructor; [apply IH|]. apply Forall_forall. intros y Y. apply in_seq in Y. lia. Qed.
Lemma sorted_same l l' : StronglySorted lt l -> StronglySorted lt l' -> (forall x, In x l <-> In x l') -> l = l'.
Proof.
  intros H. revert l'. induction H as [|x l S IH F]; intros l' S' E.
  - destruct l' as [|y l']; [reflexivity|]. exfalso. apply (E y). left. reflexivity.
  - destruct l' as [|y l']; [exfalso; apply (E x); left; reflexivity|]. apply StronglySorted_inv in S'. destruct S' as (S' & F').
    rewrite Forall_forall in F, F'.
    assert (x = y).
    { destruct (proj1 (E x) (or_introl eq_refl)) as [H|H]; [auto|]. destruct (proj2 (E y) (or_introl eq_refl)) as [K|K]; [auto|]. specialize (F y K). specialize (F' x H). lia. }
    subst y. f_equal. apply IH; [exact S'|]. intros z. split; intros Z.
    + destruct (proj1 (E z) (or_intror Z)) as [<-|K]; [specialize (F x Z); lia|exact K].
    + destruct (proj2 (E z) (or_intror Z)) as [<-|K]; [specialize (F' x Z); lia|exact K].
Qed.

(** ** positions *)
Definition pos_from {A} (f : A -> bool) (s : nat) (l : list A) : list nat := map snd (filter (fun ci => f (fst ci)) (combine l (seq s (length l)))).
Lemma pos_cons {A} (f : A -> bool) s x l : pos_from f s (x :: l) = (if f x then [s] else []) ++ pos_from f (S s) l.
Proof. unfold pos_from. cbn [length seq combine filter fst]. destruct (f x); reflexivity. Qed.
Lemma pos_app {A} (f : A -> bool) s l l' : pos_from f s (l ++ l') = pos_from f s l ++ pos_from f (s + length l) l'.
Proof.
  revert s. induction l as [|x l IH]; intros s; [cbn [app length]; rewrite Nat.add_0_r; reflexivity|].
  cbn [app]. rewrite !pos_cons, IH, <- app_assoc. cbn [length]. replace (S s + length l) with (s + S (length l)) by lia. reflexivity.
Qed.
Lemma pos_none {A} (f : A -> bool) s l : (forall x, In x l -> f x = false) -> pos_from f s l = [].
Proof. revert s. induction l as [|x l IH]; intros s H; [reflexivity|]. rewrite pos_cons, (H x (or_introl eq_refl)). apply IH. intros y Y. apply H. right. exact Y. Qed.
Lemma pos_sorted {A} (f : A -> bool) s l : StronglySorted lt (pos_from f s l) /\ forall i, In i (pos_from f s l) -> s <= i.
Proof.
  revert s. induction l as [|x l IH]; intros s; [split; [constructor|intros i []]|]. rewrite pos_cons. destruct (IH (S s)) as (S1 & L). destruct (f x); cbn [app].
  - split; [constructor; [exact S1|]; apply Forall_forall; intros i I; apply L in I; lia|]. intros i [<-|I]; [lia|]. apply L in I. lia.
  - split; [exact S1|]. intros i I. apply L in I. lia.
Qed.
Lemma positions_pos {A} (f : A -> bool) l : positions f l = pos_from f 0 l.
Proof. reflexivity. Qed.
Lemma positions_In f (cs : list gcell) i : In i (positions f cs) <-> exists c, nth_error cs i = Some c /\ f c = true.
Proof. apply in_positions. Qed.

(** ** the cells of the fractures *)
Definition corner_cell (i : nat) : scell := mk_scell 0 i None (Some i) [] [].
Definition edge_cell (s m t : nat) : scell := mk_scell 1 (s + m + t) (Some (Z.of_nat s)) None [s + t; s + (t + 1) mod m] [].
Definition surface_cell (s m : nat) (imm : list nat) : scell := mk_scell 2 (s + 2 * m) None None (seq (s + m) m) imm.
Definition fracture_cells (s m : nat) (imm : list nat) : list scell :=
  (map corner_cell (seq s m) ++ map (edge_cell s m) (seq 0 m)) ++ [surface_cell s m imm].
Lemma length_fracture s m imm : length (fracture_cells s m imm) = 2 * m + 1.
Proof. unfold fracture_cells. rewrite !app_length, !map_length, !seq_length. simpl. lia. Qed.

Lemma insert_edges_spec tag : forall cons cs cid, (forall a b, In (a, b) cons -> a < length cs /\ b < length cs) ->
  insert_edges cs cid tag cons =
    Ok (cs ++ map (fun t => mk_scell 1 (cid + t) (Some tag) None [fst (nth t cons (0, 0)); snd (nth t cons (0, 0))] []) (seq 0 (length cons)), seq cid (length cons), cid + length cons).
Proof.
  induction cons as [|(a, b) cons IH]; intros cs cid H; cbn [insert_edges length seq map]; [rewrite app_nil_r, Nat.add_0_r; reflexivity|].
  destruct (H a b (or_introl eq_refl)) as (La & Lb). destruct (get_at_Ok cs a La) as (xa & ->). destruct (get_at_Ok cs b Lb) as (xb & ->). cbn [bind].
  rewrite IH; [|intros a' b' I; rewrite app_length; simpl; destruct (H a' b' (or_intror I)); lia]. cbn [bind]. f_equal. f_equal; [f_equal|lia].
  - rewrite <- app_assoc. f_equal. cbn [app nth fst snd]. f_equal; [f_equal; lia|]. rewrite <- seq_shift, map_map. apply map_ext. intros t. cbn [nth]. f_equal. lia.
  - f_equal. f_equal. lia.
Qed.
Lemma cycle m s : 0 < m -> consecutive (map (fun i => i + s) (seq 0 m) ++ [s]) = map (fun t => (s + t, s + (t + 1) mod m)) (seq 0 m).
Proof.
  intros M. destruct (consecutive_spec (map (fun i => i + s) (seq 0 m) ++ [s])) as (L & C). rewrite app_length, map_length, seq_length in L. simpl in L.
  assert (G : forall t, t < m -> nth_error (map (fun i => i + s) (seq 0 m) ++ [s]) t = Some (s + t)).
  { intros t T. rewrite nth_error_app1 by (rewrite map_length, seq_length; exact T). rewrite nth_error_map_seq by exact T. f_equal. lia. }
  apply list_ext. intros t. destruct (Nat.lt_ge_cases t m) as [T|T].
  - rewrite nth_error_map_seq by exact T. apply (C t); split; [apply G; exact T|]. destruct (Nat.eq_dec (t + 1) m) as [E|E].
    + rewrite E, Nat.mod_same, Nat.add_0_r by lia. rewrite nth_error_app2 by (rewrite map_length, seq_length; lia). rewrite map_length, seq_length, Nat.sub_diag. reflexivity.
    + rewrite Nat.mod_small by lia. apply G. lia.
  - transitivity (@None (nat * nat)); [apply nth_error_None; lia|symmetry; apply nth_error_None; rewrite map_length, seq_length; lia].
Qed.

Section Insert.
  Variable P : Type.
  Lemma insert_fracture_spec cs (ps : list P) f : f <> [] ->
    insert_fracture_cell P (cs, ps) (length cs) f (Z.of_nat (length cs)) = Ok ((cs ++ fracture_cells (length cs) (length f) [], ps ++ f), length cs + 2 * length f).
  Proof.
    intros F. unfold insert_fracture_cell. destruct f as [|x f']; [contradiction|]. set (f := x :: f') in *. 
    assert (M : 0 < length f) by (unfold f; simpl; lia). cbv zeta. remember (length f) as m eqn:Em. set (s := length cs).
    replace (get_at (map (fun i => i + s) (seq 0 m)) 0) with (@Ok nat s) by (destruct m; [lia|reflexivity]). cbn [bind].
    rewrite cycle by exact M. rewrite map_map.
    assert (L1 : length (cs ++ map (fun i => mk_scell 0 (i + s) None (Some (i + s)) [] []) (seq 0 m)) = s + m) by (rewrite app_length, map_length, seq_length; reflexivity).
    rewrite insert_edges_spec.
    2:{ intros a b I. apply in_map_iff in I. destruct I as (t & E & I). inversion E as [[E1 E2]]. clear E E1 E2 a b. apply in_seq in I. rewrite L1. fold s. assert (U : (t + 1) mod m < m) by (apply Nat.mod_upper_bound; lia). split; [lia|]. revert U. generalize ((t + 1) mod m). intros; lia. }
    cbn [bind]. rewrite !map_length, !seq_length.
    rewrite (mapM_Ok_map _ (fun i => match get_at ((cs ++ map (fun i => mk_scell 0 (i + s) None (Some (i + s)) [] []) (seq 0 m)) ++ map (fun t => mk_scell 1 (s + m + t) (Some (Z.of_nat s)) None
           [fst (nth t (map (fun t => (s + t, s + (t + 1) mod m)) (seq 0 m)) (0, 0)); snd (nth t (map (fun t => (s + t, s + (t + 1) mod m)) (seq 0 m)) (0, 0))] []) (seq 0 m)) i with Ok c => c | Err _ => surface_cell 0 0 [] end)).
    2:{ intros i I. apply in_seq in I. destruct (get_at_Ok ((cs ++ map (fun i => mk_scell 0 (i + s) None (Some (i + s)) [] []) (seq 0 m)) ++ map (fun t => mk_scell 1 (s + m + t) (Some (Z.of_nat s)) None
           [fst (nth t (map (fun t => (s + t, s + (t + 1) mod m)) (seq 0 m)) (0, 0)); snd (nth t (map (fun t => (s + t, s + (t + 1) mod m)) (seq 0 m)) (0, 0))] []) (seq 0 m)) i) as (c & ->); [|reflexivity].
        rewrite app_length, L1, map_length, seq_length. lia. }
    cbn [bind]. f_equal. f_equal; [|lia]. f_equal. unfold fracture_cells. rewrite <- !app_assoc. f_equal. f_equal; [|f_equal].
    - apply list_ext. intros i. rewrite !nth_error_map. destruct (Nat.lt_ge_cases i m) as [I|I].
      + rewrite !nth_error_seq by exact I. cbn [option_map]. unfold corner_cell. rewrite (Nat.add_comm (0 + i) s). reflexivity.
      + replace (nth_error (seq 0 m) i) with (@None nat) by (symmetry; apply nth_error_None; rewrite seq_length; exact I).
        replace (nth_error (seq s m) i) with (@None nat) by (symmetry; apply nth_error_None; rewrite seq_length; exact I). reflexivity.
    - apply map_ext_in. intros t T. apply in_seq in T. unfold edge_cell.
      rewrite (nth_indep _ (0, 0) ((fun t => (s + t, s + (t + 1) mod m)) 0)) by (rewrite map_length, seq_length; lia).
      rewrite (map_nth (fun t => (s + t, s + (t + 1) mod m))), seq_nth by lia. reflexivity.
    - unfold surface_cell. f_equal. f_equal. lia.
  Qed.

  (** cells of the fractures [fs], the first of them number [k], its cells beginning at [s] *)
  Fixpoint base_cells (imm : nat -> list nat) (s k : nat) (fs : list (list P)) : list scell :=
    match fs with
    | [] => []
    | f :: fs' => fracture_cells s (length f) (imm k) ++ base_cells imm (s + (2 * length f + 1)) (S k) fs'
    end.
  Lemma length_base imm : forall fs s k, length (base_cells imm s k fs) = list_sum (map (fun f => 2 * length f + 1) fs).
  Proof. induction fs as [|f fs IH]; intros s k; [reflexivity|]. cbn [base_cells map]. rewrite app_length, length_fracture, IH. reflexivity. Qed.
  Lemma base_ext imm imm' : forall fs s k, (forall j, k <= j < k + length fs -> imm j = imm' j) -> base_cells imm s k fs = base_cells imm' s k fs.
  Proof.
    induction fs as [|f fs IH]; intros s k H; [reflexivity|]. cbn [base_cells length] in *. rewrite (H k) by lia. f_equal. apply IH. intros j J. apply H. lia.
  Qed.
  Lemma insert_fractures_gen : forall fs cs (ps : list P) k, (forall f, In f fs -> f <> []) ->
    foldM (fun (sc : state P * nat) fracture =>
      do r <- insert_fracture_cell P (fst sc) (snd sc) fracture (Z.of_nat (snd sc));
      Ok (fst r, snd r + 1)) fs ((cs, ps), length cs) =
    Ok ((cs ++ base_cells (fun _ => []) (length cs) k fs, ps ++ concat fs), length cs + list_sum (map (fun f => 2 * length f + 1) fs)).
  Proof.
    induction fs as [|f fs IH]; intros cs ps k H.
    - cbn. rewrite !app_nil_r, Nat.add_0_r. reflexivity.
    - cbn [foldM fst snd]. rewrite insert_fracture_spec by (apply H; left; reflexivity). cbn [bind fst snd].
      assert (L : length cs + 2 * length f + 1 = length (cs ++ fracture_cells (length cs) (length f) [])) by (rewrite app_length, length_fracture; lia).
      rewrite L, (IH _ _ (S k)) by (intros g G; apply H; right; exact G). cbn [base_cells concat map]. rewrite <- !app_assoc. f_equal. f_equal.
      + f_equal. f_equal. f_equal. rewrite app_length, length_fracture. reflexivity.
      + rewrite app_length, length_fracture. cbn [list_sum fold_right]. unfold list_sum. lia.
  Qed.
  Lemma insert_fractures_spec fs : (forall f, In f fs -> f <> []) ->
    insert_fractures P fs = Ok ((base_cells (fun _ => []) 0 0 fs, concat fs), list_sum (map (fun f => 2 * length f + 1) fs)).
  Proof. intros H. unfold insert_fractures. apply (insert_fractures_gen fs [] [] 0 H). Qed.

  (** the place of surface [k] *)
  Definition surface_at (fs : list (list P)) (k : nat) : nat := cell_start P fs k + 2 * length (nth k fs []).
  Lemma cell_start_S f fs k : cell_start P (f :: fs) (S k) = 2 * length f + 1 + cell_start P fs k.
  Proof. reflexivity. Qed.
  Lemma surfaces_gen imm : forall fs s k, pos_from (fun c => sc_dim c =? 2) s (base_cells imm s k fs) = map (fun j => s + surface_at fs j) (seq 0 (length fs)).
  Proof.
    induction fs as [|f fs IH]; intros s k; [reflexivity|]. cbn [base_cells]. rewrite pos_app, length_fracture, IH.
    unfold fracture_cells. rewrite pos_app, pos_none.
    - rewrite pos_cons, app_length, !map_length, !seq_length. cbn [sc_dim surface_cell Nat.eqb app pos_from map filter combine length seq].
      f_equal; [unfold surface_at, cell_start; simpl; lia|]. rewrite <- seq_shift, map_map. apply map_ext. intros j. unfold surface_at. rewrite cell_start_S. cbn [nth]. lia.
    - intros c C. apply in_app_iff in C. destruct C as [C|C]; apply in_map_iff in C; destruct C as (t & <- & _); reflexivity.
  Qed.
  Lemma surfaces_spec imm fs : positions (fun c => sc_dim c =? 2) (base_cells imm 0 0 fs) = map (surface_at fs) (seq 0 (length fs)).
  Proof. rewrite positions_pos, surfaces_gen. reflexivity. Qed.
  Lemma surface_lt fs k imm rest : k < length fs -> surface_at fs k < length (base_cells imm 0 0 fs ++ rest).
  Proof.
    intros K. rewrite app_length, length_base. assert (surface_at fs k < list_sum (map (fun f => 2 * length f + 1) fs)); [|lia].
    revert k K. induction fs as [|f fs IH]; intros k K; [simpl in K; lia|]. unfold surface_at. destruct k as [|k].
    - simpl. lia.
    - rewrite cell_start_S. cbn [nth map]. simpl in K. specialize (IH k ltac:(lia)). unfold surface_at in IH. simpl. simpl in IH. lia.
  Qed.
  Definition upd (imm : nat -> list nat) (k : nat) (l : list nat) : nat -> list nat := fun j => if j =? k then l else imm j.
  Lemma base_get imm rest : forall fs s k j, j < length fs ->
    get_at (base_cells imm s k fs ++ rest) (surface_at fs j) = Ok (surface_cell (s + cell_start P fs j) (length (nth j fs [])) (imm (k + j))).
  Proof.
    induction fs as [|f fs IH]; intros s k j J; [simpl in J; lia|]. cbn [base_cells]. destruct j as [|j].
    - unfold get_at, surface_at, cell_start. cbn [firstn map list_sum fold_right nth]. rewrite nth_error_app1 by (rewrite app_length, length_fracture; lia).
      rewrite nth_error_app1 by (rewrite length_fracture; lia). unfold fracture_cells.
      rewrite nth_error_app2 by (rewrite app_length, !map_length, !seq_length; lia). rewrite app_length, !map_length, !seq_length.
      replace (0 + 2 * length f - (length f + length f)) with 0 by lia. cbn [nth_error]. rewrite !Nat.add_0_r. reflexivity.
    - specialize (IH (s + (2 * length f + 1)) (S k) j ltac:(simpl in J; lia)). unfold get_at in *. rewrite <- app_assoc. rewrite nth_error_app2.
      + rewrite length_fracture. unfold surface_at in *. rewrite cell_start_S. cbn [nth].
        replace (2 * length f + 1 + cell_start P fs j + 2 * length (nth j fs []) - (2 * length f + 1)) with (cell_start P fs j + 2 * length (nth j fs [])) by lia.
        rewrite IH. f_equal. f_equal; [lia|f_equal; lia].
      + rewrite length_fracture. unfold surface_at. rewrite cell_start_S. lia.
  Qed.
  Lemma base_set imm rest v : forall fs s k j, j < length fs ->
    set_at (base_cells imm s k fs ++ rest) (surface_at fs j) (immerse (surface_cell (s + cell_start P fs j) (length (nth j fs [])) (imm (k + j))) v) =
    base_cells (upd imm (k + j) (imm (k + j) ++ [v])) s k fs ++ rest.
  Proof.
    induction fs as [|f fs IH]; intros s k j J; [simpl in J; lia|]. cbn [base_cells]. rewrite <- !app_assoc. destruct j as [|j].
    - unfold surface_at, cell_start. cbn [firstn map list_sum fold_right nth]. rewrite !Nat.add_0_r. cbn [Nat.add].
      rewrite set_at_app1 by (rewrite length_fracture; lia). f_equal.
      + unfold fracture_cells. replace (2 * length f) with (length (map corner_cell (seq s (length f)) ++ map (edge_cell s (length f)) (seq 0 (length f))) + 0) by (rewrite app_length, !map_length, !seq_length; lia).
        rewrite set_at_app2. f_equal. cbn [set_at]. f_equal. unfold upd. rewrite Nat.eqb_refl. reflexivity.
      + f_equal. apply base_ext. intros j' J'. unfold upd. destruct (Nat.eqb_spec j' k); [lia|reflexivity].
    - replace (surface_at (f :: fs) (S j)) with (length (fracture_cells s (length f) (imm k)) + surface_at fs j) by (rewrite length_fracture; unfold surface_at; rewrite cell_start_S; cbn [nth]; lia).
      rewrite set_at_app2. f_equal.
      + unfold upd. destruct (Nat.eqb_spec k (k + S j)); [lia|reflexivity].
      + specialize (IH (s + (2 * length f + 1)) (S k) j ltac:(simpl in J; lia)). rewrite cell_start_S. cbn [nth].
        replace (s + (2 * length f + 1 + cell_start P fs j)) with (s + (2 * length f + 1) + cell_start P fs j) by lia. replace (k + S j) with (S k + j) by lia. exact IH.
  Qed.
End Insert.
