(** * Lemmas: the lines of a network of lines and their immersion, C95 *)
From Coq Require Import List Arith ZArith Bool Lia Permutation Sorted.
From Verif Require Import Base BaseProof FracModel FracSpec FracProof2 NetProof SurfModel SurfSpec SurfProof.
Import ListNotations.
Local Open Scope nat_scope.

Lemma combine_seq {A} (l : list A) (d : A) : combine (seq 0 (length l)) l = map (fun i => (i, nth i l d)) (seq 0 (length l)).
Proof.
  assert (G : forall s, combine (seq s (length l)) l = map (fun i => (i + s, nth i l d)) (seq 0 (length l))).
  { induction l as [|x l IH]; intros s; [reflexivity|]. cbn [length seq combine map nth]. rewrite IH, <- seq_shift, map_map. f_equal. apply map_ext. intros i. cbn [nth]. f_equal. lia. }
  rewrite (G 0). apply map_ext. intros i. f_equal. lia.
Qed.
Lemma combine_map_map {A B C} (g : A -> B) (h : A -> C) l : combine (map g l) (map h l) = map (fun x => (g x, h x)) l.
Proof. induction l as [|x l IH]; [reflexivity|]. cbn. rewrite IH. reflexivity. Qed.
Lemma map_nth_seq {A} (l : list A) d : map (fun i => nth i l d) (seq 0 (length l)) = l.
Proof. induction l as [|x l IH]; [reflexivity|]. cbn [length seq map nth]. f_equal. rewrite <- seq_shift, map_map. exact IH. Qed.

(** ** lines of a network of lines *)
Section Lines.
  Variable P : Type.
  Variable isect : P -> P -> P -> P -> option P.
  Variable near : P -> P -> bool.
  Variable argsort : list P -> P -> list nat.
  Hypothesis near_refl : forall x, near x x = true.
  Hypothesis argsort_perm : forall xs x, Permutation (argsort xs x) (seq 0 (length xs)).

  Definition crossb (segs : list (P * P)) (k : nat) : bool :=
    existsb (fun l => negb (k =? l) && match nth_error segs (Nat.min k l), nth_error segs (Nat.max k l) with
      | Some (a, b), Some (p, q) => match isect a b p q with Some _ => true | None => false end | _, _ => false end) (seq 0 (length segs)).
  Lemma crossb_spec segs k : k < length segs -> crossb segs k = true <-> exists l x, meets P isect segs k l x.
  Proof.
    intros K. unfold crossb. rewrite existsb_exists. split.
    - intros (l & L & H). apply andb_true_iff in H. destruct H as (H1 & H2). apply negb_true_iff, Nat.eqb_neq in H1.
      destruct (nth_error segs (Nat.min k l)) as [(a, b)|] eqn:E1; [|discriminate]. destruct (nth_error segs (Nat.max k l)) as [(p, q)|] eqn:E2; [|discriminate].
      destruct (isect a b p q) as [x|] eqn:E3; [|discriminate]. exists l, x, a, b, p, q. auto.
    - intros (l & x & a & b & p & q & E1 & E2 & N & I). exists l. split.
      + apply in_seq. assert (Nat.max k l < length segs) by (apply nth_error_Some; congruence). lia.
      + rewrite E1, E2, I. apply Nat.eqb_neq in N. rewrite N. reflexivity.
  Qed.
  Definition net_lines (segs : list (P * P)) (n : network P) : list nat :=
    positions (fun c => (gc_dim c =? 1) && ((length segs =? 1) || match gc_imm c with [] => false | _ => true end)) (n_cells P n).
  (** the lines that have pieces are the ones that meet another line *)
  Lemma lines_spec segs shift n : segs <> [] -> intersect_1D_fractures P isect near argsort (map (fun s => [fst s; snd s]) segs) shift = Ok n ->
    net_lines segs n = if length segs =? 1 then [2] else map (fun k => 3 * k + 2) (filter (crossb segs) (seq 0 (length segs))).
  Proof.
    intros Ne E. unfold net_lines. destruct (Nat.eqb_spec (length segs) 1) as [L|L].
    - destruct segs as [|(a, b) [|]]; try discriminate. vm_compute in E. injection E as <-. reflexivity.
    - destruct (C59_lemma P isect near argsort segs shift near_refl argsort_perm Ne) as (n' & E' & (Ids & C & R) & S). rewrite E in E'. injection E' as <-.
      cbn [orb]. apply sorted_same.
      + rewrite positions_pos. apply pos_sorted.
      + assert (G : forall l, StronglySorted lt l -> StronglySorted lt (map (fun k => 3 * k + 2) l)).
        { induction 1 as [|x l H IH F]; [constructor|]. cbn [map]. constructor; [exact IH|]. rewrite Forall_forall in *. intros y Y. apply in_map_iff in Y. destruct Y as (z & <- & Z). specialize (F z Z). lia. }
        apply G, sorted_filter, sorted_seq.
      + intros i. rewrite positions_In, in_map_iff. split.
        * intros (c & Hc & Q). apply andb_true_iff in Q. destruct Q as (Q1 & Q2). apply Nat.eqb_eq in Q1.
          destruct (C i c Hc) as [(t & tag & -> & _)|[(k & imm & K & -> & _)|(k & u & v & _ & _ & _ & -> & _)]]; [discriminate| |discriminate].
          assert (I : 3 * k + 2 = i) by exact (Ids i _ Hc). exists k. split; [exact I|]. apply filter_In. split; [apply in_seq; lia|]. apply crossb_spec; [exact K|].
          destruct (S k K) as (imm' & chain & F & _). pose proof (fs_line _ _ _ _ _ _ _ _ _ F) as Fl. assert (imm' = imm) by (subst i; congruence). subst imm'. clear Fl. cbn [gc_imm] in Q2.
          destruct (crossb segs k) eqn:B; [apply crossb_spec in B; [|exact K]; exact B|]. exfalso.
          assert (NM : forall v, ~ on_fracture P isect near segs n k v).
          { intros v (l & x & M & _). assert (B' : crossb segs k = true) by (apply crossb_spec; [exact K|]; exists l, x; exact M). congruence. }
          rewrite (fs_none _ _ _ _ _ _ _ _ _ F NM) in Q2. discriminate.
        * intros (k & <- & I). apply filter_In in I. destruct I as (I & B). apply in_seq in I. apply crossb_spec in B; [|lia].
          destruct (S k ltac:(lia)) as (imm & chain & F & _). pose proof (fs_line _ _ _ _ _ _ _ _ _ F) as Fl.
          eexists. split; [exact Fl|]. cbn [gc_dim gc_imm Nat.eqb andb].
          destruct B as (l & x & M). destruct (R k l x M) as (v & V).
          destruct (fs_pieces _ _ _ _ _ _ _ _ _ F) as (s & Es & _); [exists v, l, x; auto|].
          destruct (fs_ends _ _ _ _ _ _ _ _ _ F) as (E1 & E2). destruct chain as [|u [|w chain]]; [contradiction| |].
          -- destruct E1 as [E1|[]], E2 as [E2|[]]. lia.
          -- rewrite Es. reflexivity.
  Qed.
  Lemma filter_all {A} (f : A -> bool) l : (forall x, In x l -> f x = true) -> filter f l = l.
  Proof. induction l as [|x l IH]; intros H; [reflexivity|]. cbn [filter]. rewrite (H x (or_introl eq_refl)), IH; auto. intros y Y. apply H. right. exact Y. Qed.
  Lemma filter_some {A} (f : A -> bool) l x : In x l -> f x = false -> length (filter f l) < length l.
  Proof.
    intros I F. assert (G : forall l, length (filter f l) <= length l) by (clear; induction l as [|y l IH]; [auto|]; cbn [filter]; destruct (f y); simpl; lia).
    induction l as [|y l IH]; [contradiction|]. cbn [filter]. destruct I as [<-|I].
    - rewrite F. specialize (G l). simpl. lia.
    - specialize (IH I). destruct (f y); simpl; lia.
  Qed.
  Definition crossing (segs : list (P * P)) : bool := (length segs <=? 1) || forallb (crossb segs) (seq 0 (length segs)).
  Lemma crossing_spec segs : crossing segs = true <-> all_cross P isect segs.
  Proof.
    unfold crossing, all_cross. rewrite orb_true_iff, Nat.leb_le, forallb_forall. split; (intros [H|H]; [left; exact H|right]).
    - intros k K. apply crossb_spec; [exact K|]. apply H. apply in_seq. lia.
    - intros k K. apply in_seq in K. apply crossb_spec; [lia|]. apply H. lia.
  Qed.
  Lemma lines_all segs shift n : segs <> [] -> intersect_1D_fractures P isect near argsort (map (fun s => [fst s; snd s]) segs) shift = Ok n ->
    crossing segs = true -> net_lines segs n = map (fun k => 3 * k + 2) (seq 0 (length segs)).
  Proof.
    intros Ne E C. rewrite (lines_spec segs shift n Ne E). destruct (Nat.eqb_spec (length segs) 1) as [L|L]; [rewrite L; reflexivity|].
    unfold crossing in C. apply orb_true_iff in C. destruct C as [C|C].
    - apply Nat.leb_le in C. destruct segs as [|? [|]]; [contradiction|simpl in L; lia|simpl in C; lia].
    - rewrite filter_all; [reflexivity|]. intros k K. rewrite forallb_forall in C. auto.
  Qed.
  Lemma lines_few segs shift n : segs <> [] -> intersect_1D_fractures P isect near argsort (map (fun s => [fst s; snd s]) segs) shift = Ok n ->
    crossing segs = false -> length (net_lines segs n) < length segs.
  Proof.
    intros Ne E C. rewrite (lines_spec segs shift n Ne E). unfold crossing in C. apply orb_false_iff in C. destruct C as (C1 & C2). apply Nat.leb_gt in C1.
    destruct (Nat.eqb_spec (length segs) 1) as [L|L]; [lia|]. rewrite map_length.
    assert (X : exists k, In k (seq 0 (length segs)) /\ crossb segs k = false).
    { revert C2. generalize (seq 0 (length segs)). induction l as [|k l IH]; [discriminate|]. cbn [forallb]. destruct (crossb segs k) eqn:B.
      - intros H. destruct (IH H) as (k' & I & B'). exists k'. split; [right|]; assumption.
      - intros _. exists k. split; [left; reflexivity|exact B]. }
    destruct X as (k & I & B). rewrite <- (seq_length (length segs) 0) at 2. apply (filter_some _ _ k I B).
  Qed.
End Lines.

(** ** the loops *)
Section Loops.
  Variable P X : Type.
  Variable pp : list P -> list P -> res (option (P * P)).
  Variable pos : P -> P -> P -> X.
  Variable isect : X -> P -> P -> P -> P -> option P.
  Variable near : P -> P -> bool.
  Variable argsort : list P -> P -> list nat.
  Hypothesis near_refl : forall x, near x x = true.
  Hypothesis argsort_perm : forall xs x, Permutation (argsort xs x) (seq 0 (length xs)).
  Variable fs : list (list P).
  Variable data : nat -> nat -> option (P * P).
  Let N := length fs.
  Hypothesis Hdata : forall i j f g, i < j -> nth_error fs i = Some f -> nth_error fs j = Some g -> pp f g = Ok (data i j).

  Definition row (i : nat) : list (option (P * P)) := map (fun j => if j <=? i then None else data i j) (seq 0 N).
  Lemma data_spec : intersection_data P pp fs = Ok (map row (seq 0 N)).
  Proof.
    unfold intersection_data. rewrite (combine_seq fs []). fold N.
    rewrite (mapM_Ok_map _ (fun fi : nat * list P => row (fst fi))).
    - rewrite map_map. reflexivity.
    - intros (i, f) I. apply in_map_iff in I. destruct I as (i' & E & I). injection E as -> <-. apply in_seq in I. cbn [fst snd].
      rewrite (mapM_Ok_map _ (fun fj : nat * list P => if fst fj <=? i then None else data i (fst fj))).
      + rewrite map_map. reflexivity.
      + intros (j, g) J. apply in_map_iff in J. destruct J as (j' & E & J). injection E as -> <-. apply in_seq in J. cbn [fst snd].
        destruct (Nat.leb_spec j i) as [L|L]; [reflexivity|]. apply (Hdata i j); [exact L| |]; apply nth_error_nth'; unfold N in *; lia.
  Qed.
  Lemma found_spec i : flat_map (fun o => match o with Some e => [e] | None => [] end) (row i) = segments P data N i.
  Proof.
    unfold row, segments. generalize (seq 0 N). induction l as [|j l IH]; [reflexivity|]. cbn [map flat_map]. rewrite IH. f_equal.
    destruct (Nat.leb_spec j i), (Nat.ltb_spec i j); try lia; reflexivity.
  Qed.
  Lemma combine_row i : combine (seq 0 (length (row i))) (row i) = map (fun j => (j, if j <=? i then None else data i j)) (seq 0 N).
  Proof. unfold row at 1. rewrite map_length, seq_length. unfold row. rewrite <- (map_id (seq 0 N)) at 1. rewrite combine_map_map. reflexivity. Qed.
  Lemma segments_length i : length (segments P data N i) = length (partners P data i N).
  Proof.
    unfold segments, partners. generalize (seq 0 N). induction l as [|j l IH]; [reflexivity|]. cbn [flat_map filter]. rewrite app_length, IH. unfold hit.
    destruct (i <? j); [|reflexivity]. destruct (data i j); reflexivity.
  Qed.
  Lemma partners_S i j : partners P data i (S j) = partners P data i j ++ (if hit P data i j then [j] else []).
  Proof. unfold partners. rewrite seq_S, filter_app. cbn [filter plus]. destruct (hit P data i j); reflexivity. Qed.
  Lemma partners_mono i j : forall k, length (partners P data i j) <= length (partners P data i (j + k)).
  Proof. induction k as [|k IH]; [rewrite Nat.add_0_r; lia|]. rewrite Nat.add_succ_r, partners_S, app_length. lia. Qed.

  (** too few lines *)
  Lemma immerse_few i surfaces lines : forall dat cs c, i < length surfaces -> (forall v, In v surfaces -> v < length cs) ->
    (forall j o, In (j, o) dat -> j < length surfaces) ->
    length lines < c + length (filter (fun jo : nat * option (P * P) => match snd jo with Some _ => true | None => false end) dat) -> c <= length lines ->
    immerse_lines P i surfaces lines cs c dat = Err IndexError.
  Proof.
    induction dat as [|(j, o) dat IH]; intros cs c I S D L C; [simpl in L; lia|]. cbn [immerse_lines filter snd] in *. destruct o as [e|].
    - cbn [length] in L. destruct (Nat.eq_dec c (length lines)) as [E|E]; [rewrite get_at_err by lia; reflexivity|].
      destruct (get_at_Ok lines c) as (f & ->); [lia|]. cbn [bind].
      pose proof (D j _ (or_introl eq_refl)) as J. unfold get_at at 1 2.
      destruct (nth_error surfaces j) as [pj|] eqn:Ej; [|apply nth_error_None in Ej; lia]. cbn [bind].
      destruct (nth_error surfaces i) as [pi|] eqn:Ei; [|apply nth_error_None in Ei; lia]. cbn [bind].
      apply nth_error_In in Ej, Ei. destruct (get_at_Ok cs pi (S _ Ei)) as (ci & ->). cbn [bind].
      destruct (get_at_Ok (set_at cs pi (immerse ci f)) pj) as (cj & ->); [rewrite length_set_at; auto|]. cbn [bind].
      apply IH; auto; [|intros j' o' I'; apply (D j' o'); right; exact I'|lia|lia]. intros v V. rewrite !length_set_at. auto.
    - apply IH; auto. intros j' o' I'. apply (D j' o'). right. exact I'.
  Qed.

  (** enough lines: [lam r] is the place of line [r] *)
  Section Step.
    Variable i : nat.
    Variable imm : nat -> list nat.
    Variable lam : nat -> nat.
    Variable rest : list scell.
    Variable lines : list nat.
    Hypothesis Hi : i < N.
    Hypothesis Hlines : forall r, r < length (partners P data i N) -> nth_error lines r = Some (lam r).
    Definition rank (j : nat) : nat := length (partners P data i j).
    Definition imm_at (j k : nat) : list nat :=
      if k =? i then imm i ++ map (fun l => lam (rank l)) (partners P data i j)
      else if hit P data i k && (k <? j) then imm k ++ [lam (rank k)] else imm k.
    Lemma immerse_all : forall n j, j + n = N ->
      immerse_lines P i (map (surface_at P fs) (seq 0 N)) lines (base_cells P (imm_at j) 0 0 fs ++ rest) (rank j)
        (map (fun j => (j, if j <=? i then None else data i j)) (seq j n)) = Ok (base_cells P (imm_at N) 0 0 fs ++ rest).
    Proof.
      induction n as [|n IH]; intros j J.
      - replace j with N by lia. reflexivity.
      - cbn [seq map immerse_lines].
        assert (Step : (if j <=? i then None else data i j) = match data i j with Some e => if i <? j then Some e else None | None => None end).
        { destruct (Nat.leb_spec j i), (Nat.ltb_spec i j); try lia; destruct (data i j); reflexivity. }
        destruct (hit P data i j) eqn:H.
        + unfold hit in H. apply andb_true_iff in H. destruct H as (H1 & H2). destruct (data i j) as [e|] eqn:E; [|discriminate]. rewrite Step, H1.
          assert (Hj : hit P data i j = true) by (unfold hit; rewrite H1, E; reflexivity). apply Nat.ltb_lt in H1.
          assert (R : rank (S j) = rank j + 1) by (unfold rank; rewrite partners_S, Hj, app_length; reflexivity).
          assert (R' : rank j < length (partners P data i N)). { pose proof (partners_mono i (S j) n) as M. replace (S j + n) with N in M by lia. unfold rank in *. lia. }
          unfold get_at at 1 2 3. rewrite (Hlines _ R'), !nth_error_map, !nth_error_seq by lia. cbn [bind option_map Nat.add].
          rewrite base_get by (unfold N in *; lia). cbn [bind Nat.add]. 
          pose proof (base_set P (imm_at j) rest (lam (rank j)) fs 0 0 i ltac:(unfold N in *; lia)) as B1. cbn [Nat.add] in B1. rewrite B1. clear B1.
          rewrite base_get by (unfold N in *; lia). cbn [bind Nat.add].
          pose proof (base_set P (upd (imm_at j) i (imm_at j i ++ [lam (rank j)])) rest (lam (rank j)) fs 0 0 j ltac:(unfold N in *; lia)) as B2. cbn [Nat.add] in B2. rewrite B2. clear B2.
          rewrite <- R. rewrite <- (IH (S j) ltac:(lia)). f_equal. f_equal. apply base_ext. intros k K. unfold upd, imm_at.
          rewrite partners_S, Hj, map_app, app_assoc. cbn [map].
          destruct (Nat.eqb_spec k j) as [->|Kj].
          * destruct (Nat.eqb_spec j i); [lia|]. rewrite Hj. replace (j <? j) with false by (symmetry; apply Nat.ltb_irrefl). replace (j <? S j) with true by (symmetry; apply Nat.ltb_lt; lia). reflexivity.
          * destruct (Nat.eqb_spec k i) as [->|Ki]; [rewrite ?Nat.eqb_refl; reflexivity|].
            replace (k <? S j) with (k <? j); [reflexivity|]. destruct (Nat.ltb_spec k j), (Nat.ltb_spec k (S j)); try lia; reflexivity.
        + assert (Z : (if j <=? i then None else data i j) = None).
          { rewrite Step. unfold hit in H. destruct (data i j); [|reflexivity]. rewrite andb_true_r in H. rewrite H. reflexivity. }
          rewrite Z. rewrite <- (IH (S j) ltac:(lia)).
          replace (rank (S j)) with (rank j) by (unfold rank; rewrite partners_S, H, app_nil_r; reflexivity). f_equal. f_equal. apply base_ext. intros k K. unfold imm_at.
          rewrite partners_S, H, app_nil_r. destruct (Nat.eqb_spec k i); [reflexivity|].
          destruct (Nat.eq_dec k j) as [->|Kj]; [rewrite H; reflexivity|].
          replace (k <? S j) with (k <? j); [reflexivity|]. destruct (Nat.ltb_spec k j), (Nat.ltb_spec k (S j)); try lia; reflexivity.
    Qed.
  End Step.
End Loops.
