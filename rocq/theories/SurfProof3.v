(** * Lemmas: networks of fractures in space, C95 *)
From Coq Require Import List Arith ZArith Bool Lia Permutation Sorted.
From Verif Require Import Base BaseProof FracModel FracSpec FracProof2 NetProof SurfModel SurfSpec SurfProof SurfProof2.
Import ListNotations.
Local Open Scope nat_scope.

Lemma sum_S (g : nat -> nat) i : list_sum (map g (seq 0 (S i))) = list_sum (map g (seq 0 i)) + g i.
Proof. rewrite seq_S, map_app, list_sum_app. cbn [map list_sum fold_right plus]. lia. Qed.
Lemma flat_map_S {A} (g : nat -> list A) i : flat_map g (seq 0 (S i)) = flat_map g (seq 0 i) ++ g i.
Proof. rewrite seq_S, flat_map_app. cbn [flat_map plus]. rewrite app_nil_r. reflexivity. Qed.
Lemma length_flat_map {A} (g : nat -> list A) i : length (flat_map g (seq 0 i)) = list_sum (map (fun l => length (g l)) (seq 0 i)).
Proof. induction i as [|i IH]; [reflexivity|]. rewrite flat_map_S, sum_S, app_length, IH. reflexivity. Qed.
Lemma nth_flat_map {A} (g : nat -> list A) n l v x : l < n -> nth_error (g l) v = Some x ->
  nth_error (flat_map g (seq 0 n)) (list_sum (map (fun l => length (g l)) (seq 0 l)) + v) = Some x.
Proof.
  intros L H. rewrite <- length_flat_map. replace n with (l + S (n - S l)) by lia. rewrite seq_app, flat_map_app, nth_error_app2 by lia.
  rewrite Nat.add_sub_swap, Nat.sub_diag by lia. cbn [plus]. cbn [seq flat_map plus]. rewrite nth_error_app1; [exact H|]. apply nth_error_Some. congruence.
Qed.

Section Main.
  Variable P X : Type.
  Variable pp : list P -> list P -> res (option (P * P)).
  Variable pos : P -> P -> P -> X.
  Variable isect : X -> P -> P -> P -> P -> option P.
  Variable near : P -> P -> bool.
  Variable argsort : list P -> P -> list nat.
  Hypothesis near_refl : forall x, near x x = true.
  Hypothesis argsort_perm : forall xs x, Permutation (argsort xs x) (seq 0 (length xs)).
  Variable fs : list (list P).
  Variable data : nat -> nat -> option (P * P).
  Let N := length fs.
  Hypothesis Hdata : forall i j f g, i < j -> nth_error fs i = Some f -> nth_error fs j = Some g -> pp f g = Ok (data i j).
  Hypothesis Hcorners : forall i f, nth_error fs i = Some f -> f <> [] /\ (partners P data i N <> [] -> 4 <= length f).

  Let segs i := segments P data N i.
  Let test i := test_of P pos isect (nth i fs []).
  Definition net (i : nat) : network P :=
    match segs i with
    | [] => mk_network P [] []
    | _ => match intersect_1D_fractures P (test i) near argsort (map (fun e => [fst e; snd e]) (segs i)) 1 with Ok n => n | Err _ => mk_network P [] [] end
    end.
  Lemma net_spec i : segs i <> [] -> intersect_1D_fractures P (test i) near argsort (map (fun e => [fst e; snd e]) (segs i)) 1 = Ok (net i).
  Proof.
    intros Ne. unfold net. destruct (C59_lemma P (test i) near argsort (segs i) 1 near_refl argsort_perm Ne) as (n & E & _). rewrite E. destruct (segs i); [contradiction|reflexivity].
  Qed.
  Definition dc (i : nat) : nat := list_sum (map (fun f => 2 * length f + 1) fs) + list_sum (map (fun l => length (n_cells P (net l))) (seq 0 i)).
  Definition dp (i : nat) : nat := length (concat fs) + list_sum (map (fun l => length (n_points P (net l))) (seq 0 i)).
  Definition line (i j : nat) : nat := dc i + (3 * length (partners P data i j) + 2).
  Definition immo (i k : nat) : list nat :=
    map (fun l => line l k) (filter (fun l => hit P data l k) (seq 0 i)) ++ (if k <? i then map (line k) (partners P data k N) else []).
  Definition net_cells (i : nat) : list scell := flat_map (fun l => map (shift_cell (dc l) (dp l)) (n_cells P (net l))) (seq 0 i).
  Definition state_at (i : nat) : state P := (base_cells P (immo i) 0 0 fs ++ net_cells i, concat fs ++ flat_map (fun l => n_points P (net l)) (seq 0 i)).
  Lemma length_state_c i : length (fst (state_at i)) = dc i.
  Proof.
    unfold state_at, net_cells, dc. cbn [fst]. rewrite app_length, length_base, length_flat_map. f_equal. f_equal. apply map_ext. intros l. apply map_length.
  Qed.
  Lemma length_state_p i : length (snd (state_at i)) = dp i.
  Proof. unfold state_at, dp. cbn [snd]. rewrite app_length, length_flat_map. reflexivity. Qed.
  Lemma hit_lt i j : hit P data i j = true -> i < j.
  Proof. unfold hit. intros H. apply andb_true_iff in H. apply Nat.ltb_lt. tauto. Qed.
  Lemma immo_before i k : i < N -> k < N -> imm_at P data i (immo i) (fun r => dc i + (3 * r + 2)) 0 k = immo i k.
  Proof.
    intros I K. unfold imm_at, partners. cbn [seq filter map]. rewrite app_nil_r, andb_false_r. destruct (Nat.eqb_spec k i) as [->|]; reflexivity.
  Qed.
  Lemma immo_after i k : i < N -> k < N -> imm_at P data i (immo i) (fun r => dc i + (3 * r + 2)) N k = immo (S i) k.
  Proof.
    intros I K. unfold imm_at. destruct (Nat.eqb_spec k i) as [->|Ki].
    - unfold immo. rewrite Nat.ltb_irrefl, app_nil_r. replace (i <? S i) with true by (symmetry; apply Nat.ltb_lt; lia).
      rewrite seq_S, filter_app. cbn [filter plus]. destruct (hit P data i i) eqn:H; [apply hit_lt in H; lia|]. rewrite app_nil_r. reflexivity.
    - replace (k <? N) with true by (symmetry; apply Nat.ltb_lt; exact K). rewrite andb_true_r. unfold immo. rewrite seq_S, filter_app, map_app. cbn [filter plus].
      replace (k <? S i) with (k <? i) by (destruct (Nat.ltb_spec k i), (Nat.ltb_spec k (S i)); lia || reflexivity).
      destruct (hit P data i k) eqn:H; cbn [map].
      + apply hit_lt in H. replace (k <? i) with false by (symmetry; apply Nat.ltb_ge; lia). rewrite !app_nil_r. reflexivity.
      + rewrite app_nil_r. reflexivity.
  Qed.
  Lemma segs_none i : segs i = [] <-> partners P data i N = [].
  Proof. pose proof (segments_length P fs data i) as L. fold N in L. fold (segs i) in L. split; intros E; rewrite E in L; [destruct (partners P data i N)|destruct (segs i)]; auto; discriminate. Qed.
  Lemma few_row i n : forall j, j + n = N -> length (filter (fun jo : nat * option (P * P) => match snd jo with Some _ => true | None => false end)
      (map (fun j => (j, if j <=? i then None else data i j)) (seq j n))) + length (partners P data i j) = length (partners P data i N).
  Proof.
    induction n as [|n IH]; intros j J; [replace j with N by lia; reflexivity|]. specialize (IH (S j) ltac:(lia)). rewrite partners_S, app_length in IH.
    cbn [seq map filter snd]. unfold hit in IH. destruct (Nat.leb_spec j i), (Nat.ltb_spec i j); try lia; [simpl in IH; lia|]. destruct (data i j); simpl in *; lia.
  Qed.

  Lemma step i : i < N -> treat_fracture P X pos isect near argsort (map (surface_at P fs) (seq 0 N)) (state_at i) (i, (nth i fs [], row P fs data i)) =
    if crossing P (test i) (segs i) then Ok (state_at (S i)) else Err IndexError.
  Proof.
    intros I. unfold treat_fracture. destruct (state_at i) as (cs, ps) eqn:Es. rewrite found_spec. fold N. fold (segs i).
    pose proof (length_state_c i) as Lc. pose proof (length_state_p i) as Lp. rewrite Es in Lc, Lp. cbn [fst snd] in Lc, Lp.
    destruct (nth_error fs i) as [f|] eqn:Ef; [|apply nth_error_None in Ef; unfold N in I; lia]. destruct (Hcorners i f Ef) as (Hf & H4).
    assert (En : nth i fs [] = f) by (apply nth_error_nth; exact Ef).
    assert (D : segs i = [] \/ segs i <> []) by (destruct (segs i); [left; reflexivity|right; discriminate]). destruct D as [Z|Z].
    - pose proof Z as Zs. rewrite Zs. cbn [crossing length Nat.leb orb]. f_equal. rewrite <- Es.
      unfold state_at, net_cells. rewrite !flat_map_S. assert (Zn : net i = mk_network P [] []) by (unfold net; rewrite Zs; reflexivity). rewrite Zn. cbn [n_cells n_points map].
      rewrite !app_nil_r. f_equal. f_equal. apply base_ext. intros k K. cbn [plus] in K. fold N in K. rewrite <- (immo_after i k) by lia. unfold imm_at.
      apply segs_none in Zs. rewrite Zs. cbn [map]. rewrite app_nil_r. destruct (Nat.eqb_spec k i) as [->|Ki]; [reflexivity|].
      destruct (hit P data i k) eqn:H; [|reflexivity]. exfalso. assert (G : In k (partners P data i N)) by (apply filter_In; split; [apply in_seq; lia|exact H]). rewrite Zs in G. destruct G.
    - pose proof Z as Ne.
      assert (L4 : 4 <= length f). { apply H4. intros E. apply segs_none in E. contradiction. }
      pose proof (net_spec i Ne) as En1. unfold test, test_of in En1. rewrite En in *.
      destruct f as [|p [|q [|u [|r f']]]]; try (simpl in L4; lia). cbn [nth_error] in En1.
      destruct (segs i) as [|e l] eqn:E; [contradiction|]. rewrite <- E in *. cbn [get_at nth_error bind].
      rewrite En1. cbn [bind]. rewrite combine_row. fold N.
      assert (T : test i = isect (pos p q r)) by (unfold test, test_of; rewrite En; reflexivity).
      fold (net_lines P (segs i) (net i)). rewrite <- T in En1.
      assert (Ecs : cs = base_cells P (immo i) 0 0 fs ++ net_cells i) by (unfold state_at in Es; congruence).
      assert (Eps : ps = concat fs ++ flat_map (fun l => n_points P (net l)) (seq 0 i)) by (unfold state_at in Es; congruence).
      destruct (crossing P (test i) (segs i)) eqn:C.
      + rewrite (lines_all P (test i) near argsort near_refl argsort_perm (segs i) 1 (net i) Ne En1 C).
        rewrite Lc, Lp. rewrite Ecs. rewrite <- app_assoc.
        rewrite (base_ext P (immo i) (imm_at P data i (immo i) (fun r => dc i + (3 * r + 2)) 0) fs 0 0) by (intros k K; symmetry; apply immo_before; unfold N in *; lia).
        change 0 with (rank P data i 0) at 4.
        rewrite (immerse_all P fs data i (immo i) (fun r => dc i + (3 * r + 2)) (net_cells i ++ map (shift_cell (dc i) (dp i)) (n_cells P (net i)))).
        * cbn [bind]. f_equal. unfold state_at, net_cells. rewrite !flat_map_S. f_equal.
          -- f_equal. apply base_ext. intros k K. apply immo_after; unfold N in *; lia.
          -- rewrite Eps, app_assoc. reflexivity.
        * exact I.
        * intros r' R. rewrite map_map. rewrite nth_error_map_seq; [f_equal; lia|]. unfold segs. pose proof (segments_length P fs data i) as SL. fold N in SL. rewrite SL. exact R.
        * reflexivity.
      + pose proof (lines_few P (test i) near argsort near_refl argsort_perm (segs i) 1 (net i) Ne En1 C) as Few.
        rewrite (immerse_few P fs); [reflexivity| | | | |].
        * rewrite map_length, seq_length. exact I.
        * intros v V. apply in_map_iff in V. destruct V as (k & <- & K). apply in_seq in K. rewrite Ecs, <- app_assoc. apply surface_lt. unfold N in K. lia.
        * intros j o J. apply in_map_iff in J. destruct J as (j' & Ej & J). injection Ej as -> _. apply in_seq in J. rewrite map_length, seq_length. lia.
        * rewrite map_length. pose proof (few_row i N 0 eq_refl) as FR. pose proof (segments_length P fs data i) as SL. fold N in SL. fold (segs i) in SL.
          assert (Z0 : length (partners P data i 0) = 0) by reflexivity. lia.
        * lia.
  Qed.
  Lemma fold_spec n : forall i, i + n = N ->
    foldM (treat_fracture P X pos isect near argsort (map (surface_at P fs) (seq 0 N))) (map (fun i => (i, (nth i fs [], row P fs data i))) (seq i n)) (state_at i) =
    if forallb (fun i => crossing P (test i) (segs i)) (seq i n) then Ok (state_at N) else Err IndexError.
  Proof.
    induction n as [|n IH]; intros i J; [replace i with N by lia; reflexivity|]. cbn [seq map foldM forallb]. rewrite step by lia.
    destruct (crossing P (test i) (segs i)); [|reflexivity]. cbn [bind andb]. apply IH. lia.
  Qed.
  Lemma intersect_spec : intersect_2D_fractures P X pp pos isect near argsort fs =
    if forallb (fun i => crossing P (test i) (segs i)) (seq 0 N) then Ok (state_at N) else Err IndexError.
  Proof.
    unfold intersect_2D_fractures. rewrite insert_fractures_spec.
    2:{ intros f F. apply In_nth_error in F. destruct F as (i & F). apply (Hcorners i f F). }
    cbn [bind fst snd]. rewrite surfaces_spec, (data_spec P pp fs data Hdata). cbn [bind]. fold N.
    assert (Ec : combine (seq 0 N) (combine fs (map (row P fs data) (seq 0 N))) = map (fun i => (i, (nth i fs [], row P fs data i))) (seq 0 N)).
    { pose proof (map_nth_seq fs []) as Em. fold N in Em. rewrite <- Em at 1. rewrite combine_map_map. rewrite <- (map_id (seq 0 N)) at 1. rewrite combine_map_map. reflexivity. }
    rewrite Ec.
    rewrite <- (fold_spec N 0 eq_refl). f_equal. unfold state_at, net_cells. cbn [seq flat_map]. rewrite !app_nil_r. f_equal.
  Qed.

  (** ** the assembled cells *)
  Lemma base_nth imm : forall gs s k j f u, nth_error gs j = Some f -> u < 2 * length f + 1 ->
    nth_error (base_cells P imm s k gs) (cell_start P gs j + u) = nth_error (fracture_cells (s + cell_start P gs j) (length f) (imm (k + j))) u.
  Proof.
    induction gs as [|f gs IH]; intros s k j g u J U; [destruct j; discriminate|]. cbn [base_cells]. destruct j as [|j].
    - injection J as ->. unfold cell_start. cbn [firstn map list_sum fold_right plus]. rewrite !Nat.add_0_r. rewrite nth_error_app1 by (rewrite length_fracture; exact U). reflexivity.
    - rewrite cell_start_S. rewrite nth_error_app2 by (rewrite length_fracture; lia). rewrite length_fracture.
      replace (2 * length f + 1 + cell_start P gs j + u - (2 * length f + 1)) with (cell_start P gs j + u) by lia.
      rewrite (IH _ _ j g u J U). f_equal. f_equal; [lia|f_equal; lia].
  Qed.
  Lemma base_surface imm rest k f : nth_error fs k = Some f -> surface P (base_cells P imm 0 0 fs ++ rest) (cell_start P fs k) f (imm k).
  Proof.
    intros K. assert (G : forall u c, u < 2 * length f + 1 -> nth_error (fracture_cells (cell_start P fs k) (length f) (imm k)) u = Some c -> nth_error (base_cells P imm 0 0 fs ++ rest) (cell_start P fs k + u) = Some c).
    { intros u c U H. assert (E : nth_error (base_cells P imm 0 0 fs) (cell_start P fs k + u) = Some c) by (rewrite (base_nth imm fs 0 0 k f u K U); exact H).
      rewrite nth_error_app1; [exact E|]. apply nth_error_Some. congruence. }
    assert (L1 : length (map corner_cell (seq (cell_start P fs k) (length f))) = length f) by (rewrite map_length, seq_length; reflexivity).
    assert (L2 : length (map (edge_cell (cell_start P fs k) (length f)) (seq 0 (length f))) = length f) by (rewrite map_length, seq_length; reflexivity).
    unfold fracture_cells in G. constructor.
    - intros t T. apply G; [lia|]. rewrite nth_error_app1 by (rewrite app_length; lia). rewrite nth_error_app1 by lia. rewrite nth_error_map, nth_error_seq by exact T. reflexivity.
    - intros t T. rewrite <- Nat.add_assoc. apply G; [lia|]. rewrite nth_error_app1 by (rewrite app_length; lia). rewrite nth_error_app2 by lia. rewrite L1.
      replace (length f + t - length f) with t by lia. rewrite nth_error_map_seq by exact T. unfold edge_cell. rewrite <- Nat.add_assoc. reflexivity.
    - apply G; [lia|]. rewrite nth_error_app2 by (rewrite app_length; lia). rewrite app_length, L1, L2. replace (2 * length f - (length f + length f)) with 0 by lia. reflexivity.
  Qed.
  Lemma points_nth : forall gs k f t x, nth_error gs k = Some f -> nth_error f t = Some x -> nth_error (@concat P gs) (point_start P gs k + t) = Some x.
  Proof.
    induction gs as [|f gs IH]; intros k g t x K T; [destruct k; discriminate|]. cbn [concat]. destruct k as [|k].
    - injection K as ->. unfold point_start. cbn [firstn map list_sum fold_right plus]. rewrite nth_error_app1; [exact T|]. apply nth_error_Some. congruence.
    - unfold point_start. cbn [firstn map list_sum fold_right]. rewrite nth_error_app2 by lia. rewrite <- (IH k g t x K T). f_equal. unfold point_start, list_sum. lia.
  Qed.
  Lemma net_ids i v c : nth_error (n_cells P (net i)) v = Some c -> gc_id c = v.
  Proof.
    intros H. assert (D : segs i = [] \/ segs i <> []) by (destruct (segs i); [left; reflexivity|right; discriminate]). destruct D as [Z|Z].
    - unfold net in H. rewrite Z in H. destruct v; discriminate.
    - pose proof Z as Ne. pose proof (net_spec i Ne) as E.
      destruct (C59_lemma P (test i) near argsort (segs i) 1 near_refl argsort_perm Ne) as (n & E' & (Ids & _) & _). rewrite E in E'. injection E' as <-. apply Ids. exact H.
  Qed.
  Lemma ids_of (cs : list scell) : map sc_id cs = seq 0 (length cs) -> forall v c, nth_error cs v = Some c -> sc_id c = v.
  Proof.
    intros E v c H. assert (V : v < length cs) by (apply nth_error_Some; congruence).
    assert (G : nth_error (map sc_id cs) v = Some (sc_id c)) by (rewrite nth_error_map, H; reflexivity). rewrite E, nth_error_seq in G by exact V. simpl in G. congruence.
  Qed.
  Lemma base_ids imm : forall gs s k, map sc_id (base_cells P imm s k gs) = seq s (list_sum (map (fun f => 2 * length f + 1) gs)).
  Proof.
    induction gs as [|f gs IH]; intros s k; [reflexivity|]. cbn [base_cells map]. rewrite map_app, IH. unfold list_sum at 2. cbn [fold_right]. fold (list_sum (map (fun f : list P => 2 * length f + 1) gs)).
    rewrite seq_app. f_equal. unfold fracture_cells. rewrite !map_app, !map_map. cbn [map surface_cell sc_id].
    replace (2 * length f + 1) with (length f + length f + 1) by lia. rewrite !seq_app. f_equal; [f_equal|].
    - rewrite <- (map_id (seq s (length f))) at 2. apply map_ext. reflexivity.
    - apply list_ext. intros i. rewrite !nth_error_map. destruct (Nat.lt_ge_cases i (length f)) as [I|I].
      + rewrite !nth_error_seq by exact I. reflexivity.
      + replace (nth_error (seq 0 (length f)) i) with (@None nat) by (symmetry; apply nth_error_None; rewrite seq_length; exact I). symmetry. apply nth_error_None. rewrite seq_length. exact I.
    - cbn [seq]. f_equal. lia.
  Qed.
  Lemma state_ids i : map sc_id (fst (state_at i)) = seq 0 (length (fst (state_at i))).
  Proof.
    unfold state_at. cbn [fst]. rewrite map_app, base_ids, app_length, seq_app, length_base. f_equal. cbn [plus].
    enough (G : forall i, map sc_id (net_cells i) = seq (list_sum (map (fun f => 2 * length f + 1) fs)) (length (net_cells i))) by apply G.
    induction i0 as [|l IH]; [reflexivity|]. unfold net_cells in *. rewrite flat_map_S, map_app, app_length, seq_app, IH. f_equal. rewrite map_map, map_length.
    rewrite length_flat_map. rewrite (map_ext (fun l0 => length (map (shift_cell (dc l0) (dp l0)) (n_cells P (net l0)))) (fun l0 => length (n_cells P (net l0)))) by (intros; apply map_length).
    fold (dc l). apply list_ext. intros v. rewrite nth_error_map. destruct (nth_error (n_cells P (net l)) v) as [c|] eqn:V.
    - rewrite nth_error_seq by (apply nth_error_Some; congruence). cbn [option_map shift_cell sc_id]. apply net_ids in V. f_equal. lia.
    - symmetry. apply nth_error_None. rewrite seq_length. apply nth_error_None in V. exact V.
  Qed.
  Lemma state_copied i : i < N -> copied P (net i) (fst (state_at N)) (snd (state_at N)) (dc i) (dp i).
  Proof.
    intros I. constructor.
    - intros v c V. exists (shift_cell (dc i) (dp i) c). split.
      + unfold state_at. cbn [fst]. unfold dc at 1. rewrite <- Nat.add_assoc, <- (length_base P (immo N) fs 0 0), nth_error_app2 by lia. rewrite Nat.add_sub_swap, Nat.sub_diag by lia. cbn [plus].
        unfold net_cells. rewrite (map_ext (fun l => length (n_cells P (net l))) (fun l => length (map (shift_cell (dc l) (dp l)) (n_cells P (net l))))) by (intros; rewrite map_length; reflexivity).
        apply (nth_flat_map (fun l => map (shift_cell (dc l) (dp l)) (n_cells P (net l)))); [exact I|]. rewrite nth_error_map, V. reflexivity.
      + unfold shift_cell. cbn. repeat split; [lia| | |].
        * destruct (gc_pid c); cbn; [f_equal; lia|reflexivity].
        * apply map_ext. intros; lia.
        * apply map_ext. intros; lia.
    - intros t x T. unfold state_at. cbn [snd]. unfold dp. rewrite <- Nat.add_assoc, nth_error_app2 by lia. rewrite Nat.add_sub_swap, Nat.sub_diag by lia. cbn [plus].
      apply (nth_flat_map (fun l => n_points P (net l))); assumption.
  Qed.
  Lemma segs_nth i j e : i < j -> j < N -> data i j = Some e -> nth_error (segs i) (length (partners P data i j)) = Some e.
  Proof.
    intros I J E. unfold segs, segments. replace N with (j + S (N - S j)) by lia. rewrite seq_app, flat_map_app. cbn [seq flat_map plus].
    assert (L : length (flat_map (fun j0 => if i <? j0 then match data i j0 with Some e0 => [e0] | None => [] end else []) (seq 0 j)) = length (partners P data i j)).
    { unfold partners. generalize (seq 0 j). induction l as [|j' l IH]; [reflexivity|]. cbn [flat_map filter]. rewrite app_length, IH. unfold hit. destruct (i <? j'); [|reflexivity]. destruct (data i j'); reflexivity. }
    rewrite nth_error_app2 by lia. rewrite L, Nat.sub_diag. apply Nat.ltb_lt in I. rewrite I, E. reflexivity.
  Qed.
  Lemma located_vertex i v x : i < N -> (forall c, nth_error (n_cells P (net i)) v = Some c -> gc_dim c = 0) -> located P (net i) v x ->
    vertex_of P (fst (state_at N)) (snd (state_at N)) (dc i + v) x.
  Proof.
    intros I D (c & t & C & T & Hx). destruct (state_copied i I) as [Co Po]. destruct (Co v c C) as (c' & C' & D' & _ & _ & P' & _).
    exists c', (dp i + t). split; [exact C'|]. split; [rewrite D'; auto|]. split; [rewrite P', T; reflexivity|]. auto.
  Qed.

  Lemma C95_lemma : (forall i f, nth_error fs i = Some f -> all_cross P (test_of P pos isect f) (segs i)) ->
    exists cs ps nets dc dp, intersect_2D_fractures P X pp pos isect near argsort fs = Ok (cs, ps) /\
      assembled P data N (fun f sg n => intersect_1D_fractures P (test_of P pos isect f) near argsort (map (fun e => [fst e; snd e]) sg) 1 = Ok n) fs cs ps nets dc dp.
  Proof.
    intros H. exists (fst (state_at N)), (snd (state_at N)), net, dc, dp. split.
    - rewrite intersect_spec. replace (forallb _ _) with true; [destruct (state_at N); reflexivity|]. symmetry. apply forallb_forall. intros i I. apply in_seq in I.
      apply crossing_spec. apply H. apply nth_error_nth'. unfold N in I. lia.
    - constructor.
      + unfold dc, dp. cbn [seq map list_sum fold_right]. rewrite !Nat.add_0_r. unfold cell_start, point_start. unfold N. rewrite firstn_all. split; [reflexivity|]. clear. induction fs as [|f l IH]; [reflexivity|]. cbn [concat map]. rewrite app_length, IH. reflexivity.
      + intros i I. unfold dc, dp. rewrite !sum_S. lia.
      + rewrite length_state_c, length_state_p. auto.
      + apply ids_of, state_ids.
      + intros i f I. assert (Hi : i < N) by (apply nth_error_Some; congruence). split; [apply state_copied; exact Hi|]. fold (segs i).
        destruct (Nat.eqb_spec (length (segs i)) 0) as [Z|Z].
        * apply length_zero_iff_nil in Z. unfold net. rewrite Z. auto.
        * assert (Ne : segs i <> []) by (intros E; apply Z; rewrite E; reflexivity). pose proof (net_spec i Ne) as E. unfold test in E. rewrite (nth_error_nth _ _ _ I) in E. exact E.
      + intros k f t x K T. unfold state_at. cbn [snd]. pose proof (points_nth fs k f t x K T) as E. rewrite nth_error_app1; [exact E|]. apply nth_error_Some. congruence.
      + intros k f K. assert (Hk : k < N) by (apply nth_error_Some; congruence). unfold state_at. cbn [fst].
        pose proof (base_surface (immo N) (net_cells N) k f K) as B. unfold immo in B at 2. replace (k <? N) with true in B by (symmetry; apply Nat.ltb_lt; exact Hk).
        replace (filter (fun l => hit P data l k) (seq 0 N)) with (filter (fun i => hit P data i k) (seq 0 k)) in B.
        * rewrite (map_ext (fun i => dc i + 3 * length (partners P data i k) + 2) (fun l => line l k)) by (intros; unfold line; lia).
          rewrite (map_ext (fun j => dc k + 3 * length (partners P data k j) + 2) (line k)) by (intros; unfold line; lia). exact B.
        * replace N with (k + (N - k)) by lia. rewrite seq_app, filter_app. cbn [plus]. replace (filter (fun i => hit P data i k) (seq k (N - k))) with (@nil nat); [rewrite app_nil_r; reflexivity|].
          symmetry. assert (G : forall l, (forall x, In x l -> k <= x) -> filter (fun i => hit P data i k) l = []).
          { clear. induction l as [|x l IH]; intros L; [reflexivity|]. cbn [filter]. pose proof (L x (or_introl eq_refl)) as Lx. destruct (hit P data x k) eqn:E.
            - unfold hit in E. apply andb_true_iff in E. destruct E as (E & _). apply Nat.ltb_lt in E. lia.
            - apply IH. intros y Y. apply L. right. exact Y. }
          apply G. intros x Hx. apply in_seq in Hx. lia.
      + intros i j x y I J E v. assert (Hi : i < N) by lia. pose proof (segs_nth i j (x, y) I J E) as Sn. set (r := length (partners P data i j)) in *.
        assert (R : r < length (segs i)) by (apply nth_error_Some; congruence).
        assert (Ne : segs i <> []) by (intros Z; rewrite Z in R; simpl in R; lia).
        destruct (C59_lemma P (test i) near argsort (segs i) 1 near_refl argsort_perm Ne) as (n & E' & (_ & C & _) & F). rewrite (net_spec i Ne) in E'. injection E' as <-.
        destruct (F r R) as (imm & chain & S & _). destruct (state_copied i Hi) as [Co _].
        destruct (Co _ _ (fs_line _ _ _ _ _ _ _ _ _ S)) as (c' & C' & D1 & D2 & D3 & D4 & D5 & D6). cbn [gc_dim gc_id gc_tag gc_pid gc_bc gc_imm option_map map] in *.
        destruct (fs_first _ _ _ _ _ _ _ _ _ S x y Sn) as (Lx & Ly).
        assert (VV : is_vertex (n_cells P (net i)) (3 * r) /\ is_vertex (n_cells P (net i)) (3 * r + 1)).
        { destruct (C _ _ (fs_line _ _ _ _ _ _ _ _ _ S)) as [(t & tag & Q & _)|[(k & im & _ & Q & V1 & V2 & _)|(k & u & w & _ & V1 & V2 & Q & _)]]; [discriminate| |].
          - injection Q as Q1 _ _ _ _. assert (k = r) by lia. subst k. auto.
          - injection Q as _ Q2 Q3 _. subst u w. auto. }
        destruct VV as ((c1 & V1 & V1') & (c2 & V2 & V2')).
        split; [|split].
        * exists (map (Nat.add (dc i)) imm). unfold v. replace (dc i + 3 * r + 2) with (dc i + (3 * r + 2)) by lia. rewrite C'. f_equal. destruct c' as [d1 d2 d3 d4 d5 d6]. cbn [sc_dim sc_id sc_tag sc_pid sc_bc sc_imm] in *.
          subst. f_equal. f_equal. f_equal. lia.
        * unfold v. apply located_vertex; [exact Hi| |exact Lx]. intros c Hc. congruence.
        * unfold v. replace (dc i + 3 * r + 1) with (dc i + (3 * r + 1)) by lia. apply located_vertex; [exact Hi| |exact Ly]. intros c Hc. congruence.
  Qed.
  Lemma C95_fails_lemma : (exists i f, nth_error fs i = Some f /\ ~ all_cross P (test_of P pos isect f) (segs i)) ->
    intersect_2D_fractures P X pp pos isect near argsort fs = Err IndexError.
  Proof.
    intros (i & f & I & H). rewrite intersect_spec. destruct (forallb _ _) eqn:E; [|reflexivity]. exfalso. apply H.
    assert (Hi : i < N) by (apply nth_error_Some; congruence). rewrite forallb_forall in E. specialize (E i ltac:(apply in_seq; lia)).
    apply crossing_spec in E. unfold test in E. rewrite (nth_error_nth _ _ _ I) in E. exact E.
  Qed.
End Main.
