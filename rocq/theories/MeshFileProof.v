(** * Export of meshes: proofs *)
From Coq Require Import String List Arith ZArith Bool Lia Sorted Permutation.
From Verif Require Import Base BaseProof MeshModel MeshSpec MeshProof4 GraphModel GraphProof CutModel ColorModel ColorProof MeshFileModel MeshFileSpec.
Import ListNotations.
Open Scope list_scope.
Open Scope nat_scope.

Lemma slots : forall cs l, map Some l = cs -> forall i (c : cell), cell_at cs i c <-> nth_error l i = Some c.
Proof.
  intros cs l <- i c. unfold cell_at. rewrite nth_error_map. destruct (nth_error l i) as [x|]; simpl; split; intros H; try discriminate; congruence.
Qed.
Lemma ordered : forall cs l, map Some l = cs -> id_is_index cs -> forall q, StronglySorted lt (map c_id (filter q l)).
Proof.
  intros cs l E ID q.
  assert (G : forall r k, (forall i c, nth_error r i = Some c -> c_id c = k + i) ->
    StronglySorted lt (map c_id (filter q r)) /\ Forall (fun x => k <= x) (map c_id (filter q r))).
  { induction r as [|x r IH]; intros k H; [split; constructor|].
    destruct (IH (S k)) as (I1 & I2); [intros i c Hi; rewrite (H (S i) c Hi); lia|].
    assert (EX : c_id x = k) by (rewrite (H 0 x eq_refl); lia).
    assert (I3 : Forall (fun y => k <= y) (map c_id (filter q r))) by (eapply Forall_impl; [|exact I2]; simpl; intros; lia).
    cbn [filter]. destruct (q x); cbn [map]; [|split; assumption].
    rewrite EX. split; [constructor; [exact I1|]|constructor; [lia|exact I3]]. eapply Forall_impl; [|exact I2]. simpl; intros; lia. }
  apply (G l 0). intros i c Hi. apply (ID i c). apply (slots cs l E). exact Hi.
Qed.
Lemma filtered : forall cs l, map Some l = cs -> id_is_index cs -> forall (q : cell -> bool) (Q : cell -> Prop), (forall c, q c = true <-> Q c) ->
  lists cs Q (filter q l).
Proof.
  intros cs l E ID q Q HQ. split; [exact (ordered cs l E ID q)|]. intros c. rewrite filter_In, HQ. split; intros (H & K); (split; [|exact K]).
  - apply In_nth_error in H as (i & Hi). exists i. apply (slots cs l E). exact Hi.
  - destruct H as (i & Hi). apply (slots cs l E) in Hi. exact (nth_error_In _ _ Hi).
Qed.
Lemma selected_iff : forall d c, ((c_dim c =? d) && has_tag c)%bool = true <-> tagged_of d c.
Proof.
  intros d c. unfold tagged_of, has_tag. rewrite andb_true_iff, Nat.eqb_eq. split; intros (H1 & H2); (split; [exact H1|]); destruct (c_mat c); congruence.
Qed.
Lemma closed_ids : forall cs, closed_mesh cs -> id_is_index cs.
Proof. intros cs (_ & H) i c Hc. exact (proj1 (H i c Hc)). Qed.
Lemma lists_unique : forall cs Q l l', lists cs Q l -> lists cs Q l' -> l = l'.
Proof.
  intros cs Q l l' (S1 & M1) (S2 & M2).
  assert (G : forall l l', StronglySorted lt (map c_id l) -> StronglySorted lt (map c_id l') -> (forall c, In c l <-> In c l') -> l = l').
  { clear. induction l as [|x l IH]; intros [|y l'] S1 S2 M; [reflexivity|destruct (proj2 (M y)); left; reflexivity|destruct (proj1 (M x)); left; reflexivity|].
    inversion S1 as [|? ? S1a S1b]; inversion S2 as [|? ? S2a S2b]; subst. rewrite Forall_forall in S1b, S2b.
    assert (E : x = y).
    { destruct (proj1 (M x) (or_introl eq_refl)) as [->|Hx]; [reflexivity|]. destruct (proj2 (M y) (or_introl eq_refl)) as [->|Hy]; [reflexivity|].
      pose proof (S1b _ (in_map c_id _ _ Hy)). pose proof (S2b _ (in_map c_id _ _ Hx)). lia. }
    subst y. f_equal. apply IH; [assumption|assumption|]. intros c. split; intros H.
    - destruct (proj1 (M c) (or_intror H)) as [<-|K]; [|exact K]. pose proof (S1b _ (in_map c_id _ _ H)). lia.
    - destruct (proj2 (M c) (or_intror H)) as [<-|K]; [|exact K]. pose proof (S2b _ (in_map c_id _ _ H)). lia. }
  apply G; [exact S1|exact S2|]. intros c. rewrite M1, M2. reflexivity.
Qed.

Section Files.
  Context (coloring : nat -> nat -> nat -> res (dict nat nat)).

  Definition file_of (prefix : string) (l : list cell) (d : nat) : list mesh_file :=
    if length (selected d l) =? 0 then [] else
      [mk_mfile (String.append prefix (ending d)) (type_name d) (map c_nodes (selected d l)) (physical_tags d l) (map c_id (selected d l)) []].
  Lemma plain : forall prefix l d, write_dimension coloring prefix false l d = Ok (file_of prefix l d).
  Proof. intros. unfold write_dimension, file_of. destruct (length (selected d l) =? 0); reflexivity. Qed.
  Lemma plain_all : forall cs l file_name, all_cells cs = Ok l ->
    write_vtk coloring cs file_name false = Ok (file_of (prefix_of file_name) l 3 ++ file_of (prefix_of file_name) l 2 ++
      file_of (prefix_of file_name) l 1 ++ file_of (prefix_of file_name) l 0).
  Proof. intros cs l fn E. unfold write_vtk. rewrite E. cbn [bind mapM]. rewrite !plain. cbn [bind concat]. rewrite app_nil_r. reflexivity. Qed.

  (** The file of a dimension *)
  Lemma file_shows : forall cs l, map Some l = cs -> id_is_index cs -> forall prefix d,
    match file_of prefix l d with
    | [] => forall i c, cell_at cs i c -> ~ tagged_of d c
    | [f] => shows cs d f /\ mf_name f = String.append prefix (ending d) /\ mf_type f = type_name d /\ mf_colors f = [] /\
             (d <> 3 -> aligned cs d f) /\ (d = 3 -> exists r, lists cs (fun c => c_dim c = 3) r /\ mf_physical f = map c_mat r)
    | _ => False
    end.
  Proof.
    intros cs l E ID prefix d. pose proof (filtered cs l E ID _ (tagged_of d) (selected_iff d)) as FL. fold (selected d l) in FL.
    unfold file_of. destruct (length (selected d l) =? 0) eqn:EL.
    - apply Nat.eqb_eq in EL. apply length_zero_iff_nil in EL. intros i c Hc K. destruct FL as (_ & M). rewrite EL in M.
      apply (proj2 (M c)). split; [exists i; exact Hc|exact K].
    - split; [|split; [reflexivity|split; [reflexivity|split; [reflexivity|split]]]].
      + exists (selected d l). split; [exact FL|]. split; [intros Z; rewrite Z in EL; discriminate|]. split; reflexivity.
      + intros D. exists (selected d l). split; [exact FL|]. split; [reflexivity|]. split; [reflexivity|]. cbn [mf_physical]. unfold physical_tags.
        rewrite (proj2 (Nat.eqb_neq d 3) D). reflexivity.
      + intros ->. eexists. split; [|reflexivity]. apply (filtered cs l E ID). intros c. apply Nat.eqb_eq.
  Qed.
End Files.

Lemma write_ok : forall coloring cs file_name, closed_mesh cs ->
  exists fs, write_vtk coloring cs file_name false = Ok fs /\ per_dimension cs (prefix_of file_name) fs.
Proof.
  intros coloring cs fn CM. destruct (all_cells_closed cs CM) as (l & EL & E). eexists. split; [exact (plain_all coloring cs l fn EL)|].
  exists (file_of (prefix_of fn) l 3), (file_of (prefix_of fn) l 2), (file_of (prefix_of fn) l 1), (file_of (prefix_of fn) l 0). split; [reflexivity|].
  intros d fd I. assert (EF : fd = file_of (prefix_of fn) l d) by (simpl in I; intuition congruence).
  pose proof (file_shows cs l E (closed_ids cs CM) (prefix_of fn) d) as H. rewrite EF. clear EF.
  destruct (file_of (prefix_of fn) l d) as [|f [|]]; [split; [split; [intros _; exact H|reflexivity]|intros f []]| |destruct H].
  split; [split; [discriminate|]|].
  - intros N. exfalso. destruct (proj1 H) as (r & (_ & M) & NE & _). destruct r as [|c r]; [exact (NE eq_refl)|].
    destruct (proj1 (M c) (or_introl eq_refl)) as ((i & Hi) & K). exact (N i c Hi K).
  - intros g [<-|[]]. split; [reflexivity|]. destruct H as (H1 & H2 & H3 & H4 & H5 & H6). split; [exact H1|].
    split; [rewrite H2; simpl in I; destruct I as [I|[I|[I|[I|[]]]]]; injection I as <- _; reflexivity|].
    split; [rewrite H3; simpl in I; destruct I as [I|[I|[I|[I|[]]]]]; injection I as <- _; reflexivity|].
    split; [exact H4|]. split; [exact H5|exact H6].
Qed.
(** Three-dimensional cells *)
Lemma aligned_three : forall cs f, id_is_index cs -> shows cs 3 f -> (exists r, lists cs (fun c => c_dim c = 3) r /\ mf_physical f = map c_mat r) ->
  (aligned cs 3 f <-> forall i c, cell_at cs i c -> c_dim c = 3 -> c_mat c <> None).
Proof.
  intros cs f ID (l & L1 & L2 & L3 & L4) (r & R1 & R2). split.
  - intros (l' & A1 & A2 & A3 & A4) i c Hc D. rewrite R2 in A4. apply (f_equal (fun x => In (c_mat c) x)) in A4.
    assert (I : In (c_mat c) (map c_mat l')) by (rewrite <- A4; apply in_map; apply (proj2 R1); split; [exists i; exact Hc|exact D]).
    apply in_map_iff in I as (c' & E & K). apply (proj2 A1) in K as (_ & (_ & K)). rewrite <- E. exact K.
  - intros H. exists l. split; [exact L1|]. split; [exact L3|]. split; [exact L4|]. rewrite R2. f_equal. apply (lists_unique cs (tagged_of 3) r l); [|exact L1].
    split; [exact (proj1 R1)|]. intros c. rewrite (proj2 R1 c). split; intros ((i & Hi) & K); (split; [exists i; exact Hi|]); [split; [exact K|exact (H i c Hi K)]|exact (proj1 K)].
Qed.

Lemma in_combine_rows : forall (A B : Type) (l : list A) (p : list B) x, length l = length p -> In x l -> exists t, In (x, t) (combine l p).
Proof.
  induction l as [|y l IH]; intros [|u p] x E I; try discriminate; [destruct I|]. destruct I as [->|I]; [exists u; left; reflexivity|].
  destruct (IH p x) as (t & Ht); [simpl in E; lia|exact I|]. exists t. right. exact Ht.
Qed.
Lemma row_of_block : forall blocks physical b row, fully_tagged blocks physical -> In b blocks -> In row (b_rows b) ->
  exists t, In (block_dim b, row, t) (input_rows blocks physical) /\ exists p, In p physical /\ In t p.
Proof.
  intros blocks physical b row FT. induction FT as [|b' p bs ps E FT IH]; intros I R; [destruct I|]. unfold input_rows. cbn [combine flat_map].
  destruct I as [->|I].
  - destruct (in_combine_rows _ _ _ _ row E R) as (t & Ht). exists t. split.
    + apply in_or_app. left. apply in_map_iff. exists (row, t). split; [reflexivity|exact Ht].
    + exists p. split; [left; reflexivity|exact (in_combine_r _ _ _ _ Ht)].
  - destruct (IH I R) as (t & H1 & (p' & H2 & H3)). exists t. split; [apply in_or_app; right; exact H1|exists p'; split; [right; exact H2|exact H3]].
Qed.
Lemma built_tagged : forall np blocks physical cs, well_shaped blocks -> build_conformal_mesh np blocks physical = Ok cs -> fully_tagged blocks physical ->
  all_given physical -> forall i c, cell_at cs i c -> c_dim c = 3 -> c_mat c <> None.
Proof.
  intros np blocks physical cs WS B FT AG i c Hc D N. pose proof (C05_lemma np blocks physical cs WS B i c Hc) as LT. rewrite N in LT. cbn in LT.
  destruct (C01_lemma np blocks physical cs WS B) as (L1 & L2 & L3 & _ & _ & _ & O1 & O2 & O3 & LEN & H). destruct (H i c Hc) as (ID & H0 & H1 & H2 & H3).
  assert (C : np + length L1 + length L2 <= i).
  { destruct (le_lt_dec (np + length L1 + length L2) i) as [|Z]; [assumption|]. exfalso.
    destruct (le_lt_dec np i) as [Z1|Z1]; [|destruct (H0 Z1); lia].
    destruct (le_lt_dec (np + length L1) i) as [Z2|Z2]; [destruct (H2 (conj Z2 Z)); lia|destruct (H1 (conj Z1 Z2)); lia]. }
  destruct (H3 C) as (_ & key & K1 & K2). apply nth_error_In, O3 in K1 as (b & k & row & ix & B1 & B2 & B3 & B4 & B5 & B6).
  assert (K3 : k = 3) by (destruct k as [|[|[|[|k]]]]; cbn in B4; try (exfalso; exact B4); reflexivity).
  subst k. cbn in B4. destruct B4 as [<-|[]].
  destruct (row_of_block blocks physical b row FT B1 B3) as (t & T1 & (p & T2 & T3)).
  assert (BD : block_dim b = 3) by (unfold block_dim, simplex_dim in *; destruct (b_kind b); congruence).
  destruct t as [t|]; [|exact (AG p None T2 T3 eq_refl)].
  apply (LT _ t T1). rewrite D, BD. split; [reflexivity|]. split; [|reflexivity]. cbn.
  pose proof (proj1 WS b 3 row B1 B2 B3) as WL. destruct row as [|r0 [|r1 [|r2 [|r3 [|r4 row]]]]]; try discriminate WL.
  cbn in B6. rewrite <- K2. symmetry. exact B6.
Qed.

(** Colours *)
Lemma colored_never : forall equitable_color fuel cs mesh_dim file_name d i c, cell_at cs i c -> d <= 3 -> d <> 0 -> tagged_of d c ->
  forall fs, write_vtk (mesh_coloring equitable_color fuel cs mesh_dim) cs file_name true <> Ok fs.
Proof.
  intros eq fuel cs md fn d i c Hc D3 D0 T fs. unfold write_vtk. destruct (all_cells cs) as [l|e] eqn:EA; [|discriminate].
  assert (I : In c (selected d l)).
  { unfold selected. apply filter_In. split; [|apply selected_iff; exact T]. clear - EA Hc. revert l i EA Hc. unfold all_cells, cell_at.
    induction cs as [|s cs IH]; intros l i EA Hc; [destruct i; discriminate|]. cbn [mapM] in EA. destruct s as [x|]; [|discriminate]. cbn [bind] in EA.
    destruct (mapM _ cs) as [l'|] eqn:EM in EA; [|discriminate]. injection EA as <-. destruct i as [|i]; [injection Hc as ->; left; reflexivity|right; exact (IH _ i EM Hc)]. }
  assert (NV : forall n e co, mesh_coloring eq fuel cs md n e co <> Ok []  /\ forall m, mesh_coloring eq fuel cs md n e co <> Ok m).
  { intros n e co. split; [|intros m]; unfold mesh_coloring; destruct (coloring_mesh eq fuel n cs md e co) as [r|] eqn:EC; try discriminate;
      exfalso; exact (never_returns _ _ _ _ _ _ _ _ EC). }
  assert (W : forall fd, write_dimension (mesh_coloring eq fuel cs md) (prefix_of fn) true l d <> Ok fd).
  { intros fd. unfold write_dimension. destruct (selected d l) as [|x s]; [destruct I|]. cbn [length Nat.eqb]. unfold color_data.
    assert (CD : exists n co rest nm, colorings d = (nm, n, co) :: rest) by (destruct d as [|[|[|d]]]; [congruence| | |]; do 4 eexists; reflexivity).
    destruct CD as (n & co & rest & nm & ->). cbn [mapM fst snd]. destruct (mesh_coloring eq fuel cs md n d co) as [m|] eqn:EM; [|discriminate].
    exfalso. exact (proj2 (NV n d co) m EM). }
  cbn [bind]. cbn [mapM].
  assert (CASES : d = 3 \/ d = 2 \/ d = 1) by lia.
  destruct (write_dimension _ _ _ l 3) as [f3|] eqn:E3; [|discriminate]. cbn [bind].
  destruct (write_dimension _ _ _ l 2) as [f2|] eqn:E2; [|discriminate]. cbn [bind].
  destruct (write_dimension _ _ _ l 1) as [f1|] eqn:E1; [|discriminate].
  destruct CASES as [->|[->| ->]]; exfalso; [exact (W _ E3)|exact (W _ E2)|exact (W _ E1)].
Qed.
Lemma colored_vertices : forall coloring cs file_name, closed_mesh cs -> (forall i c, cell_at cs i c -> c_mat c <> None -> c_dim c = 0) ->
  write_vtk coloring cs file_name true = write_vtk coloring cs file_name false.
Proof.
  intros coloring cs fn CM V. destruct (all_cells_closed cs CM) as (l & EL & E). unfold write_vtk. rewrite EL. cbn [bind mapM].
  assert (S : forall d, d <> 0 -> selected d l = []).
  { intros d D. destruct (selected d l) as [|c s] eqn:ES; [reflexivity|]. exfalso. assert (I : In c (selected d l)) by (rewrite ES; left; reflexivity).
    unfold selected in I. apply filter_In in I as (I & T). apply selected_iff in T as (T1 & T2). apply In_nth_error in I as (i & Hi).
    apply (slots cs l E) in Hi. rewrite (V i c Hi T2) in T1. congruence. }
  unfold write_dimension. rewrite !S by discriminate. cbn [length Nat.eqb bind]. destruct (length (selected 0 l) =? 0); reflexivity.
Qed.
Lemma empty_slot : forall coloring cs file_name q i, nth_error cs i = Some None -> write_vtk coloring cs file_name q = Err AttributeError.
Proof.
  intros coloring cs fn q i H. unfold write_vtk. replace (all_cells cs) with (@Err (list cell) AttributeError); [reflexivity|]. symmetry.
  revert i H. unfold all_cells. induction cs as [|s cs IH]; intros i H; [destruct i; discriminate|]. cbn [mapM]. destruct s as [x|]; [|reflexivity]. cbn [bind].
  destruct i as [|i]; [discriminate|]. rewrite (IH i H). reflexivity.
Qed.
Lemma built_ok : forall coloring np blocks physical cs file_name, well_shaped blocks -> build_conformal_mesh np blocks physical = Ok cs ->
  fully_tagged blocks physical -> all_points_used np blocks physical -> distinct_nodes blocks -> all_given physical ->
  exists fs, write_vtk coloring cs file_name false = Ok fs /\ per_dimension cs (prefix_of file_name) fs /\
    forall f, In f fs -> exists d, d <= 3 /\ aligned cs d f.
Proof.
  intros coloring np blocks physical cs fn WS B FT PU DN AG. pose proof (good_lemma np blocks physical cs WS B FT PU DN) as (CM & _).
  destruct (write_ok coloring cs fn CM) as (fs & W & PD). exists fs. split; [exact W|]. split; [exact PD|].
  destruct PD as (f3 & f2 & f1 & f0 & -> & H). intros f I.
  assert (J : exists d fd, In (d, fd) [(3, f3); (2, f2); (1, f1); (0, f0)] /\ In f fd).
  { rewrite !in_app_iff in I. destruct I as [I|[I|[I|I]]]; [exists 3, f3|exists 2, f2|exists 1, f1|exists 0, f0]; (split; [simpl; tauto|exact I]). }
  destruct J as (d & fd & J1 & J2). destruct (proj2 (H d fd J1) f J2) as (_ & S & _ & _ & _ & A & T). exists d.
  split; [simpl in J1; destruct J1 as [J1|[J1|[J1|[J1|[]]]]]; injection J1 as <- _; lia|].
  destruct (Nat.eq_dec d 3) as [->|D]; [|exact (A D)].
  apply (aligned_three cs f (closed_ids cs CM) S (T eq_refl)). exact (built_tagged np blocks physical cs WS B FT AG).
Qed.

