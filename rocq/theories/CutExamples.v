(** * A small mesh for the examples of the cut: two triangles sharing an interface edge *)
From Coq Require Import List Arith ZArith Bool Lia.
From Verif Require Import Base MeshModel MeshSpec GraphModel CutModel CutSpec.
Import ListNotations.

(** vertices 0-3, edges 4-8, triangles 9-10; edge 4 carries tag 7, so does vertex 1 (a tip) *)
Definition ex_cut_cells : cells := map Some
  [ mk_cell 0 0 [0] None [[0]]; mk_cell 0 1 [1] (Some 7%Z) [[1]]; mk_cell 0 2 [2] None [[2]]; mk_cell 0 3 [3] (Some 5%Z) [[3]];
    mk_cell 1 4 [0; 1] (Some 7%Z) [[0; 1]; [4]]; mk_cell 1 5 [0; 2] None [[0; 2]; [5]]; mk_cell 1 6 [1; 2] None [[1; 2]; [6]];
    mk_cell 1 7 [0; 3] None [[0; 3]; [7]]; mk_cell 1 8 [1; 3] None [[1; 3]; [8]];
    mk_cell 2 9 [0; 1; 2] (Some 1%Z) [[0; 1; 2]; [4; 5; 6]; [9]]; mk_cell 2 10 [0; 1; 3] (Some 1%Z) [[0; 1; 3]; [4; 7; 8]; [10]] ].
(** one-dimensional coordinates are enough to tell the sides *)
Definition ex_cut_mesh : mesh Z := mk_mesh Z ex_cut_cells [0%Z; 0%Z; 1%Z; (-1)%Z].
Definition ex_side (pts : list Z) : bool := (0 <? fold_right Z.add 0 pts)%Z.
Definition ex_interface : interface Z := mk_interface Z 7 ex_side.

(** decidable versions of the conditions, for the example *)
Definition layered_b (cs : cells) : bool :=
  forallb (fun oi => match fst oi with
    | None => false
    | Some c => (c_id c =? snd oi) && (c_dim c <=? 3) && (length (c_sub c) =? c_dim c + 1) &&
        forallb (fun d => forallb (fun j => match nth_error cs j with Some (Some c') => c_dim c' =? d | _ => false end)
                            (nth d (c_sub c) [])) (seq 0 (c_dim c))
    end) (combine cs (seq 0 (length cs))).
Lemma layered_b_ok cs : layered_b cs = true -> layered_mesh cs.
Proof.
  unfold layered_b. intros H. rewrite forallb_forall in H.
  assert (G : forall i o, nth_error cs i = Some o -> In (o, i) (combine cs (seq 0 (length cs)))).
  { intros i o Hi. apply nth_error_In with (n := i). assert (i < length cs) by (apply nth_error_Some; congruence).
    clear H. assert (X : forall k, nth_error (combine cs (seq k (length cs))) i = Some (o, k + i)).
    { revert i Hi H0. induction cs as [|a cs IH]; intros [|i] Hi L k; simpl in *; try discriminate; try lia.
      - inversion Hi. f_equal. f_equal. lia.
      - rewrite IH; auto; [f_equal; f_equal; lia|lia]. }
    apply (X 0). }
  split.
  - intros i Hi. destruct (nth_error cs i) as [o|] eqn:E; [|apply nth_error_None in E; lia].
    specialize (H _ (G i o E)). cbn [fst] in H. destruct o as [c|]; [|discriminate]. exists c. exact E.
  - intros i c Hc. specialize (H _ (G i _ Hc)). cbn [fst snd] in H.
    apply andb_prop in H as [H H4]. apply andb_prop in H as [H H3]. apply andb_prop in H as [H1 H2].
    apply Nat.eqb_eq in H1, H3. apply Nat.leb_le in H2. repeat (split; auto).
    intros d j Hd Hj. rewrite forallb_forall in H4. specialize (H4 d). rewrite in_seq in H4. specialize (H4 ltac:(lia)).
    rewrite forallb_forall in H4. specialize (H4 j Hj). unfold cell_at. destruct (nth_error cs j) as [[c'|]|]; try discriminate.
    exists c'. apply Nat.eqb_eq in H4. auto.
Qed.
Lemma ex_cut_cases (Q : nat -> cell -> Prop) :
  Forall (fun p => match fst p with Some c => Q (snd p) c | None => True end) (combine ex_cut_cells (seq 0 11)) ->
  forall i c, cell_at ex_cut_cells i c -> Q i c.
Proof.
  intros H i c Hc. unfold cell_at in Hc. do 11 (destruct i as [|i]; [inversion Hc; subst c; clear Hc;
    repeat (apply Forall_cons_iff in H as [? H]; try assumption) |]). destruct i; discriminate.
Qed.
Lemma ex_cut_ready : cut_ready Z ex_cut_mesh.
Proof.
  split; [apply layered_b_ok; reflexivity|]. split; [split; [|split]|].
  - apply (ex_cut_cases (fun i c => c_dim c = 0 -> exists t, c_nodes c = [t])).
    repeat constructor; simpl; try discriminate; eauto.
  - intros i c j c' Hi Hj. revert i c Hi j c' Hj.
    apply (ex_cut_cases (fun i c => forall j c', cell_at ex_cut_cells j c' -> c_dim c = 0 -> c_dim c' = 0 -> c_nodes c = c_nodes c' -> i = j)).
    repeat constructor; simpl; try discriminate;
    match goal with |- forall j c', _ -> ?d = 0 -> _ -> ?n = _ -> ?i = _ =>
      apply (ex_cut_cases (fun j c' => d = 0 -> c_dim c' = 0 -> n = c_nodes c' -> i = j)) end;
    repeat constructor; simpl; intros; try discriminate; auto.
  - apply (ex_cut_cases (fun i c => c_dim c = 1 \/ c_dim c = 2 -> Forall2 (fun v t => exists c', cell_at ex_cut_cells v c' /\ c_nodes c' = [t]) (nth 0 (c_sub c) []) (c_nodes c))).
    repeat constructor; simpl; intros; try lia; eexists; (split; [reflexivity|reflexivity]).
  - intros i c t Hi Ht. revert i c Hi t Ht.
    apply (ex_cut_cases (fun i c => forall t, In t (c_nodes c) -> t < 4)).
    unfold ex_cut_cells; cbn [map combine seq]. repeat (apply Forall_cons; [simpl; intros; lia|]); apply Forall_nil.
Qed.
Lemma ex_cuttable : cuttable Z ex_cut_mesh 7.
Proof.
  split.
  - intros e (c & Hc & Hd & Hm). exists 9. eexists. split; [reflexivity|]. split; [reflexivity|]. revert e c Hc Hd Hm.
    apply (ex_cut_cases (fun e c => c_dim c = 1 -> c_mat c = Some 7%Z -> In e [4; 5; 6])).
    unfold ex_cut_cells; cbn [map combine seq].
    repeat (apply Forall_cons; [cbn [fst snd c_dim c_mat c_sub nth]; intros; first [discriminate | simpl; tauto]|]); apply Forall_nil.
  - intros v (e & c & cv & (c' & Hc' & Hd & Hm) & Hc & Hv & _). assert (c' = c) by (unfold cell_at in *; congruence). subst c'.
    exists 9. eexists. split; [reflexivity|]. split; [reflexivity|]. simpl (nth 0 _ []). clear Hc'. revert e c Hc Hd Hm v Hv.
    apply (ex_cut_cases (fun e c => c_dim c = 1 -> c_mat c = Some 7%Z -> forall v, In v (nth 0 (c_sub c) []) -> In v [0; 1; 2])).
    unfold ex_cut_cells; cbn [map combine seq].
    repeat (apply Forall_cons; [cbn [fst snd c_dim c_mat c_sub nth]; intros; first [discriminate | simpl in *; tauto]|]); apply Forall_nil.
Qed.
