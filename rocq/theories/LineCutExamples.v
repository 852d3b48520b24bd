(** * A small mesh for the examples of cutting along lines *)
From Coq Require Import List Arith ZArith Bool Lia.
From Verif Require Import Base BaseProof MeshModel MeshSpec GraphModel CutModel CutSpec CutExamples LineCutModel LineCutSpec.
Import ListNotations.

(** decidable versions of the conditions *)
Definition all_cells_b (cs : cells) (q : nat -> cell -> bool) : bool :=
  forallb (fun i => match nth_error cs i with Some (Some c) => q i c | _ => true end) (seq 0 (length cs)).
Lemma all_cells_b_ok cs q : all_cells_b cs q = true -> forall i c, cell_at cs i c -> q i c = true.
Proof.
  unfold all_cells_b. rewrite forallb_forall. intros H i c Hc. specialize (H i). rewrite Hc in H. apply H.
  apply in_seq. assert (i < length cs) by (apply nth_error_Some; unfold cell_at in Hc; congruence). lia.
Qed.
Fixpoint nodes_b (cs : cells) (vs ts : list nat) : bool :=
  match vs, ts with
  | [], [] => true
  | v :: vs, t :: ts => match nth_error cs v with Some (Some c) => eqb (c_nodes c) [t] && nodes_b cs vs ts | _ => false end
  | _, _ => false
  end.
Lemma nodes_b_ok cs vs : forall ts, nodes_b cs vs ts = true -> Forall2 (fun v t => exists c', cell_at cs v c' /\ c_nodes c' = [t]) vs ts.
Proof.
  induction vs as [|v vs IH]; intros [|t ts] H; try discriminate; constructor.
  - cbn in H. destruct (nth_error cs v) as [[c|]|] eqn:E; try discriminate. apply andb_prop in H as [H _]. rewrite eqb_true in H. exists c. auto.
  - apply IH. cbn in H. destruct (nth_error cs v) as [[c|]|] eqn:E; try discriminate. apply andb_prop in H as [_ H]. auto.
Qed.
Fixpoint nodup_b (l : list nat) : bool := match l with [] => true | x :: l' => negb (existsb (Nat.eqb x) l') && nodup_b l' end.
Lemma nodup_b_ok l : nodup_b l = true -> NoDup l.
Proof.
  induction l as [|x l IH]; intros H; constructor; apply andb_prop in H as [H1 H2]; auto.
  intros I. apply negb_true_iff in H1. assert (X : existsb (Nat.eqb x) l = true) by (apply existsb_exists; exists x; split; [auto|apply Nat.eqb_refl]). congruence.
Qed.
Definition line_ready_b (t : tags) (m : mesh Z) : bool :=
  let cs := m_cells Z m in
  layered_b cs &&
  all_cells_b cs (fun i c => negb (c_dim c =? 0) || (length (c_nodes c) =? 1)) &&
  all_cells_b cs (fun i c => all_cells_b cs (fun j c' =>
     negb (c_dim c =? 0) || negb (c_dim c' =? 0) || negb (eqb (c_nodes c) (c_nodes c')) || (i =? j))) &&
  all_cells_b cs (fun i c => negb ((c_dim c =? 1) || (c_dim c =? 2)) || nodes_b cs (nth 0 (c_sub c) []) (c_nodes c)) &&
  all_cells_b cs (fun i c => forallb (fun x => x <? length (m_points Z m)) (c_nodes c)) &&
  all_cells_b cs (fun i c => forallb (fun d => nodup_b (nth d (c_sub c) [])) (seq 0 (c_dim c))) &&
  all_cells_b cs (fun i c => negb (eqb (c_mat c) (Some (t_line t))) || (c_dim c =? 1)).
Lemma line_ready_b_ok t m : line_ready_b t m = true -> line_ready Z t m.
Proof.
  unfold line_ready_b. cbv zeta. intros H. repeat (apply andb_prop in H as [H ?]).
  split; [split; [apply layered_b_ok; auto|split; [split; [|split]|]]|split].
  - intros i c Hc D. pose proof (all_cells_b_ok _ _ H5 i c Hc) as Q. cbv beta in Q. rewrite D in Q. cbn [Nat.eqb negb orb] in Q. apply Nat.eqb_eq in Q.
    destruct (c_nodes c) as [|x [|? ?]]; try discriminate. eauto.
  - intros i c j c' Hc Hc' D D' E. pose proof (all_cells_b_ok _ _ H4 i c Hc) as Q. cbv beta in Q. pose proof (all_cells_b_ok _ _ Q j c' Hc') as Q'. cbv beta in Q'.
    rewrite D, D', E, eqb_refl in Q'. cbn in Q'. apply Nat.eqb_eq in Q'. auto.
  - intros i c Hc D. pose proof (all_cells_b_ok _ _ H3 i c Hc) as Q. cbv beta in Q. apply nodes_b_ok. destruct D as [D|D]; rewrite D in Q; exact Q.
  - intros i c t0 Hc Ht. pose proof (all_cells_b_ok _ _ H2 i c Hc) as Q. cbv beta in Q. rewrite forallb_forall in Q. apply Nat.ltb_lt. auto.
  - intros i c d Hc Hd. pose proof (all_cells_b_ok _ _ H1 i c Hc) as Q. cbv beta in Q. rewrite forallb_forall in Q. apply nodup_b_ok. apply Q. apply in_seq. lia.
  - intros i c Hc Hm. pose proof (all_cells_b_ok _ _ H0 i c Hc) as Q. cbv beta in Q. rewrite Hm, eqb_refl in Q. cbn in Q. apply Nat.eqb_eq. auto.
Qed.

(** Two patches, each of two triangles.  First patch: vertices 0-3, edges 4-8, triangles 9-10;
    edge 4 is on the line (tag 7), vertex 1 is a tip (tag 9), vertex 0 is tagged as a point of
    the line (tag 5).  The second patch is the same with all numbers shifted.  One coordinate
    is enough to tell the sides. *)
Definition ex_tags : tags := mk_tags 7 70 5 50 9.
Definition ex_patch : list cell :=
  [ mk_cell 0 0 [0] (Some 5%Z) [[0]]; mk_cell 0 1 [1] (Some 9%Z) [[1]]; mk_cell 0 2 [2] None [[2]]; mk_cell 0 3 [3] None [[3]];
    mk_cell 1 4 [0; 1] (Some 7%Z) [[0; 1]; [4]]; mk_cell 1 5 [0; 2] None [[0; 2]; [5]]; mk_cell 1 6 [1; 2] None [[1; 2]; [6]];
    mk_cell 1 7 [0; 3] None [[0; 3]; [7]]; mk_cell 1 8 [1; 3] None [[1; 3]; [8]];
    mk_cell 2 9 [0; 1; 2] (Some 1%Z) [[0; 1; 2]; [4; 5; 6]; [9]]; mk_cell 2 10 [0; 1; 3] (Some 1%Z) [[0; 1; 3]; [4; 7; 8]; [10]] ].
Definition ex_shift (c : cell) : cell :=
  mk_cell (c_dim c) (c_id c + 11) (map (fun t => t + 4) (c_nodes c)) (c_mat c) (map (map (fun i => i + 11)) (c_sub c)).
Definition ex_line_cells : cells := map Some (ex_patch ++ map ex_shift ex_patch).
Definition ex_line_mesh : mesh Z := mk_mesh Z ex_line_cells [0; 0; 1; -1; 20; 20; 21; 19]%Z.
(** the line through coordinate [x], by the mean of the points *)
Definition ex_line (x : Z) : line Z :=
  mk_line Z (fun pts => (fold_right Z.add 0 pts =? x * Z.of_nat (length pts))%Z)
    (fun pts => (fold_right Z.add 0 pts ?= x * Z.of_nat (length pts))%Z)
    (fun q p => if q then (p + 5)%Z else (p - 5)%Z).
Lemma ex_line_ready : line_ready Z ex_tags ex_line_mesh.
Proof. apply line_ready_b_ok. vm_compute. reflexivity. Qed.

(** The same mesh, but triangle 9 lists another node than that of its vertex 0 *)
Definition ex_off_cells : cells := set_at ex_line_cells 9 (Some (mk_cell 2 9 [3; 1; 2] (Some 1%Z) [[0; 1; 2]; [4; 5; 6]; [9]])).
Definition ex_off_mesh : mesh Z := mk_mesh Z ex_off_cells [0; 0; 1; 0; 20; 20; 21; 19]%Z.
Definition ex_off_line : line Z := mk_line Z (l_on Z (ex_line 0)) (fun pts => match pts with [_; _; _] => Gt | _ => Eq end) (fun q p => p).
Lemma ex_off_layered : layered_mesh ex_off_cells.
Proof. apply layered_b_ok. vm_compute. reflexivity. Qed.
