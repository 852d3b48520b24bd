(** * A triangle whose corner is the end of a fracture *)
From Coq Require Import List Arith ZArith Bool Lia.
From Verif Require Import Base BaseProof MeshModel MeshSpec GraphModel LoopModel LoopSpec CircProof.
Import ListNotations.

Definition point_cell (i : nat) (t : option Z) : cell := mk_cell 0 i [i] t [[i]].
Definition edge_cell (i a b : nat) (t : option Z) : cell := mk_cell 1 i [a; b] t [[a; b]; [i]].
Definition ring : cells := map Some [point_cell 0 (Some 7%Z); point_cell 1 None; point_cell 2 None; point_cell 3 None;
  edge_cell 4 0 1 (Some 1%Z); edge_cell 5 1 2 (Some 1%Z); edge_cell 6 2 0 (Some 2%Z); edge_cell 7 0 3 (Some 7%Z)].
Lemma ring_cell i c : cell_at ring i c -> In (i, c) [(0, point_cell 0 (Some 7%Z)); (1, point_cell 1 None); (2, point_cell 2 None); (3, point_cell 3 None);
  (4, edge_cell 4 0 1 (Some 1%Z)); (5, edge_cell 5 1 2 (Some 1%Z)); (6, edge_cell 6 2 0 (Some 2%Z)); (7, edge_cell 7 0 3 (Some 7%Z))].
Proof.
  unfold cell_at. intros H. do 8 (destruct i as [|i]; [cbn in H; injection H as <-; simpl; auto 15|]). cbn in H. destruct i; discriminate.
Qed.
Ltac cases H := apply ring_cell in H; simpl in H; repeat (destruct H as [H|H]; [injection H as <- <-|]); [..|contradiction].
Lemma ring_closed : closed_mesh ring.
Proof.
  split.
  - intros i L. cbn in L. do 8 (destruct i as [|i]; [eexists; reflexivity|]). lia.
  - intros i c C. cases C; cbn; (split; [reflexivity|]); (split; [lia|]); (split; [reflexivity|]); intros d j Hd Hj; (destruct d as [|[|d]]; [| |lia] || (destruct d as [|d]; [|lia])); cbn in Hj;
      repeat (destruct Hj as [<-|Hj]); try contradiction; eexists; split; reflexivity.
Qed.
Lemma ring_touches e v : touches ring e v <-> In (e, v) [(0, 0); (1, 1); (2, 2); (3, 3); (4, 0); (4, 1); (5, 1); (5, 2); (6, 2); (6, 0); (7, 0); (7, 3)].
Proof.
  split.
  - intros (c & C & I). cases C; cbn in I; repeat (destruct I as [<-|I]); try contradiction; simpl; auto 15.
  - intros I. simpl in I. repeat (destruct I as [I|I]; [injection I as <- <-; eexists; split; [reflexivity|simpl; auto]|]). contradiction.
Qed.
Lemma ring_skin e : skin_edge ring [7%Z] e <-> In e [4; 5; 6].
Proof.
  split.
  - intros (c & t & C & D & M & N). cases C; cbn in D, M; try discriminate; injection M as <-; simpl; auto. exfalso. apply N. simpl. auto.
  - intros I. simpl in I. repeat (destruct I as [<-|I]; [eexists; eexists; split; [reflexivity|]; split; [reflexivity|]; split; [reflexivity|]; simpl; lia|]). contradiction.
Qed.
Lemma two_of (Q : nat -> Prop) x y : x <> y -> (forall z, Q z <-> z = x \/ z = y) -> two Q x /\ two Q y.
Proof. intros N H. split; [exists y|exists x]; (split; [congruence|]); intros z; rewrite H; tauto. Qed.
Lemma ring_closed_skin : closed_skin ring [7%Z].
Proof.
  assert (E : forall e a b, In (e, a, b) [(4, 0, 1); (5, 1, 2); (6, 2, 0)] -> forall z, touches ring e z <-> z = a \/ z = b).
  { intros e a b H z. rewrite ring_touches. simpl in H. repeat (destruct H as [H|H]; [injection H as <- <- <-; simpl; split; [intros I; repeat (destruct I as [I|I]; [try discriminate; injection I as <-; auto|]); contradiction|intros [-> | ->]; auto 15]|]). contradiction. }
  assert (V : forall v a b, In (v, a, b) [(0, 4, 6); (1, 4, 5); (2, 5, 6)] -> forall z, (skin_edge ring [7%Z] z /\ touches ring z v) <-> z = a \/ z = b).
  { intros v a b H z. rewrite ring_touches, ring_skin. simpl in H. repeat (destruct H as [H|H]; [injection H as <- <- <-; split;
      [intros [S I]; simpl in S; repeat (destruct S as [<-|S]; [try (left; reflexivity); try (right; reflexivity); exfalso; simpl in I; repeat (destruct I as [I|I]; [discriminate|]); contradiction|]); contradiction|intros [-> | ->]; simpl; auto 20]|]). contradiction. }
  intros e v S T. rewrite ring_skin in S. simpl in S. destruct S as [<-|[<-|[<-|[]]]].
  - assert (Ev := proj1 (E 4 0 1 ltac:(simpl; auto) v) T). destruct (two_of _ 0 1 ltac:(lia) (E 4 0 1 ltac:(simpl; auto))) as [A B].
    destruct Ev as [-> | ->]; (split; [auto|]); [apply (two_of _ 4 6 ltac:(lia) (V 0 4 6 ltac:(simpl; auto)))|apply (two_of _ 4 5 ltac:(lia) (V 1 4 5 ltac:(simpl; auto)))].
  - assert (Ev := proj1 (E 5 1 2 ltac:(simpl; auto) v) T). destruct (two_of _ 1 2 ltac:(lia) (E 5 1 2 ltac:(simpl; auto))) as [A B].
    destruct Ev as [-> | ->]; (split; [auto|]); [apply (two_of _ 4 5 ltac:(lia) (V 1 4 5 ltac:(simpl; auto)))|apply (two_of _ 5 6 ltac:(lia) (V 2 5 6 ltac:(simpl; auto)))].
  - assert (Ev := proj1 (E 6 2 0 ltac:(simpl; auto) v) T). destruct (two_of _ 2 0 ltac:(lia) (E 6 2 0 ltac:(simpl; auto))) as [A B].
    destruct Ev as [-> | ->]; (split; [auto|]); [apply (two_of _ 5 6 ltac:(lia) (V 2 5 6 ltac:(simpl; auto)))|apply (two_of _ 4 6 ltac:(lia) (V 0 4 6 ltac:(simpl; auto)))].
Qed.
Lemma ring_end : fracture_end ring 7 0 /\ (forall w, fracture_end ring 7 w -> 0 <= w) /\ exists e, skin_edge ring [7%Z] e /\ touches ring e 0.
Proof.
  split; [|split; [intros; lia|]].
  - split; [eexists; split; reflexivity|]. exists 7. eexists. split; [reflexivity|]. split; [reflexivity|]. split; [reflexivity|]. apply ring_touches. simpl. auto 15.
  - exists 4. rewrite ring_skin, ring_touches. simpl. auto 15.
Qed.
(** The same with an untagged edge *)
Definition ring_open : cells := map Some [point_cell 0 (Some 7%Z); point_cell 1 None; point_cell 2 None; point_cell 3 None;
  edge_cell 4 0 1 (Some 1%Z); edge_cell 5 1 2 None; edge_cell 6 2 0 (Some 2%Z); edge_cell 7 0 3 (Some 7%Z)].
