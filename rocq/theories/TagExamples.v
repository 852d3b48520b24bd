(** * Concrete numberings *)
From Coq Require Import List Arith ZArith Bool Lia.
From Verif Require Import Base TagModel TagSpec TagProof.
Import ListNotations.

(** A wire 4 over the edges 0-3, which are shapes of the domain as well *)
Definition wire_immersed (s : nat) : list nat := if (s =? 4)%nat then [0; 1; 2; 3] else [].
Definition wire_domain : list (list nat) := [[]; [0; 1; 2; 3; 4]].
Lemma wire_uniform : uniform_dims (fun _ => 1) wire_immersed wire_domain.
Proof. intros d s H. destruct d as [|[|[|d]]]; simpl in H; try (destruct H; fail). split; auto. Qed.

(** Edges 0, 1, 2 and a face 3 in which edge 2 is immersed *)
Definition face_dim (s : nat) : nat := if (s =? 3)%nat then 2 else 1.
Definition face_immersed (s : nat) : list nat := if (s =? 3)%nat then [2] else [].
Definition face_domain : list (list nat) := [[]; [0; 1; 2]; [3]].
Lemma face_collision : (forall d s, In s (nth d face_domain []) -> face_dim s = d) /\
  In 1 (nth 1 face_domain []) /\ In 2 (nth 1 face_domain []) /\ 1 <> 2 /\
  forall h, retag_shapes face_dim face_immersed 2 face_domain h 1 = retag_shapes face_dim face_immersed 2 face_domain h 2.
Proof.
  split; [|split; [simpl; auto|split; [simpl; auto|split; [discriminate|reflexivity]]]].
  intros d s H. destruct d as [|[|[|[|d]]]]; simpl in H; try (destruct H; fail); repeat (destruct H as [<-|H]; [reflexivity|]); destruct H.
Qed.
