(** * Concrete product space used by the examples next to the theorems *)
From Coq Require Import List Arith ZArith Bool Lia.
From Verif Require Import Base MeshModel MeshSpec GraphModel DofModel DofSpec SpaceModel SpaceSpec MeshExamples.
Import ListNotations.

(** ** Example: lowest order Raviart-Thomas flux (field 0) with discontinuous pressure
    (field 1) on the two triangles of [ex2]; boundary tags 6 and 7 for the flux. *)
Definition rt0 (_ : bool) : list (list nat) := [[0; 0; 0]; [1; 1; 1]; [0]].
Definition p1 (disc : bool) : list (list nat) :=
  if disc then [[0; 0; 0]; [0; 0; 0]; [3]] else [[1; 1; 1]; [0; 0; 0]; [0]].
Definition ex_fields : dict nat field :=
  [(0, mk_field 2 1 rt0 1 ex2 2); (1, mk_field 2 1 p1 1 ex2 2)].
Definition ex_new : product :=
  Eval vm_compute in match new_product ex_fields with Ok p => make_subspaces_discontinuous p [(1, true)] | Err _ => mk_product [] [] 0 0 end.
Definition ex_q : product :=
  Eval vm_compute in
    match build_product 1 ex_new [(0, [Some 1; Some 2]%Z); (1, [Some 1; Some 2]%Z)] [(0, [Some 6; Some 7]%Z)] with
    | Ok q => mk_product (ps_spaces q) (ps_dofs q) (ps_n q) 10 | Err _ => mk_product [] [] 0 0 end.

Ltac lists := repeat match goal with
  | H : In _ _ |- _ => simpl in H
  | H : _ \/ _ |- _ => destruct H
  | H : False |- _ => destruct H
  end; subst; auto.
Lemma ex_fields_good : forall n s, In (n, s) (ps_spaces ex_new) -> good_field s /\ fresh_field s.
Proof.
  intros n s [H|[H|[]]]; inversion H; subst; clear H.
  - split; [|split; reflexivity]. split; [exact ex2_good|]. simpl. split; [lia|]. split; [lia|].
    exists [0; 1; 0]. split; [reflexivity|]. repeat constructor; try discriminate; intros; lists.
  - split; [|split; reflexivity]. split; [exact ex2_good|]. simpl. split; [lia|]. split; [lia|].
    exists [0; 0; 3]. split; [reflexivity|]. repeat constructor; try discriminate; intros; lists.
Qed.
Lemma ex_built : built_product ex_q.
Proof.
  exists 0, ex_new, [(0, [Some 1; Some 2]%Z); (1, [Some 1; Some 2]%Z)], [(0, [Some 6; Some 7]%Z)].
  eexists. split; [|split; [exact ex_fields_good|split; [vm_compute; reflexivity|repeat split]]].
  simpl. repeat constructor; simpl; lia.
Qed.
