(** * Example setups: queries of a domain *)
From Coq Require Import List Arith ZArith Bool.
From Verif Require Import Base ShapeModel ShapeSpec ShapeExamples QueryModel QuerySpec.
Import ListNotations.
Local Open Scope Z_scope.

(** An edge of a one dimensional domain with a spare vertex, and another one which has the
    tag of an end of the edge *)
Definition spare : domain Z := [[set_physical (at_ 4 0) (Some 7); at_ 1 1; at_ 9 2; at_ 1 5]; [set_physical (edge_ 6 (set_physical (at_ 4 0) (Some 7)) (at_ 1 1)) (Some 3)]].
Definition spare_kept : list (shape Z) := [set_physical (at_ 4 0) (Some 7); at_ 1 1; at_ 1 5].
(** The same point twice *)
Definition twice : domain Z := [[at_ 0 0; at_ 1 1; at_ 2 1]].
(** A wire next to one of its edges *)
Definition wired : domain Z := [[va; vb; vc; vd]; [edge_ 10 va vb; path_wire]].
Lemma wired_paths : forall w, In w [edge_ 10 va vb; path_wire] -> s_composite w = true -> exists a l, path_of w a l.
Proof.
  intros w [<-|[<-|[]]] H; [discriminate|]. exists va, path_example. split; [reflexivity|]. split; [exact path_walk|]. eexists _, _, _. split; reflexivity.
Qed.
Lemma spare_used : forall s t c, In s (nth 1 spare []) -> reach s t -> child t c -> s_dim c = 0%nat -> c <> at_ 1 5.
Proof.
  intros s t c Hs R C _ ->. destruct Hs as [<-|[]].
  assert (E : t = set_physical (edge_ 6 (set_physical (at_ 4 0) (Some 7)) (at_ 1 1)) (Some 3)).
  { clear C. induction R as [|t c R IH C D]; auto. subst t. exfalso. apply D. destruct C as [C|C]; cbn in C; [destruct C as [<-|[<-|[]]]; reflexivity|destruct C]. }
  subst t. destruct C as [C|C]; cbn in C; [destruct C as [C|[C|[]]]; discriminate|destruct C].
Qed.
