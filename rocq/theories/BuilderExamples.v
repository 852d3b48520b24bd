(** * Concrete boxes with and without fractures *)
From Coq Require Import List Arith ZArith Bool QArith Lia Permutation.
From Verif Require Import Base FracModel FracSpec SegModel SegProof FracExamples MesherModel MesherSpec BuilderModel BuilderSpec.
Import ListNotations.
Local Open Scope nat_scope.

(** A rectangle around the three fractures of FracExamples *)
Definition rectangle : list point := [mk_point (-2) (-2) 0; mk_point 6 (-2) 0; mk_point 6 2 0; mk_point (-2) 2 0].
Definition mesh_q (tags : dict key Z) (pts : list point) (segs : list (point * point)) (shift : Z) (all_q : bool) : res (network point * list (call point)) :=
  mesh_fractured point (line_line eps_12 0 1) (near_q eps_12) argsort_q 2 tags pts (as_fractures segs) shift all_q.
(** The calls without points, and the keys of the groups *)
Definition no_points (r : res (network point * list (call point))) : list (call point) :=
  match r with Ok (_, l) => filter (fun c => match c with AddPoint _ _ => false | _ => true end) l | Err _ => [] end.
Definition keys_of (r : res (network point * list (call point))) : list (nat * Z) := match r with Ok (_, l) => group_keys l | Err _ => [] end.
(** Five fractures of which the first two meet *)
Definition five_fractures : list (point * point) :=
  [ (mk_point 0 0 0, mk_point 4 0 0); (mk_point 3 (-1) 0, mk_point 3 1 0); (mk_point (-1) (-1) 0, mk_point (-1) 1 0);
    (mk_point 5 (-1) 0, mk_point 5 1 0); (mk_point 0 (3#2)%Q 0, mk_point 1 (3#2)%Q 0) ].
Definition rectangle_tags : dict key Z := [(KArea, 1); (KBc 0, 102); (KBc 1, 103); (KBc 2, 104); (KBc 3, 105)]%Z.


Lemma repeated {A} (l : list A) i j x : i <> j -> nth_error l i = Some x -> nth_error l j = Some x -> ~ NoDup l.
Proof.
  intros D Hi Hj N. apply D. rewrite NoDup_nth_error in N. apply N; [apply nth_error_Some; congruence|congruence].
Qed.
(** With the default tags of the box the second fracture has the tag of a side. *)
Lemma default_groups_lemma : exists net r, mesh_q [] rectangle (firstn 2 three_fractures) 1 true = Ok (net, r) /\ ~ NoDup (group_keys r) /\
  In (AddPhysicalGroup 1 [4%Z] 2%Z) r /\ In (AddPhysicalGroup 1 [18%Z; 19%Z] 2%Z) r.
Proof.
  do 2 eexists. split; [vm_compute; reflexivity|]. split; [|split; cbn; auto 40]. apply (repeated _ 0 9 (1, 2%Z)); [lia|reflexivity|reflexivity].
Qed.
(** With five fractures the tag of the intersection of the first two is that of the last. *)
Lemma crossing_group_lemma : exists net r, mesh_q rectangle_tags rectangle five_fractures 1 true = Ok (net, r) /\
  In (AddPhysicalGroup 0 [15%Z; 13%Z; 14%Z] 5%Z) r /\ (forall l p, In (AddPhysicalGroup 0 l p) r -> In 15%Z l -> p = 5%Z) /\
  vertex_number point 4 net 15 15 /\ located point net 15 (mk_point (24#8) (0#8) (0#8)).
Proof.
  do 2 eexists. split; [vm_compute; reflexivity|]. split; [cbn; auto 60|]. split; [|split].
  - intros l p H. cbn in H. repeat (destruct H as [H|H]; [first [discriminate H|injection H as <- <-; cbn; intuition discriminate]|]). destruct H.
  - do 2 eexists. split; [reflexivity|]. split; [reflexivity|]. split; reflexivity.
  - do 2 eexists. split; [reflexivity|]. split; reflexivity.
Qed.
(** The graph without the divided lines: the pieces of a fracture become groups of their own
    with the same dimension and tag. *)
Lemma shallow_graph_lemma : exists net r, mesh_q rectangle_tags rectangle (firstn 2 three_fractures) 10 false = Ok (net, r) /\
  tags_apart rectangle_tags 4 2 10 /\ ~ NoDup (group_keys r) /\ In (AddPhysicalGroup 1 [16%Z] 10%Z) r /\ In (AddPhysicalGroup 1 [17%Z] 10%Z) r.
Proof.
  do 2 eexists. split; [vm_compute; reflexivity|]. split; [|split; [apply (repeated _ 5 6 (0, 10%Z)); [lia|reflexivity|reflexivity]|split; cbn; auto 60]].
  split.
  - intros i j I J. do 4 (destruct i as [|i]; [do 4 (destruct j as [|j]; [cbn; congruence|]); lia|]). lia.
  - intros i k I K. do 4 (destruct i as [|i]; [destruct k as [|[|k]]; [cbn; discriminate|cbn; discriminate|lia]|]). lia.
Qed.
Lemma ends_known {P} : forall (r : list (call P)) s b e t, accepted s r -> In (AddLine b e t) r -> In e (points s) \/ exists p, In (AddPoint p e) r.
Proof.
  induction r as [|c r IH]; intros s b e t A H; [destruct H|]. destruct A as [O A]. destruct H as [->|H]; [left; apply O|].
  destruct (IH _ _ _ _ A H) as [Q|(p & Q)]; [|right; exists p; right; auto]. destruct c; cbn in Q; auto. destruct Q as [->|Q]; auto. right. eexists. left. reflexivity.
Qed.
(** set_points twice: the lines use points that do not exist. *)
Definition mesh_twice (tags : dict key Z) (pts : list point) (segs : list (point * point)) (shift : Z) : res (list (call point)) :=
  do (b, g) <- box_2D point 2 (new_builder point tags) pts;
  do net <- intersect_fractures_q (as_fractures segs) shift;
  do ng <- build_network_graph 2 (n_cells point net) true;
  match set_points point b (snd (set_points point b (Some net))) with
  | (points, Some net') => generate point 2 points b g (Some (n_cells point net', ng, map (fun i => (Z.of_nat i + shift)%Z) (seq 0 (length segs))))
  | _ => Err AttributeError
  end.
Lemma set_points_twice_lemma : exists r, mesh_twice rectangle_tags rectangle (firstn 2 three_fractures) 10 = Ok r /\ ~ accepted nothing r /\
  (exists b t, In (AddLine b 13%Z t) r) /\ (forall p, ~ In (AddPoint p 13%Z) r).
Proof.
  eexists. split; [vm_compute; reflexivity|]. match goal with |- ~ accepted _ ?r /\ _ => assert (L : exists b t, In (AddLine b 13%Z t) r) by (do 2 eexists; cbn; auto 60);
    assert (N : forall p, ~ In (AddPoint p 13%Z) r) by (intros p H; cbn in H; repeat (destruct H as [H|H]; [discriminate H|]); destruct H) end.
  split; [|split; [exact L|exact N]]. intros A. destruct L as (b & t & L). destruct (ends_known _ _ _ _ _ A L) as [[]|(p & Q)]. exact (N p Q).
Qed.
(** set_points and write_mesh *)
Lemma written_lemma (P : Type) (b : builder P) (net : network P) : exists net', set_points P b (Some net) = (bu_points P b ++ n_points P net, Some net') /\
  n_points P (unset_points P b net') = n_points P net /\
  n_cells P (unset_points P b net') = map (fun c => mk_gcell (gc_dim c) (gc_id c + length (bu_cells P b)) (gc_tag c) (gc_pid c) (gc_bc c) (gc_imm c)) (n_cells P net).
Proof.
  eexists. split; [reflexivity|]. split; [reflexivity|]. cbn [unset_points n_cells]. rewrite !map_map. apply map_ext. intros c.
  unfold shift_point_ids, shift_cell_ids. destruct (gc_dim c =? 0) eqn:E; cbn [gc_dim gc_id gc_tag gc_pid gc_bc gc_imm]; rewrite E; cbn [gc_dim gc_id gc_tag gc_pid gc_bc gc_imm]; f_equal.
  - lia.
  - destruct (gc_pid c); cbn [option_map]; [f_equal; lia|reflexivity].
  - lia.
Qed.
