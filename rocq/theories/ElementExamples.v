(** * Concrete elements *)
From Coq Require Import String List Arith ZArith Bool Reals Lra Lia Permutation.
From Verif Require Import Base MeshModel MeshSpec GraphModel OrientModel OrientSpec VecBase VecProof MapModel MapSpec JacProof MapExamples SpaceModel ElementModel ElementSpec ElementProof3 OrientExamples.
Import ListNotations.
Local Open Scope R_scope.

(** ** Generators *)
Definition tabulator (d n vs : nat) (phi : nat -> nat -> nat -> list R -> R) (points : list (list R)) : res table :=
  if forallb (fun p => List.length p =? d)%nat points
  then Ok (mk_table (d + 1) (List.length points) n vs (fun k i a c => phi k a c (nth i points []))) else Err ValueError.
Lemma tabulator_ok e ne idq int tri mp d n vs phi : tabulates (mk_generator e ne idq int tri mp (tabulator d n vs phi)) d n vs phi.
Proof.
  intros points Fp. unfold gen_tabulate, tabulator. assert (Q : forallb (fun p => List.length p =? d)%nat points = true).
  { apply forallb_forall. intros p Hp. apply Nat.eqb_eq. rewrite Forall_forall in Fp. auto. }
  rewrite Q. eexists. split; [reflexivity|]. cbn. repeat split; auto. intros k i p a c _ Hp _ _. rewrite (nth_of_error _ _ _ _ Hp). reflexivity.
Qed.
Lemma nodup_right (l l' : list nat) : NoDup (l ++ l') -> NoDup l'.
Proof. induction l as [|x l IH]; simpl; auto. intros N. apply NoDup_cons_iff in N as [_ N]. auto. Qed.
Lemma nodup_left (l l' : list nat) : NoDup (l ++ l') -> NoDup l.
Proof.
  induction l as [|x l IH]; simpl; intros N; constructor; apply NoDup_cons_iff in N as [N1 N2]; auto. intros Q. apply N1, in_or_app. auto.
Qed.
Lemma concat_once (ll : list (list nat)) : NoDup (concat ll) -> forall i j a, In a (nth i ll []) -> In a (nth j ll []) -> i = j.
Proof.
  induction ll as [|l ll IH]; intros N i j a Hi Hj; [destruct i; destruct Hi|].
  simpl in N. assert (Q : forall k, In a (nth k ll []) -> In a (concat ll)).
  { intros k Hk. apply in_concat. exists (nth k ll []). split; auto. apply nth_In. destruct (Nat.lt_ge_cases k (List.length ll)); auto. rewrite nth_overflow in Hk by auto. destruct Hk. }
  assert (D : forall x, In x l -> ~ In x (concat ll)).
  { clear - N. induction l as [|y l IH]; simpl in *; [tauto|]. apply NoDup_cons_iff in N as [N1 N2]. intros x [->|Hx]; [intros Q; apply N1, in_or_app; auto|apply IH; auto]. }
  destruct i, j; simpl in *; auto; try (exfalso; eapply D; eauto; fail). f_equal. apply (IH (nodup_right _ _ N) i j a); auto.
Qed.
Lemma once_by_lists g : NoDup (concat (map (@concat nat) (gen_entity_dofs g))) -> owned_once g.
Proof.
  intros N d d' i i' a H H'. unfold dofs in *.
  assert (Q : forall d i, In a (nth i (nth d (gen_entity_dofs g) []) []) -> In a (nth d (map (@concat nat) (gen_entity_dofs g)) [])).
  { intros e k Hk. change (@nil nat) with (concat (@nil (list nat))) at 1. rewrite map_nth. apply in_concat. eexists. split; [|exact Hk].
    apply nth_In. destruct (Nat.lt_ge_cases k (List.length (nth e (gen_entity_dofs g) []))); auto. rewrite nth_overflow in Hk by auto. destruct Hk. }
  assert (d = d') by (eapply (concat_once _ N); eauto). subst d'. split; auto.
  apply (concat_once (nth d (gen_entity_dofs g) [])) with (a := a); auto.
  clear - N. revert d. induction (gen_entity_dofs g) as [|x l IH]; intros [|d]; simpl in *; try constructor.
  - apply nodup_left in N. auto.
  - apply IH. apply nodup_right in N. auto.
Qed.
Ltac nodup := repeat constructor; simpl; intuition discriminate.

Definition minus_one : nat * matrix := (1%nat, fun _ _ => -1).
Definition plus_one : nat * matrix := (1%nat, fun _ _ => 1).
(** Raviart-Thomas of lowest order on the tetrahedron: +-2 (p - v_i) *)
Definition rt3_phi (k a c : nat) (p : list R) : R :=
  (if Nat.even a then 2 else -2) *
  match k with 0%nat => nth c p 0 - coordinate (ref_vertex a) c | S j => if (j =? c)%nat then 1 else 0 end.
Definition rt3 : generator :=
  mk_generator [[[]; []; []; []]; [[]; []; []; []; []; []]; [[0]; [1]; [2]; [3]]; [[]]]%nat [[0; 0; 0; 0]; [0; 0; 0; 0; 0; 0]; [1; 1; 1; 1]; [0]]%nat
    false (0%nat, fun _ _ => 0) (1%nat, (fun _ _ => 1, fun _ _ => -1)) MContravariant (tabulator 3 4 3 rt3_phi).
Definition two (r : nat) (l : list R) : R := 2.
Definition one (r : nat) (l : list R) : R := 1.
Lemma four_split (a : nat) : (a < 4)%nat -> (a = 0 \/ a = 1 \/ a = 2 \/ a = 3)%nat. Proof. lia. Qed.
Lemma rt3_is_hdiv : hdiv_3d rt3 4 1 rt3_phi two.
Proof.
  split; [reflexivity|]. split; [apply tabulator_ok|]. split; [apply once_by_lists; nodup|].
  split. { split; [eexists; split; reflexivity|]. intros i Hi. destruct i as [|[|[|[|[|[|i]]]]]]; try lia; (split; [reflexivity|]; split; [constructor|intros a []]). }
  split; [reflexivity|].
  split. { split; [eexists; split; reflexivity|]. intros i Hi. destruct i as [|[|[|[|i]]]]; try lia; (split; [reflexivity|]; split; [nodup|simpl; intuition lia]). }
  split. { split; [reflexivity|]. split; [intros H; discriminate|]. split; [intros H; discriminate|]. intros r u v w Hr. unfold two. simpl. split; ring. }
  intros i p Hi Lp Hz. destruct p as [|x [|y [|z [|]]]]; try discriminate. split.
  - intros r Hr. assert (r = 0)%nat by lia. subst r.
    destruct i as [|[|[|[|i]]]]; try lia; simpl in Hz; unfold two, rt3_phi, ref_value, dofs, area, face_of, ref_vertex, dot, cross, vsub, coordinate, vzero; simpl; lra.
  - intros a Ha Hn.
    destruct i as [|[|[|[|i]]]]; try lia; destruct (four_split a Ha) as [->|[->|[->| ->]]]; try (exfalso; apply Hn; simpl; auto; fail);
      simpl in Hz; unfold rt3_phi, ref_value, area, face_of, ref_vertex, dot, cross, vsub, coordinate, vzero; simpl; lra.
Qed.

(** ... on the triangle *)
Definition rt2 : generator :=
  mk_generator [[[]; []; []]; [[0]; [1]; [2]]; [[]]]%nat [[0; 0; 0]; [1; 1; 1]; [0]]%nat
    false minus_one (0%nat, (fun _ _ => 0, fun _ _ => 0)) MContravariant (tabulator 2 3 2 rt3_phi).
Lemma rt2_is_hdiv : hdiv_2d rt2 3 1 rt3_phi two.
Proof.
  split; [reflexivity|]. split; [apply tabulator_ok|]. split; [apply once_by_lists; nodup|].
  split. { split; [eexists; split; reflexivity|]. intros i Hi. destruct i as [|[|[|i]]]; try lia; (split; [reflexivity|]; split; [nodup|simpl; intuition lia]). }
  split. { split; [reflexivity|]. split; [intros H; discriminate|]. intros r u v Hr. unfold two. simpl. ring. }
  intros i p Hi Lp Hz. destruct p as [|x [|y [|]]]; try discriminate. split.
  - intros r Hr. assert (r = 0)%nat by lia. subst r.
    destruct i as [|[|[|i]]]; try lia; simpl in Hz; unfold two, rt3_phi, ref_value, dofs, along, edge_of, ref_vertex, dot, cross, vsub, coordinate, vzero; simpl; lra.
  - intros a Ha Hn. assert (Ha' : (a = 0 \/ a = 1 \/ a = 2)%nat) by lia.
    destruct i as [|[|[|i]]]; try lia; destruct Ha' as [->|[->| ->]]; try (exfalso; apply Hn; simpl; auto; fail);
      simpl in Hz; unfold rt3_phi, ref_value, along, edge_of, ref_vertex, dot, cross, vsub, coordinate, vzero; simpl; lra.
Qed.

(** Whitney functions of the edges: shape_a grad shape_b - shape_b grad shape_a *)
Definition grad (j c : nat) : R := match j with 0%nat => -1 | S k => if (k =? c)%nat then 1 else 0 end.
Definition whitney (d k a c : nat) (p : list R) : R :=
  match local_edge d a with
  | [x; y] =>
      match k with
      | 0%nat => nth x (linear_shapes p) 0 * grad y c - nth y (linear_shapes p) 0 * grad x c
      | S j => grad x j * grad y c - grad y j * grad x c
      end
  | _ => 0
  end.
Definition ned3 : generator :=
  mk_generator [[[]; []; []; []]; [[0]; [1]; [2]; [3]; [4]; [5]]; [[]; []; []; []]; [[]]]%nat [[0; 0; 0; 0]; [1; 1; 1; 1; 1; 1]; [0; 0; 0; 0]; [0]]%nat
    false minus_one (0%nat, (fun _ _ => 0, fun _ _ => 0)) MCovariant (tabulator 3 6 3 (whitney 3)).
Lemma six_split (a : nat) : (a < 6)%nat -> (a = 0 \/ a = 1 \/ a = 2 \/ a = 3 \/ a = 4 \/ a = 5)%nat. Proof. lia. Qed.
Lemma ned3_is_hcurl : hcurl_3d ned3 6 1 0 (whitney 3) one.
Proof.
  split; [reflexivity|]. split; [apply tabulator_ok|]. split; [apply once_by_lists; nodup|].
  split. { split; [eexists; split; reflexivity|]. intros i Hi. destruct i as [|[|[|[|[|[|i]]]]]]; try lia; (split; [reflexivity|]; split; [nodup|simpl; intuition lia]). }
  split. { split; [eexists; split; reflexivity|]. intros i Hi. destruct i as [|[|[|[|i]]]]; try lia; (split; [reflexivity|]; split; [constructor|intros a []]). }
  split. { split; [reflexivity|]. split; [intros H; discriminate|]. intros r u v Hr. unfold one. simpl. ring. }
  split. { split; [reflexivity|]. split; intros H; discriminate. }
  intros i p Hi [Lp Hz]. destruct p as [|x [|y [|z [|]]]]; try discriminate.
  pose proof (Hz 0%nat ltac:(lia)) as Z0. pose proof (Hz 1%nat ltac:(lia)) as Z1. pose proof (Hz 2%nat ltac:(lia)) as Z2. pose proof (Hz 3%nat ltac:(lia)) as Z3. clear Hz.
  destruct (six_split i Hi) as [->|[->|[->|[->|[->| ->]]]]]; simpl in Z0, Z1, Z2, Z3;
    repeat match goal with H : ~ _ -> _ |- _ => first [specialize (H ltac:(intuition discriminate))|clear H] end;
    (split; [intros r Hr; assert (r = 0)%nat by lia; subst r; unfold one, whitney, ref_value, dofs, along, ref_vertex, dot, vsub, vzero, grad, linear_shapes; simpl; lra|]);
    intros a Ha Hn; destruct (six_split a Ha) as [->|[->|[->|[->|[->| ->]]]]]; try (exfalso; apply Hn; simpl; auto; fail);
    unfold whitney, ref_value, along, ref_vertex, dot, vsub, vzero, grad, linear_shapes; simpl; lra.
Qed.
Definition ned2 : generator :=
  mk_generator [[[]; []; []]; [[0]; [1]; [2]]; [[]]]%nat [[0; 0; 0]; [1; 1; 1]; [0]]%nat
    false minus_one (0%nat, (fun _ _ => 0, fun _ _ => 0)) MCovariant (tabulator 2 3 2 (whitney 2)).
Lemma ned2_is_hcurl : hcurl_2d ned2 3 1 (whitney 2) one.
Proof.
  split; [reflexivity|]. split; [apply tabulator_ok|]. split; [apply once_by_lists; nodup|].
  split. { split; [eexists; split; reflexivity|]. intros i Hi. destruct i as [|[|[|i]]]; try lia; (split; [reflexivity|]; split; [nodup|simpl; intuition lia]). }
  split. { split; [reflexivity|]. split; [intros H; discriminate|]. intros r u v Hr. unfold one. simpl. ring. }
  intros i p Hi [Lp Hz]. destruct p as [|x [|y [|]]]; try discriminate.
  pose proof (Hz 0%nat ltac:(lia)) as Z0. pose proof (Hz 1%nat ltac:(lia)) as Z1. pose proof (Hz 2%nat ltac:(lia)) as Z2. clear Hz.
  assert (Hi' : (i = 0 \/ i = 1 \/ i = 2)%nat) by lia.
  destruct Hi' as [->|[->| ->]]; simpl in Z0, Z1, Z2;
    repeat match goal with H : ~ _ -> _ |- _ => first [specialize (H ltac:(intuition discriminate))|clear H] end;
    (split; [intros r Hr; assert (r = 0)%nat by lia; subst r; unfold one, whitney, ref_value, dofs, along, ref_vertex, dot, vsub, vzero, grad, linear_shapes; simpl; lra|]);
    intros a Ha Hn; assert (Ha' : (a = 0 \/ a = 1 \/ a = 2)%nat) by lia; destruct Ha' as [->|[->| ->]]; try (exfalso; apply Hn; simpl; auto; fail);
    unfold whitney, ref_value, along, ref_vertex, dot, vsub, vzero, grad, linear_shapes; simpl; lra.
Qed.

(** Functions u^2 v and u v^2 on the edges, u v w on the faces (swapped by a change of order) *)
Definition edge_pair (r : nat) (l : list R) : R := match l with [u; v] => if (r =? 0)%nat then u * u * v else u * v * v | _ => 0 end.
Definition face_one (r : nat) (l : list R) : R := match l with [u; v; w] => u * v * w | _ => 0 end.
Definition swap_two : matrix := fun r s => if (r + s =? 1)%nat then 1 else 0.
(** functions 0-11 of the edges, 12-15 of the faces (derivatives left at 0) *)
Definition cubic3_phi (k a c : nat) (p : list R) : R :=
  match k with
  | 0%nat => if (a <? 12)%nat then edge_pair (a mod 2) (map (fun j => nth j (linear_shapes p) 0) (local_edge 3 (a / 2)))
             else face_one 0 (map (fun j => nth j (linear_shapes p) 0) (face_of [0; 1; 2; 3]%nat (a - 12)))
  | _ => 0
  end.
Definition cubic3 : generator :=
  mk_generator [[[]; []; []; []]; [[0; 1]; [2; 3]; [4; 5]; [6; 7]; [8; 9]; [10; 11]]; [[12]; [13]; [14]; [15]]; [[]]]%nat
    [[0; 0; 0; 0]; [2; 2; 2; 2; 2; 2]; [1; 1; 1; 1]; [0]]%nat
    false (2%nat, swap_two) (1%nat, (fun _ _ => 1, fun _ _ => 1)) MIdentity (tabulator 3 16 1 cubic3_phi).
Lemma swap_two_ok r u v : (r < 2)%nat -> rsum 2 (fun s => swap_two r s * edge_pair s [v; u]) = 1 * edge_pair r [u; v].
Proof. intros Hr. assert (Hr' : (r = 0 \/ r = 1)%nat) by lia. destruct Hr' as [->| ->]; unfold swap_two, edge_pair; simpl; ring. Qed.
Lemma cubic3_is_h1 : h1_3d cubic3 16 2 1 cubic3_phi edge_pair face_one.
Proof.
  split; [reflexivity|]. split; [apply tabulator_ok|]. split; [apply once_by_lists; nodup|].
  split. { split; [eexists; split; reflexivity|]. intros i Hi. destruct i as [|[|[|[|[|[|i]]]]]]; try lia; (split; [reflexivity|]; split; [nodup|simpl; intuition lia]). }
  split. { split; [eexists; split; reflexivity|]. intros i Hi. destruct i as [|[|[|[|i]]]]; try lia; (split; [reflexivity|]; split; [nodup|simpl; intuition lia]). }
  split. { split; [reflexivity|]. split; [intros H; discriminate|]. intros r u v Hr. apply swap_two_ok. auto. }
  split. { split; [reflexivity|]. split; [intros H; discriminate|]. split; [intros H; discriminate|]. intros r u v w Hr. unfold face_one. simpl. split; ring. }
  split.
  - intros i p r Hi _ Hr. assert (Hr' : (r = 0 \/ r = 1)%nat) by lia. destruct (six_split i Hi) as [->|[->|[->|[->|[->| ->]]]]]; destruct Hr' as [->| ->]; reflexivity.
  - intros i p r Hi _ _ Hr. assert (r = 0)%nat by lia. subst r. destruct (four_split i Hi) as [->|[->|[->| ->]]]; reflexivity.
Qed.
Definition cubic2_phi (k a c : nat) (p : list R) : R :=
  match k with
  | 0%nat => edge_pair (a mod 2) (map (fun j => nth j (linear_shapes p) 0) (local_edge 2 (a / 2)))
  | _ => 0
  end.
Definition cubic2 : generator :=
  mk_generator [[[]; []; []]; [[0; 1]; [2; 3]; [4; 5]]; [[]]]%nat [[0; 0; 0]; [2; 2; 2]; [0]]%nat
    false (2%nat, swap_two) (0%nat, (fun _ _ => 0, fun _ _ => 0)) MIdentity (tabulator 2 6 1 cubic2_phi).
Lemma cubic2_is_h1 : h1_2d cubic2 6 2 cubic2_phi edge_pair.
Proof.
  split; [reflexivity|]. split; [apply tabulator_ok|]. split; [apply once_by_lists; nodup|].
  split. { split; [eexists; split; reflexivity|]. intros i Hi. destruct i as [|[|[|i]]]; try lia; (split; [reflexivity|]; split; [nodup|simpl; intuition lia]). }
  split. { split; [reflexivity|]. split; [intros H; discriminate|]. intros r u v Hr. apply swap_two_ok. auto. }
  intros i p r Hi _ Hr. assert (Hr' : (r = 0 \/ r = 1)%nat) by lia. assert (Hi' : (i = 0 \/ i = 1 \/ i = 2)%nat) by lia.
  destruct Hi' as [->|[->| ->]]; destruct Hr' as [->| ->]; reflexivity.
Qed.
(** Linear functions on the interval *)
Definition line_phi (k a c : nat) (p : list R) : R :=
  match k, a with 0%nat, 0%nat => 1 - nth 0 p 0 | 0%nat, _ => nth 0 p 0 | _, 0%nat => -1 | _, _ => 1 end.
Definition line1 : generator :=
  mk_generator [[[0]; [1]]; [[]]]%nat [[1; 1]; [0]]%nat true (0%nat, fun _ _ => 0) (0%nat, (fun _ _ => 0, fun _ _ => 0)) MIdentity (tabulator 1 2 1 line_phi).

(** ** Cells *)
(** Nodes 0-3 are the reference tetrahedron, node 4 is its mirror image of 3 *)
Definition ex_points : list vec := [mk_vec 0 0 0; mk_vec 1 0 0; mk_vec 0 1 0; mk_vec 0 0 1; mk_vec 0 0 (-1); mk_vec 1 (-1) 0].
Definition ex_pos (k : nat) : vec := nth k ex_points vzero.
Definition ex_cells : cells :=
  [ edge_cell 0 2 3; edge_cell 1 1 3; edge_cell 2 2 1; edge_cell 3 0 3; edge_cell 4 0 2; edge_cell 5 1 0; edge_cell 6 2 4; edge_cell 7 1 4; edge_cell 8 0 4; edge_cell 9 0 5; edge_cell 10 5 1 ].
Definition upper_cell : cell := mk_cell 3 20 [0; 1; 2; 3]%nat None [[]; [0; 1; 2; 3; 4; 5]; []; []]%nat.
Definition lower_cell : cell := mk_cell 3 21 [0; 1; 2; 4]%nat None [[]; [6; 7; 2; 8; 4; 5]; []; []]%nat.
Definition turned_cell : cell := mk_cell 3 22 [1; 0; 2; 4]%nat None [[]; [6; 8; 4; 7; 2; 5]; []; []]%nat.
Definition tri_a : cell := mk_cell 2 23 [0; 1; 2]%nat None [[]; [2; 4; 5]; []]%nat.
Definition tri_b : cell := mk_cell 2 24 [1; 0; 5]%nat None [[]; [9; 10; 5]; []]%nat.
Definition line_c : cell := mk_cell 1 5 [1; 0]%nat (Some 7%Z) [[]; []]%nat.
Definition element_of (c : cell) (f : family) (g : generator) (bc : list bool) : element :=
  mk_element c f 1 false 3 g (count_dofs (gen_num_entity_dofs g)) bc.
Definition no_bc : list bool := [false; false; false; false].
(** A QR factorisation for upper triangular matrices *)
Definition trivial_qr (n : nat) (A : matrix) : matrix * matrix := (identity, A).
Lemma trivial_factorises n A : (1 <= n <= 3)%nat -> (forall i j, (j < i)%nat -> (i < 3)%nat -> (j < n)%nat -> A i j = 0) -> factorises n A (trivial_qr n A).
Proof.
  intros Hn U. unfold trivial_qr, factorises. cbn [fst snd]. split; [|split].
  - intros i j Hi Hj. assert (Ci : (i = 0 \/ i = 1 \/ i = 2)%nat) by lia. assert (Cj : (j = 0 \/ j = 1 \/ j = 2)%nat) by lia.
    destruct Ci as [->|[->| ->]], Cj as [->|[->| ->]]; unfold identity; simpl; ring.
  - intros i j Hj Hi. apply U; lia.
  - intros i j Hi Hj. assert (Ci : (i = 0 \/ i = 1 \/ i = 2)%nat) by lia. assert (Cn : (n = 1 \/ n = 2 \/ n = 3)%nat) by lia.
    destruct Cn as [->|[->| ->]], Ci as [->|[->| ->]]; unfold mmul, identity; simpl; try (rewrite U by lia); ring.
Qed.
Lemma ex_tetra_edges : forall c, c = upper_cell \/ c = lower_cell \/ c = turned_cell -> tetrahedron ex_cells c.
Proof.
  intros c H. split; [intuition (subst; auto)|]. split; [intuition (subst; auto)|]. split; [intuition (subst; nodup)|].
  intros i Hi. destruct H as [->|[->| ->]]; destruct i as [|[|[|[|[|[|i]]]]]]; try lia;
    (eexists; split; [do 3 eexists; split; [reflexivity|]; split; [reflexivity|]; split; reflexivity|]);
    simpl; (apply Permutation_refl || apply perm_swap).
Qed.
Lemma ex_placed3 c f g bc : (c = upper_cell \/ c = lower_cell \/ c = turned_cell) -> List.length bc = 4%nat -> placed trivial_qr ex_points ex_cells (element_of c f g bc) ex_pos 3.
Proof.
  intros H Lb. split; [split; [apply ex_tetra_edges; auto|auto]|]. split.
  - intros x Hx. destruct H as [->|[->| ->]]; simpl in Hx; intuition (subst; reflexivity).
  - split.
    + destruct H as [->|[->| ->]]; unfold measure, frame, element_of, ex_pos, ex_points, dot, cross, vsub; simpl; apply Rabs_no_R0; lra.
    + apply trivial_factorises; [lia|]. intros i j Hj Hi _.
      destruct H as [->|[->| ->]]; destruct i as [|[|[|i]]]; try lia; destruct j as [|[|j]]; try lia; unfold of_columns, frame, element_of, ex_pos, ex_points, vsub; simpl; ring.
Qed.
Lemma ex_placed2 c f g bc : c = tri_a \/ c = tri_b -> placed trivial_qr ex_points ex_cells (element_of c f g bc) ex_pos 2.
Proof.
  intros Hc.  split; [|split].
  - destruct Hc as [->| ->]; (split; [reflexivity|]; split; [reflexivity|]; split; [nodup|]; intros i Hi; destruct i as [|[|[|i]]]; try lia;
    (eexists; split; [do 3 eexists; split; [reflexivity|]; split; [reflexivity|]; split; reflexivity|]);
    simpl; (apply Permutation_refl || apply perm_swap)).
  - intros x Hx. destruct Hc as [->| ->]; simpl in Hx; intuition (subst; reflexivity).
  - split.
    + destruct Hc as [->| ->]; unfold measure, frame, element_of, ex_pos, ex_points; simpl; intros Q; apply norm_zero in Q; apply (f_equal vz) in Q; unfold cross, vsub in Q; simpl in Q; lra.
    + apply trivial_factorises; [lia|]. intros i j Hj Hi Hj'. destruct Hc as [->| ->]; destruct i as [|[|[|i]]]; try lia; destruct j as [|[|j]]; try lia; unfold of_columns, frame, element_of, ex_pos, ex_points, vsub; simpl; ring.
Qed.
(** The midpoint of the common face 0, 1, 2 *)
Definition face_point : list (list R) := [[1 / 3; 1 / 3; 0]].
Definition third (k : nat) : R := if (k <? 3)%nat then 1 / 3 else 0.
Lemma ex_face c f g bc : c = upper_cell \/ c = lower_cell \/ c = turned_cell -> points_of 3 face_point /\ nth 3 (linear_shapes (nth 0 face_point [])) 0 = 0 /\
  barycentric (c_nodes c) (nth 0 face_point []) third /\ sorted_face (element_of c f g bc) 3 [0; 1; 2]%nat.
Proof.
  intros H. split; [split; [discriminate|repeat constructor]|]. split; [reflexivity|]. split.
  - intros j Hj. destruct H as [->|[->| ->]]; destruct j as [|[|[|[|j]]]]; simpl in Hj; try lia; unfold third; simpl; lra.
  - split; [repeat constructor|]. destruct H as [->|[->| ->]]; simpl; (apply Permutation_refl || apply perm_swap).
Qed.
Lemma ex_hands : handedness ex_pos (c_nodes upper_cell) = 1 /\ handedness ex_pos (c_nodes lower_cell) = -1 /\ handedness ex_pos (c_nodes turned_cell) = 1.
Proof.
  unfold handedness, frame, ex_pos, ex_points, sign, upper_cell, lower_cell, turned_cell, dot, cross, vsub. simpl.
  repeat split; repeat (match goal with |- context [if ?b then _ else _] => destruct b end); try lra; try reflexivity.
Qed.
