(** * Concrete data for the forms evaluated with automatic differentiation *)
From Coq Require Import String List Arith Bool ZArith QArith Qcanon Ring Field Lia.
From Verif Require Import Base FormModel FormSpec FormExamples AdModel AdModel2 AdSpec BcSpec.
Import ListNotations.
Open Scope nat_scope.
Open Scope list_scope.

(** The rational numbers *)
Definition Qs : scalar := mk_scalar Qc (Q2Qc 0) (Q2Qc 1) Qcplus Qcmult Qcminus Qcopp Qcinv.
Lemma Qs_field : is_field Qs.
Proof. exact Qcft. Qed.
Lemma Qs_ring : is_ring Qs.
Proof. exact Qcrt. Qed.
Lemma Qs_two : @kadd Qs k1 k1 <> k0.
Proof. discriminate. Qed.
Definition q (z : Z) : Qc := Q2Qc (inject_Z z).
Definition qgrid (l : list (list (list (list Z)))) (d i k c : nat) : Qc :=
  q (look 0%Z (look [] (look [] (look [] l d) i) k) c).
Definition qat (l : list Z) (i : nat) : Qc := q (look 0%Z l i).
Definition qentries (r : res (local_system Qs)) : res (nat * list Q * list (list Q)) :=
  do L <- r; Ok (l_n L, map (fun a => this (l_r L a)) (seq 0 (l_n L)),
                 map (fun a => map (fun b => this (l_j L a b)) (seq 0 (l_n L))) (seq 0 (l_n L))).

(** *** Mixed Laplace: three flux functions and one potential on a triangle; two points *)
Definition lx_ut : tab Qs := mk_tab (F := Qs) 3 2 2 (qgrid
  [[[[1; 0]; [0; 1]; [1; 1]]; [[2; 0]; [0; 3]; [1; -1]]];
   [[[2; 0]; [0; 0]; [1; 0]]; [[2; 0]; [0; 0]; [1; 0]]];
   [[[0; 0]; [0; 2]; [0; 1]]; [[0; 0]; [0; 2]; [0; 1]]]]%Z).
Definition lx_pt : tab Qs := mk_tab (F := Qs) 1 0 1 (qgrid [[[[1]]; [[3]]]]%Z).
Definition lx_ue : element Qs := mk_element (F := Qs) 2 lx_ut (qat [2; 2]%Z) (fun _ _ _ => q 0).
Definition lx_pe : element Qs := mk_element (F := Qs) 2 lx_pt (qat [2; 2]%Z) (fun _ _ _ => q 0).
Definition lx_u : fe_field Qs := mk_fe_field (F := Qs) 1 false [lx_ue].
Definition lx_p : fe_field Qs := mk_fe_field (F := Qs) 1 true [lx_pe].
Definition lx_w : list Qc := [q 1; q 2].
Definition lx_space : fe_space Qs := mk_fe_space (F := Qs) [("u"%string, lx_u); ("p"%string, lx_p)] [None; None; Some lx_w; None].
Definition lx_fn : user_functions Qs := mk_user (F := Qs) [("rhs"%string, [qat [5; 7]%Z])] [("kappa"%string, qat [2; 1]%Z)].
Definition lx_data : lap_data Qs := mk_lap (F := Qs) lx_u lx_p lx_ue lx_pe lx_w [qat [5; 7]%Z] (qat [2; 1]%Z).
Lemma lx_reads : lap_reads lx_space lx_fn 0 lx_data.
Proof. repeat split; simpl; auto with arith. Qed.
Lemma lx_fits : lap_fits lx_data.
Proof. repeat split; simpl; auto with arith. Qed.

(** *** Linear elasticity on the reference triangle, one point *)
Definition ee_tab : tab Qs := mk_tab (F := Qs) 3 2 1 (qgrid
  [[[[1]; [1]; [1]]]; [[[-1]; [1]; [0]]]; [[[-1]; [0]; [1]]]]%Z).
Definition ee_inv (_ r d : nat) : Qc := if r =? d then q 1 else q 0.
Definition ee_e : element Qs := mk_element (F := Qs) 2 ee_tab (qat [1]%Z) ee_inv.
Definition ee_u : fe_field Qs := mk_fe_field (F := Qs) 2 true [ee_e].
Definition ee_w : list Qc := [q 2].
Definition ee_space : fe_space Qs := mk_fe_space (F := Qs) [("u"%string, ee_u)] [None; None; Some ee_w; None].
Definition ee_fn : user_functions Qs := mk_user (F := Qs) [("rhs"%string, [qat [5]%Z; qat [7]%Z])]
  [("lambda"%string, qat [3]%Z); ("mu"%string, qat [2]%Z)].
Definition ee_data : le_data Qs := mk_le (F := Qs) ee_u ee_e ee_w [qat [5]%Z; qat [7]%Z] (qat [3]%Z) (qat [2]%Z).
Definition ee_alpha (a : nat) : Qc := qat [0; 0; 1; 0; 0; 0]%Z a.
Lemma ee_reads : le_reads ee_space ee_fn 0 ee_data.
Proof. repeat split; simpl; auto with arith. Qed.
Lemma ee_fits : le_fits ee_data.
Proof. split; [reflexivity|left; reflexivity]. Qed.
(** the rotation (x, y) -> (-y, x) and a translation *)
Definition ee_rotation (a : nat) : Qc := qat [0; 0; 0; 1; -1; 0]%Z a.
Definition ee_shift (a : nat) : Qc := qat [4; 9; 4; 9; 4; 9]%Z a.
Lemma ee_rotation_rigid : le_rigid ee_data ee_rotation.
Proof.
  intros i c dir Hi Hc Hd. assert (i = 0%nat) as -> by (destruct i; [reflexivity|inversion Hi; inversion H0]).
  change (le_dim ee_data) with 2%nat in *.
  assert (C : c = 0%nat \/ c = 1%nat) by (destruct c as [|[|c]]; auto; exfalso; apply Nat.succ_lt_mono in Hc; apply Nat.succ_lt_mono in Hc; inversion Hc).
  assert (D : dir = 0%nat \/ dir = 1%nat) by (destruct dir as [|[|c']]; auto; exfalso; apply Nat.succ_lt_mono in Hd; apply Nat.succ_lt_mono in Hd; inversion Hd).
  destruct C as [->| ->]; destruct D as [->| ->]; apply Qc_is_canon; vm_compute; reflexivity.
Qed.
Lemma ee_unity : forall i r, i < length (le_w ee_data) -> r < t_nder (e_tab (le_e ee_data)) ->
  Sum (F := Qs) (t_nphi (e_tab (le_e ee_data))) (fun k => t_val (e_tab (le_e ee_data)) (S r) i k 0) = k0.
Proof.
  intros i r Hi Hr. assert (i = 0%nat) as -> by (destruct i; [reflexivity|inversion Hi; inversion H0]).
  simpl in Hr. assert (D : r = 0%nat \/ r = 1%nat) by (destruct r as [|[|c']]; auto; exfalso; apply Nat.succ_lt_mono in Hr; apply Nat.succ_lt_mono in Hr; inversion Hr).
  destruct D as [->| ->]; apply Qc_is_canon; vm_compute; reflexivity.
Qed.
Lemma ee_shift_same : forall k c, k < t_nphi (e_tab (le_e ee_data)) -> c < le_dim ee_data ->
  ee_shift (k * le_dim ee_data + c) = qat [4; 9]%Z c.
Proof.
  intros k c Hk Hc. change (le_dim ee_data) with 2%nat in *. change (t_nphi (e_tab (le_e ee_data))) with 3%nat in *.
  assert (C : c = 0%nat \/ c = 1%nat) by (destruct c as [|[|c]]; auto; exfalso; apply Nat.succ_lt_mono in Hc; apply Nat.succ_lt_mono in Hc; inversion Hc).
  assert (D : k = 0%nat \/ k = 1%nat \/ k = 2%nat) by (destruct k as [|[|[|k]]]; auto; exfalso; lia).
  destruct C as [->| ->]; destruct D as [->|[->| ->]]; apply Qc_is_canon; vm_compute; reflexivity.
Qed.

(** *** Boundary forms on an edge with two functions and two points *)
Definition be_tab : tab Zs := mk_tab (F := Zs) 2 1 1 (grid [[[[1]; [2]]; [[3]; [1]]]]%Z).
Definition be_e : element Zs := mk_element (F := Zs) 1 be_tab (fun i => look 0%Z [2; 2]%Z i) no_inv.
Definition be_u : fe_field Zs := mk_fe_field (F := Zs) 2 true [be_e].
Definition be_w : list Z := [1; 2]%Z.
Definition be_g : list (nat -> Z) := [look 0%Z [5; 6]%Z; look 0%Z [7; 1]%Z].
Definition be_space : fe_space Zs := mk_fe_space (F := Zs) [("u"%string, be_u); ("t"%string, mk_fe_field (F := Zs) 1 true [be_e])] [None; Some be_w; None; None].
Definition be_fn : user_functions Zs := mk_user (F := Zs)
  [("u"%string, be_g); ("t"%string, be_g); ("p"%string, be_g)] [].
Definition be_data : bc_data Zs := mk_bc (F := Zs) be_u be_e be_w be_g.
Definition bt_data : bc_data Zs := mk_bc (F := Zs) (mk_fe_field (F := Zs) 1 true [be_e]) be_e be_w be_g.
Lemma be_reads : bc_reads be_space be_fn "u" "u" 0 be_data.
Proof. repeat split. Qed.
Lemma be_reads_t : bc_reads be_space be_fn "u" "t" 0 be_data.
Proof. repeat split. Qed.
Lemma be_reads_tt : bc_reads be_space be_fn "t" "t" 0 bt_data.
Proof. repeat split. Qed.
(** a normal along an axis and a slanted direction *)
Definition axis_normal (_ : nat) : res (list Z) := Ok [0; 1; 0]%Z.
Definition slanted_normal (_ : nat) : res (list Z) := Ok [3; 4; 0]%Z.
Lemma axis_normal_aligned : axis_aligned (F := Zs) [0; 1; 0]%Z (b_comp be_data).
Proof.
  intros c c' H H' N. change (b_comp be_data) with 2%nat in *.
  assert (C : c = 0%nat \/ c = 1%nat) by (destruct c as [|[|c]]; auto; exfalso; apply Nat.succ_lt_mono in H; apply Nat.succ_lt_mono in H; inversion H).
  assert (C' : c' = 0%nat \/ c' = 1%nat) by (destruct c' as [|[|c']]; auto; exfalso; apply Nat.succ_lt_mono in H'; apply Nat.succ_lt_mono in H'; inversion H').
  destruct C as [->| ->]; destruct C' as [->| ->]; try reflexivity; exfalso; apply N; reflexivity.
Qed.
(** the facet of a triangle: one flux function, number 1 of the triangle *)
Definition fx_tab : tab Zs := mk_tab (F := Zs) 3 2 2 (grid [[[[1; 0]; [2; 5]; [0; 1]]; [[1; 1]; [3; 4]; [0; 2]]]]%Z).
Definition fx_trace : trace_data Zs := mk_trace (F := Zs) 2 [1] fx_tab [3; 4; 0]%Z.
Definition fx_e : element Zs := mk_element (F := Zs) 1 (mk_tab (F := Zs) 1 0 1 (grid [[[[1]]; [[1]]]]%Z)) (fun i => look 0%Z [2; 2]%Z i) no_inv.
Definition fx_u : fe_field Zs := mk_fe_field (F := Zs) 1 false [fx_e].
Definition fx_space : fe_space Zs := mk_fe_space (F := Zs) [("u"%string, fx_u); ("v"%string, fx_u)] [None; Some be_w; None; None].
Definition fx_fn : user_functions Zs := mk_user (F := Zs) [("p"%string, be_g); ("q"%string, be_g)]
  [("d_phi"%string, look 0%Z [2; 3]%Z); ("porosity"%string, look 0%Z [0; 4]%Z)].
Definition fx_data : bc_data Zs := mk_bc (F := Zs) fx_u fx_e be_w be_g.
Lemma fx_reads_u : bc_reads fx_space fx_fn "u" "p" 0 fx_data.
Proof. repeat split. Qed.
Lemma fx_reads_v : bc_reads fx_space fx_fn "v" "q" 0 fx_data.
Proof. repeat split. Qed.
Definition fx_flux : flux_data Zs :=
  mk_flux (F := Zs) (b_e fx_data) (b_w fx_data) (b_comp fx_data) (b_phi fx_data) fx_trace (fun c i => b_given fx_data i c).
Lemma fx_fits : flux_fits fx_flux.
Proof. repeat split; simpl; auto with arith. Qed.
