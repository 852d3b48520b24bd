(** * Concrete local systems, for the examples beside the theorems *)
From Coq Require Import String List Arith Bool ZArith Ring Field.
From Verif Require Import Base FormModel FormSpec.
Import ListNotations.
Open Scope list_scope.

(** The integers; enough where only ring laws are used *)
Definition Zs : scalar := mk_scalar Z 0%Z 1%Z Z.add Z.mul Z.sub Z.opp (fun _ => 0%Z).
Lemma Zs_ring : is_ring Zs.
Proof. exact Zth. Qed.

Definition look {A} (d : A) (l : list A) (i : nat) : A := nth i l d.
Definition grid (l : list (list (list (list Z)))) (d i k c : nat) : Z :=
  look 0%Z (look [] (look [] (look [] l d) i) k) c.

(** *** L2 projection: a Lagrange field "u" with two components and a field "q" of vector
    valued functions, on an element of dimension 2 with three points *)
Definition u_tab : tab Zs := mk_tab (F := Zs) 2 2 1 (grid [[[[1]; [0]]; [[0]; [1]]; [[2]; [3]]]]%Z).
Definition q_tab : tab Zs := mk_tab (F := Zs) 3 2 2 (grid [[[[1; 0]; [0; 1]; [1; 1]]; [[2; 0]; [0; 0]; [0; 1]]; [[0; 3]; [1; 0]; [0; 0]]]]%Z).
Definition l2_det (i : nat) : Z := look 0%Z [3; 3; 2]%Z i.
Definition no_inv (_ _ _ : nat) : Z := 0%Z.
Definition u_elem : element Zs := mk_element (F := Zs) 2 u_tab l2_det no_inv.
Definition q_elem : element Zs := mk_element (F := Zs) 2 q_tab l2_det no_inv.
Definition l2_space : fe_space Zs := mk_fe_space (F := Zs)
  [("u"%string, mk_fe_field (F := Zs) 2 true [u_elem]); ("q"%string, mk_fe_field (F := Zs) 1 false [q_elem])]
  [None; None; Some [1; 2; 1]%Z; None].
(** the functions whose coefficients are [1;2;3;4;5;6;7]: u_x = 1 phi_0 + 3 phi_1,
    u_y = 2 phi_0 + 4 phi_1, q = 5 psi_0 + 6 psi_1 + 7 psi_2 *)
Definition l2_x (a : nat) : Z := Z.of_nat (S a).
Definition l2_funs : dict string (values Zs) :=
  [("q"%string, [fun d i => look 0%Z (look [] [[12; 10; 6]; [13; 7; 15]]%Z d) i]);
   ("u"%string, [fun _ i => look 0%Z [1; 3; 11]%Z i; fun _ i => look 0%Z [2; 4; 16]%Z i])].
Definition l2_ds : list (l2_data Zs) :=
  [mk_l2 (F := Zs) (mk_fe_field (F := Zs) 2 true [u_elem]) u_elem [1; 2; 1]%Z
     [fun _ i => look 0%Z [1; 3; 11]%Z i; fun _ i => look 0%Z [2; 4; 16]%Z i];
   mk_l2 (F := Zs) (mk_fe_field (F := Zs) 1 false [q_elem]) q_elem [1; 2; 1]%Z
     [fun d i => look 0%Z (look [] [[12; 10; 6]; [13; 7; 15]]%Z d) i]].
Definition zero_state (_ : nat) : Z := 0%Z.

Definition entries_of (r : res (local_system Zs)) : res (nat * list Z * list (list Z)) :=
  do L <- r; Ok (l_n L, map (l_r L) (seq 0 (l_n L)), map (fun a => map (l_j L a) (seq 0 (l_n L))) (seq 0 (l_n L))).

Lemma l2_ds_read : Forall2 (reads l2_space l2_funs 0) (fs_fields l2_space) l2_ds.
Proof. repeat constructor. Qed.
Lemma l2_case_reproduces : forall p d c dir i, nth_error l2_ds p = Some d -> c < d_comp d -> dir < d_dirs d -> i < length (d_w d) ->
   d_rhs d c dir i = l2_state (F := Zs) l2_ds p d l2_x c dir i.
Proof.
  intros [|[|p]] d c dir i H; [| |destruct p; discriminate]; injection H as <-; simpl; intros Hc Hd Hi.
  - assert (C : c = 0 \/ c = 1) by (destruct c as [|[|c]]; auto; inversion Hc as [|? X]; inversion X; inversion H1).
    assert (D : dir = 0) by (destruct dir; [reflexivity|]; inversion Hd; inversion H0).
    assert (I : i = 0 \/ i = 1 \/ i = 2) by (destruct i as [|[|[|i]]]; auto; exfalso; apply Nat.succ_lt_mono in Hi; apply Nat.succ_lt_mono in Hi; apply Nat.succ_lt_mono in Hi; inversion Hi).
    subst dir. destruct C as [->| ->]; destruct I as [->|[->| ->]]; reflexivity.
  - assert (C : c = 0) by (destruct c; [reflexivity|]; inversion Hc; inversion H0).
    assert (D : dir = 0 \/ dir = 1) by (destruct dir as [|[|c']]; auto; exfalso; apply Nat.succ_lt_mono in Hd; apply Nat.succ_lt_mono in Hd; inversion Hd).
    assert (I : i = 0 \/ i = 1 \/ i = 2) by (destruct i as [|[|[|i]]]; auto; exfalso; apply Nat.succ_lt_mono in Hi; apply Nat.succ_lt_mono in Hi; apply Nat.succ_lt_mono in Hi; inversion Hi).
    subst c. destruct D as [->| ->]; destruct I as [->|[->| ->]]; reflexivity.
Qed.
