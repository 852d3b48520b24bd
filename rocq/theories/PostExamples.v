(** * Concrete cases for errors and norms *)
From Coq Require Import String List ZArith QArith Qcanon Bool Lia Reals Lra.
From Verif Require Import Base FormModel FormSpec FormExamples AdExamples PostModel PostSpec PostRealSpec PostReal.
Import ListNotations.
Open Scope list_scope.
Open Scope nat_scope.

(** Two triangles with two quadrature points and one edge.  "u": two components, two functions;
    "s": one row, two flux functions; "p": one component, constant on each cell. *)
Definition px_u_tab : tab Zs := mk_tab (F := Zs) 2 2 1 (grid
  [[[[1]; [3]]; [[2]; [1]]]; [[[1]; [0]]; [[1]; [1]]]; [[[0]; [1]]; [[2]; [1]]]]%Z).
Definition px_s_tab : tab Zs := mk_tab (F := Zs) 2 2 2 (grid
  [[[[1; 0]; [2; 1]]; [[0; 1]; [1; 1]]]; [[[1; 0]; [2; 4]]; [[1; 0]; [2; 1]]]; [[[5; 1]; [0; 1]]; [[1; 1]; [0; 3]]]]%Z).
Definition px_e (t : tab Zs) (d : list Z) : element Zs := mk_element (F := Zs) 2 t (look 0%Z d) no_inv.
Definition px_edge (t : tab Zs) : element Zs := mk_element (F := Zs) 1 t (look 0%Z [7; 7]%Z) no_inv.
Definition px_u : post_field Zs := mk_pf (F := Zs) FLagrange 2
  [mk_pe (F := Zs) 10 (px_e px_u_tab [1; 2]%Z) (Ok [0; 1; 2; 3]); mk_pe (F := Zs) 20 (px_edge px_u_tab) (Ok [0; 1; 2; 3]);
   mk_pe (F := Zs) 11 (px_e px_u_tab [3; 1]%Z) (Ok [2; 3; 4; 5])].
Definition px_s : post_field Zs := mk_pf (F := Zs) FRT 1
  [mk_pe (F := Zs) 10 (px_e px_s_tab [1; 2]%Z) (Ok [6; 7]); mk_pe (F := Zs) 20 (px_edge px_s_tab) (Ok [6; 7]);
   mk_pe (F := Zs) 11 (px_e px_s_tab [3; 1]%Z) (Ok [8; 7])].
Definition px_space : post_space Zs := mk_ps (F := Zs) [("u"%string, px_u); ("s"%string, px_s)] [None; None; Some [1; 2]%Z; None].
Definition px_alpha : list Z := [1; 2; -1; 0; 3; 1; 2; -2; 1]%Z.
Definition px_fun (rows cs : nat) (k : Z) : exact_fun Zs :=
  mk_exact (F := Zs) rows cs (fun cell c d i => (k * (Z.of_nat (cell - 9) + 2 * Z.of_nat c - Z.of_nat d + Z.of_nat i))%Z).
Definition px_funs : dict string (exact_fun Zs) :=
  [("u"%string, px_fun 2 1 1%Z); ("s"%string, px_fun 1 2 1%Z); ("div_s"%string, px_fun 1 1 2%Z)].
Definition px_f (name : string) : exact_fun Zs := if String.eqb name "u" then px_fun 2 1 1%Z else px_fun 1 2 1%Z.
Definition px_id (x : Z) : Z := x.
Definition px_plain (A : list Z) : res (list Z) := Ok A.

Ltac px_cases H := repeat (destruct H as [H|H]; [injection H as <- <-|]); try destruct H.
Lemma px_names : NoDup (dkeys (ps_fields px_space)).
Proof. repeat constructor; simpl; intuition discriminate. Qed.
Lemma px_readable : forall shift name fld, shift = 0 \/ shift = 1 -> In (name, fld) (ps_fields px_space) ->
  readable px_space (px_alpha ++ [4%Z]) shift 2 fld.
Proof.
  intros shift name fld HS I i pe HE HD. px_cases I;
    (destruct i as [|[|[|i]]]; simpl in HE; [| | |destruct i; discriminate]; injection HE as <-; simpl in HD; try discriminate;
     (split; [simpl; lia|]; split; [reflexivity|]; split;
      [intros d Hd; simpl in Hd |- *; lia
      |intros nf Hnf; simpl in Hnf; repeat (destruct Hnf as [<-|Hnf]; [do 2 eexists; split; reflexivity|]); destruct Hnf])).
Qed.
Lemma px_shape : forall name fld, In (name, fld) (ps_fields px_space) -> shape_fits 2 fld (px_f name).
Proof.
  intros name fld I. px_cases I.
  - split; [reflexivity|]. simpl. lia.
  - split; [reflexivity|]. simpl. repeat split; try lia. intros pe [<-|[<-|[]]]; simpl; lia.
Qed.
Lemma px_kept : forall skip name fld, In (name, fld) (kept skip (ps_fields px_space)) -> In (name, fld) (ps_fields px_space).
Proof. intros skip name fld I. apply filter_In in I. tauto. Qed.
Lemma px_funs_f : forall name fld, In (name, fld) (ps_fields px_space) -> dget px_funs name = Some (px_f name).
Proof. intros name fld I. px_cases I; reflexivity. Qed.

(** *** Divergence: one triangle, one row of fluxes, determinants 2 and 4 *)
Definition qn (n : Z) : Qc := Q2Qc (inject_Z n).
Definition qgrid (l : list (list (list (list Z)))) (d i k c : nat) : Qc := qn (grid l d i k c).
Definition py_tab : tab Qs := mk_tab (F := Qs) 2 2 2 (qgrid
  [[[[1; 0]; [2; 1]]; [[0; 1]; [1; 1]]]; [[[1; 0]; [2; 4]]; [[1; 0]; [2; 1]]]; [[[5; 1]; [0; 1]]; [[1; 1]; [0; 3]]]]%Z).
Definition py_e : element Qs := mk_element (F := Qs) 2 py_tab (look (qn 0) [qn 2; qn 4]) (fun _ _ _ => qn 0).
Definition py_s : post_field Qs := mk_pf (F := Qs) FBDM 1 [mk_pe (F := Qs) 5 py_e (Ok [1; 0])].
Definition py_space : post_space Qs := mk_ps (F := Qs) [("s"%string, py_s)] [None; None; Some [qn 1; qn 2]; None].
Definition py_alpha : list Qs := [qn 3; qn (-1)].
Definition py_f (_ : string) : exact_fun Qs := mk_exact (F := Qs) 1 1 (fun cell c d i => qn (Z.of_nat (cell + i))).
Definition py_l : exact_fun Qs := mk_exact (F := Qs) 1 1 (fun _ _ _ i => qn (Z.of_nat (i + 2))).
Definition py_g : exact_fun Qs := mk_exact (F := Qs) 3 1 (fun _ d _ i => qn (Z.of_nat (d + i + 1))).
Definition py_funs : dict string (exact_fun Qs) :=
  [("s"%string, py_f "s"); ("div_s"%string, py_f "s"); ("l"%string, py_l); ("grad_l"%string, py_g)].
Definition py_id (x : Qs) : Qs := x.
Definition py_show (r : res (list Qs)) : option (list Q) := match r with Ok l => Some (map (fun x : Qc => this x) l) | Err _ => None end.
Lemma py_names : NoDup (dkeys (ps_fields py_space)).
Proof. repeat constructor; simpl; intuition discriminate. Qed.
Lemma py_fits : forall name fld, In (name, fld) (ps_fields py_space) ->
  readable py_space py_alpha 0 2 fld /\ dget py_funs (String.append "div_" name) = Some (py_f name) /\ x_rows (py_f name) = pf_comp fld /\ div_fits 2 fld.
Proof.
  intros name fld I. px_cases I. split; [|split; [reflexivity|split; [reflexivity|]]].
  - intros i pe HE HD. destruct i as [|i]; [|destruct i; discriminate]. injection HE as <-.
    split; [simpl; lia|]. split; [reflexivity|]. split; [intros d Hd; simpl in Hd |- *; lia|].
    intros nf [<-|[]]. do 2 eexists. split; reflexivity.
  - intros pe [<-|[]]. simpl. lia.
Qed.

(** *** Over the real numbers: one edge, one function *)
Open Scope R_scope.
Definition pr_tab : tab Rs := mk_tab (F := Rs) 1 1 1 (fun _ _ _ _ => 1).
Definition pr_e : element Rs := mk_element (F := Rs) 1 pr_tab (fun _ => 2) (fun _ _ _ => 0).
Definition pr_u : post_field Rs := mk_pf (F := Rs) FLagrange 1 [mk_pe (F := Rs) 0 pr_e (Ok [0%nat])].
Definition pr_w : list Rs := [2].
Definition pr_space : post_space Rs := mk_ps (F := Rs) [("u"%string, pr_u)] [None; Some pr_w; None; None].
Definition pr_f (_ : string) : exact_fun Rs := mk_exact (F := Rs) 1 1 (fun _ _ _ _ => 3).
Definition pr_funs : dict string (exact_fun Rs) := [("u"%string, pr_f "u")].
Lemma pr_names : NoDup (dkeys (ps_fields pr_space)).
Proof. repeat constructor; simpl; intuition discriminate. Qed.
Lemma pr_fits : forall (alpha : list Rs) name fld, length alpha = 1%nat -> In (name, fld) (ps_fields pr_space) ->
  readable pr_space alpha 0 1 fld /\ dget pr_funs name = Some (pr_f name) /\ shape_fits 1 fld (pr_f name) /\ positive 1 pr_w fld.
Proof.
  intros alpha name fld L I. px_cases I. split; [|split; [reflexivity|split]].
  - intros i pe HE HD. destruct i as [|i]; [|destruct i; discriminate]. injection HE as <-.
    split; [simpl; lia|]. split; [reflexivity|]. split; [intros d [<-|[]]; rewrite L; simpl; lia|].
    intros nf [<-|[]]. do 2 eexists. split; reflexivity.
  - split; [reflexivity|]. simpl. lia.
  - split; [intros x [<-|[]]; simpl; lra|]. intros pe i [<-|[]] _. simpl. lra.
Qed.
(** one coefficient a: the error is 2 |3 - a| *)
Lemma pr_error : forall a : Rs, l2_error (F := Rs) sqrt 1 pr_space pr_funs [a] [] = Ok [2 * Rabs (3 - a)].
Proof.
  intros a. cbv -[Rplus Rmult Rminus sqrt Rabs IZR]. do 2 f_equal.
  match goal with |- sqrt ?x = _ => replace x with ((2 * (3 - a)) * (2 * (3 - a))) by ring end.
  fold (Rsqr (2 * (3 - a))). rewrite sqrt_Rsqr_abs, Rabs_mult. rewrite (Rabs_pos_eq 2) by lra. reflexivity.
Qed.
