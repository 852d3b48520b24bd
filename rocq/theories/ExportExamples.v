(** * Concrete cases for the export of solutions *)
From Coq Require Import String List ZArith QArith Qcanon Bool Lia.
From Verif Require Import Base MeshModel MeshSpec MeshProof4 MeshExamples GraphModel CutModel FormModel FormSpec FormExamples AdExamples PostModel PostSpec
  ExportModel ExportSpec ExportProof6.
Import ListNotations.
Open Scope list_scope.
Open Scope nat_scope.

(** The two triangles 0-1-2 (tag 1) and 3-2-1 (tag 2) on the unit square *)
Definition pt : Type := (Qc * Qc)%type.
Definition ev_m : mesh pt := mk_mesh pt ex2 [(q 0, q 0); (q 1, q 0); (q 0, q 1); (q 1, q 1)].
Lemma ev_good : good_points ev_m.
Proof. exact (conformal_points ev_m 4 ex2_blocks ex2_phys ex2_shaped ex2_built ex2_tagged ex2_used ex2_distinct eq_refl). Qed.
Definition ev_centroid (l : list pt) : pt :=
  let k := Qcinv (q (Z.of_nat (length l))) in
  (Qcmult k (fold_right (fun p s => Qcplus (fst p) s) (q 0) l), Qcmult k (fold_right (fun p s => Qcplus (snd p) s) (q 0) l)).
Definition ev_topology (dim : nat) (tags : list (option Z)) : topology :=
  match build_data_on_physical_tags 5 ex2 2 dim tags with Ok t => t | Err _ => mk_topology [] 0 [] [] end.
Definition third : Qc := Qcinv (q 3).

(** "u": continuous, linear; "w": two components, discontinuous; "s": two vector functions *)
Definition ev_tags : list (option Z) := [Some 1%Z; Some 2%Z].
Definition ev_delta (_ k : nat) : tab Qs := mk_tab (F := Qs) 3 2 1 (fun _ _ j _ => if j =? k then q 1 else q 0).
Definition ev_mid (_ : nat) : tab Qs := mk_tab (F := Qs) 3 2 1 (fun _ _ _ _ => third).
Definition ev_s_vertex (_ k : nat) : tab Qs := mk_tab (F := Qs) 2 2 2 (qgrid [[[[Z.of_nat k; 1]; [2; Z.of_nat k]]]]%Z).
Definition ev_s_mid (i : nat) : tab Qs := mk_tab (F := Qs) 2 2 2 (qgrid [[[[1; 0]; [2; Z.of_nat i]]]]%Z).
Definition ev_e (t : tab Qs) : element Qs := mk_element (F := Qs) 2 t (fun _ => q 1) (fun _ _ _ => q 0).
Definition ev_field (fam : fe_family) (comp : nat) (dofs : list (list nat)) (ids : dict nat nat) (t : topology) (v : nat -> nat -> tab Qs)
    (c : nat -> tab Qs) (d : nat) : vtk_field Qs :=
  mk_vf (F := Qs) (mk_pf (F := Qs) fam comp (map (fun l => mk_pe (F := Qs) 0 (ev_e (c 0)) (Ok l)) dofs)) ids t v c d.
Definition ev_ids : dict nat nat := [(9, 0); (10, 1)].
Definition ev_u : vtk_field Qs := ev_field FLagrange 1 [[0; 1; 2]; [3; 2; 1]] ev_ids (ev_topology 2 ev_tags) ev_delta ev_mid 2.
Definition ev_w : vtk_field Qs :=
  ev_field FLagrange 2 [[4; 5; 6; 7; 8; 9]; [10; 11; 12; 13; 14; 15]] ev_ids (ev_topology 2 ev_tags) ev_delta ev_mid 2.
Definition ev_s : vtk_field Qs := ev_field FRT 1 [[16; 17]; [18; 17]] ev_ids (ev_topology 2 ev_tags) ev_s_vertex ev_s_mid 2.
Definition ev_sp : vtk_space Qs := mk_vs (F := Qs) [("u"%string, ev_u); ("w"%string, ev_w); ("s"%string, ev_s)]
  [("u"%string, ev_tags); ("w"%string, ev_tags); ("s"%string, ev_tags)].
Definition ev_alpha : list Qs := map q [1; 2; 3; 4; 1; 5; 2; 6; 3; 7; 8; 1; 9; 2; 10; 3; 2; -1; 4]%Z.
Definition ev_centred : list string := ["s"%string].

Lemma ev_names : NoDup (dkeys (vs_fields ev_sp)).
Proof. repeat constructor; simpl; intuition discriminate. Qed.
Lemma ev_cases : forall i c, cell_at ex2 i c -> c_dim c = 2 -> nth_error ex2 9 = Some (Some c) \/ nth_error ex2 10 = Some (Some c).
Proof.
  intros i c H D. do 11 (destruct i as [|i]; [first [left; exact H|right; exact H|exfalso; injection H as <-; discriminate]|]).
  unfold cell_at in H. simpl in H. destruct i; discriminate.
Qed.
Ltac ev_usable := do 2 eexists; split; [reflexivity|]; split; [reflexivity|]; split; [simpl; lia|]; split; [reflexivity|]; split;
  [intros ? Hd; simpl in Hd |- *; lia
  |intros nf Hnf; simpl in Hnf; repeat (destruct Hnf as [<-|Hnf]; [do 2 eexists; split; reflexivity|]); destruct Hnf].
Ltac ev_carried := intros c n ((i & C1) & C2 & C3) K; destruct (ev_cases i c C1 C2) as [E|E]; injection E as <-; simpl in K;
  repeat (destruct K as [<-|K]); try destruct K.
Lemma ev_fields : forall name fld, In (name, fld) (vs_fields ev_sp) ->
  if in_dec string_dec name ev_centred then on_cells 2 ev_sp ev_alpha fld (tops (m_cells pt ev_m) 2)
  else on_nodes ev_m 2 ev_sp ev_alpha name fld (tags_of ev_sp name).
Proof.
  intros name fld I. simpl in I. destruct I as [I|[I|[I|[]]]]; injection I as <- <-; simpl.
  - split; [|ev_carried; vm_compute; lia]. split; [simpl; lia|]. split; [reflexivity|]. split; [exists 4, 2; vm_compute; reflexivity|].
    ev_carried; ev_usable.
  - split; [|ev_carried; vm_compute; lia]. split; [simpl; lia|]. split; [reflexivity|]. split; [exists 4, 2; vm_compute; reflexivity|].
    ev_carried; ev_usable.
  - split; [simpl; lia|]. intros c K. simpl in K. destruct K as [<-|[<-|[]]]; (split; [ev_usable|vm_compute; lia]).
Qed.
Definition qshow (d : dict string (rows Qs)) : list (string * list (list (option Q))) :=
  map (fun kd => (fst kd, map (map (option_map (fun x : Qc => this x))) (snd kd))) d.

(** Exact functions *)
Definition ev_f_u (x : pt) : arr Qs := Axis1 (F := Qs) 1 (fun _ => Qcplus (fst x) (snd x)).
Definition ev_f_w (x : pt) : arr Qs := Axis2 (F := Qs) (mk_mat (F := Qs) 2 1 (fun r _ => if r =? 0 then fst x else snd x)).
Definition ev_f_s (x : pt) : arr Qs := Axis1 (F := Qs) 2 (fun d => if d =? 0 then snd x else fst x).
Definition ev_funs : dict string (pt -> arr Qs) := [("u"%string, ev_f_u); ("w"%string, ev_f_w); ("s"%string, ev_f_s)].
Definition ev_exact (name : string) (x : pt) (r d : nat) : Qs :=
  if String.eqb name "u" then Qcplus (fst x) (snd x)
  else if String.eqb name "w" then (if r =? 0 then fst x else snd x) else (if d =? 0 then snd x else fst x).
Lemma ev_functions : forall name fld, In (name, fld) (vs_fields ev_sp) ->
  exists f, dget ev_funs name = Some f /\ fits 2 fld f /\ forall x, laid_out 2 fld (f x) (ev_exact name x).
Proof.
  intros name fld I. simpl in I. destruct I as [I|[I|[I|[]]]]; injection I as <- <-; (eexists; split; [reflexivity|]; split; [intros x; reflexivity|]);
    intros x; (split; [reflexivity|]; split; [reflexivity|]; intros; reflexivity).
Qed.
Lemma ev_fields_exact : forall name fld, In (name, fld) (vs_fields ev_sp) -> vf_dim fld <= 3 /\ (exists f, dget ev_funs name = Some f /\ fits 2 fld f) /\
  if in_dec string_dec name ev_centred then on_cells 2 ev_sp ev_alpha fld (tops (m_cells pt ev_m) 2)
  else on_nodes ev_m 2 ev_sp ev_alpha name fld (tags_of ev_sp name).
Proof.
  intros name fld I. split; [simpl in I; destruct I as [I|[I|[I|[]]]]; injection I as <- <-; vm_compute; lia|].
  split; [destruct (ev_functions name fld I) as (f & H1 & H2 & _); exists f; split; assumption|exact (ev_fields name fld I)].
Qed.
Lemma ev_fields_error : forall name fld, In (name, fld) (vs_fields ev_sp) ->
  (exists f, dget ev_funs name = Some f /\ forall x, laid_out 2 fld (f x) (ev_exact name x)) /\
  if in_dec string_dec name ev_centred then on_cells 2 ev_sp ev_alpha fld (tops (m_cells pt ev_m) 2)
  else on_nodes ev_m 2 ev_sp ev_alpha name fld (tags_of ev_sp name).
Proof.
  intros name fld I.
  split; [destruct (ev_functions name fld I) as (f & H1 & _ & H2); exists f; split; assumption|exact (ev_fields name fld I)].
Qed.
Definition ev_front : list (string * vtk_field Qs) := [("u"%string, ev_u); ("w"%string, ev_w)].
Definition ev_sqrt (x : Qs) : Qs := x.

(** Two spaces: "u" on the triangle with tag 1, "v" on the one with tag 2 *)
Definition e1_u : vtk_field Qs := ev_field FLagrange 1 [[0; 1; 2]] [(9, 0)] (ev_topology 2 [Some 1%Z]) ev_delta ev_mid 2.
Definition e1_sp : vtk_space Qs := mk_vs (F := Qs) [("u"%string, e1_u)] [("u"%string, [Some 1%Z])].
Definition e2_v : vtk_field Qs := ev_field FLagrange 1 [[3; 2; 1]] [(10, 0)] (ev_topology 2 [Some 2%Z]) ev_delta ev_mid 2.
Definition e2_sp : vtk_space Qs := mk_vs (F := Qs) [("v"%string, e2_v)] [("v"%string, [Some 2%Z])].
Definition e12_funs : dict string (pt -> arr Qs) := [("u"%string, ev_f_u); ("v"%string, ev_f_u)].
Definition e12 : list (vtk_space Qs) := [e1_sp; e2_sp].
Lemma e12_names : NoDup (dkeys (all_fields e12)).
Proof. repeat constructor; simpl; intuition discriminate. Qed.
Lemma e12_fields : forall sp name fld, In sp e12 -> In (name, fld) (vs_fields sp) -> (exists f, dget e12_funs name = Some f /\ fits 2 fld f) /\
  if in_dec string_dec name ["v"%string] then on_cells 2 sp ev_alpha fld (with_tags_of sp name (tops (m_cells pt ev_m) 2))
  else on_nodes ev_m 2 sp ev_alpha name fld (tags_of sp name).
Proof.
  intros sp name fld I J. simpl in I. destruct I as [<-|[<-|[]]]; destruct J as [J|[]]; injection J as <- <-; (split; [eexists; split; [reflexivity|intros x; reflexivity]|]); simpl.
  - assert (Z : forall c n, carries ex2 e1_u [Some 1%Z] c -> In n (c_nodes c) -> usable e1_sp ev_alpha e1_u c (table_at e1_u c n) /\ shapely 2 e1_u (table_at e1_u c n)).
    { ev_carried; try (exfalso; simpl in C3; destruct C3 as [C3|[]]; discriminate); (split; [ev_usable|vm_compute; lia]). }
    split; [|intros c n X Y; exact (proj2 (Z c n X Y))]. split; [simpl; lia|]. split; [reflexivity|]. split; [exists 4, 2; vm_compute; reflexivity|].
    intros c n X Y; exact (proj1 (Z c n X Y)).
  - split; [simpl; lia|]. intros c K. vm_compute in K. destruct K as [<-|[]]. split; [ev_usable|vm_compute; lia].
Qed.

(** "u" with a field "l" on the lines with tags 6 and 7 *)
Definition el_l : vtk_field Qs := ev_field FLagrange 1 [[0; 1]; [3; 1]] [(6, 0); (7, 1)] (ev_topology 1 [Some 6%Z; Some 7%Z])
  (fun _ k => mk_tab (F := Qs) 2 1 1 (fun _ _ j _ => if j =? k then q 1 else q 0))
  (fun _ => mk_tab (F := Qs) 2 1 1 (fun _ _ _ _ => Qcinv (q 2))) 1.
Definition el_sp : vtk_space Qs := mk_vs (F := Qs) [("u"%string, ev_u); ("l"%string, el_l)] [("u"%string, ev_tags); ("l"%string, [Some 6%Z; Some 7%Z])].
Definition el_funs : dict string (pt -> arr Qs) := [("u"%string, ev_f_u); ("l"%string, ev_f_u)].
Lemma el_names : NoDup (dkeys (vs_fields el_sp)).
Proof. repeat constructor; simpl; intuition discriminate. Qed.
Lemma el_cases : forall i c, cell_at ex2 i c -> c_dim c = 1 -> In (c_mat c) [Some 6%Z; Some 7%Z] -> nth_error ex2 6 = Some (Some c) \/ nth_error ex2 7 = Some (Some c).
Proof.
  intros i c H D T. do 11 (destruct i as [|i]; [first [left; exact H|right; exact H|exfalso; injection H as <-; simpl in D, T; intuition discriminate]|]).
  unfold cell_at in H. simpl in H. destruct i; discriminate.
Qed.
Lemma el_fields : forall name fld, In (name, fld) (vs_fields el_sp) -> vf_dim fld <= 3 /\ (exists f, dget el_funs name = Some f /\ fits 2 fld f) /\
  if in_dec string_dec name [] then on_cells 2 el_sp ev_alpha fld (tops (m_cells pt ev_m) 2) else on_nodes ev_m 2 el_sp ev_alpha name fld (tags_of el_sp name).
Proof.
  intros name fld I. simpl in I. destruct I as [I|[I|[]]]; injection I as <- <-; (split; [vm_compute; lia|]; split; [eexists; split; [reflexivity|intros x; reflexivity]|]); simpl.
  - split; [|ev_carried; vm_compute; lia]. split; [simpl; lia|]. split; [reflexivity|]. split; [exists 4, 2; vm_compute; reflexivity|].
    ev_carried; ev_usable.
  - assert (Z : forall c n, carries ex2 el_l [Some 6%Z; Some 7%Z] c -> In n (c_nodes c) -> usable el_sp ev_alpha el_l c (table_at el_l c n) /\ shapely 2 el_l (table_at el_l c n)).
    { intros c n ((i & C1) & C2 & C3) K; destruct (el_cases i c C1 C2 C3) as [E|E]; injection E as <-; simpl in K; repeat (destruct K as [<-|K]); try destruct K;
        (split; [ev_usable|vm_compute; lia]). }
    split; [|intros c n X Y; exact (proj2 (Z c n X Y))]. split; [simpl; lia|]. split; [reflexivity|]. split; [exists 4, 2; vm_compute; reflexivity|].
    intros c n X Y; exact (proj1 (Z c n X Y)).
Qed.

(** "w" alone, equal to (1, 3) everywhere, and the exact function (1, 3) *)
Definition ew_sp : vtk_space Qs := mk_vs (F := Qs) [("w"%string, ev_w)] [("w"%string, ev_tags)].
Definition ew_alpha : list Qs := map q [0; 0; 0; 0; 1; 3; 1; 3; 1; 3; 1; 3; 1; 3; 1; 3]%Z.
Definition ew_exact (_ : string) (_ : pt) (i : nat) : Qs := if i =? 0 then q 1 else q 3.
Definition ew_funs : dict string (pt -> arr Qs) := [("w"%string, fun x => Axis1 (F := Qs) 2 (ew_exact "w" x))].
Lemma ew_names : NoDup (dkeys (vs_fields ew_sp)).
Proof. repeat constructor; simpl; intuition discriminate. Qed.
Lemma ew_fields : forall name fld, In (name, fld) (vs_fields ew_sp) -> lagrange (vf_post fld) = true /\ comp_of fld <> 1 /\
  dget ew_funs name = Some (fun x => Axis1 (F := Qs) (comp_of fld) (ew_exact name x)) /\
  if in_dec string_dec name [] then on_cells 2 ew_sp ew_alpha fld (tops (m_cells pt ev_m) 2) else on_nodes ev_m 2 ew_sp ew_alpha name fld (tags_of ew_sp name).
Proof.
  intros name fld I. simpl in I. destruct I as [I|[]]; injection I as <- <-; (split; [reflexivity|]; split; [vm_compute; lia|]; split; [reflexivity|]); simpl.
  split; [|ev_carried; vm_compute; lia]. split; [simpl; lia|]. split; [reflexivity|]. split; [exists 4, 2; vm_compute; reflexivity|].
  ev_carried; ev_usable.
Qed.

(** three components on the triangles *)
Definition e3_t : vtk_field Qs := ev_field FLagrange 3 [[0; 1; 2; 3; 4; 5; 6; 7; 8]; [3; 2; 1; 3; 4; 5; 6; 7; 8]] ev_ids (ev_topology 2 ev_tags) ev_delta ev_mid 2.
Definition e3_sp : vtk_space Qs := mk_vs (F := Qs) [("t"%string, e3_t)] [("t"%string, ev_tags)].
Lemma e3_names : NoDup (dkeys (vs_fields e3_sp)).
Proof. repeat constructor; simpl; intuition discriminate. Qed.
Lemma e3_readable : node_readable ev_m e3_sp ev_alpha "t" e3_t (tags_of e3_sp "t").
Proof.
  split; [simpl; lia|]. split; [reflexivity|]. split; [exists 4, 2; vm_compute; reflexivity|]. ev_carried; ev_usable.
Qed.

(** Two components on a line with two cells *)
Definition ek_blocks : list block := [mk_block KLine [[0; 1]; [1; 2]]].
Definition ek_phys : list (list (option Z)) := [[Some 1; Some 1]]%Z.
Definition ek : cells := Eval vm_compute in match build_conformal_mesh 3 ek_blocks ek_phys with Ok cs => cs | Err _ => [] end.
Definition ek_m : mesh Qc := mk_mesh Qc ek [q 0; q 1; q 2].
Lemma ek_good : good_points ek_m.
Proof.
  apply (conformal_points ek_m 3 ek_blocks ek_phys).
  - split; [intros b k row Hb Hk Hr|intros b Hb]; unfold ek_blocks in Hb; blocks_in; simpl in *; [inversion Hk; subst; blocks_in; reflexivity|discriminate].
  - vm_compute. reflexivity.
  - repeat constructor.
  - intros i Hi. do 3 (destruct i as [|i]; [solve [eexists 1, [0; 1], _; simpl; intuition | eexists 1, [1; 2], _; simpl; intuition]|]). lia.
  - intros b row Hb Hr. unfold ek_blocks in Hb. blocks_in. simpl in Hr. blocks_in; nodup.
  - reflexivity.
Qed.
Definition ek_u : vtk_field Qs := ev_field FLagrange 2 [[0; 1; 2; 3]; [2; 3; 4; 5]] [(3, 0); (4, 1)]
  (match build_data_on_physical_tags 5 ek 1 1 [Some 1%Z] with Ok t => t | Err _ => mk_topology [] 0 [] [] end)
  (fun _ k => mk_tab (F := Qs) 2 1 1 (fun _ _ j _ => if j =? k then q 1 else q 0))
  (fun _ => mk_tab (F := Qs) 2 1 1 (fun _ _ _ _ => Qcinv (q 2))) 1.
Definition ek_sp : vtk_space Qs := mk_vs (F := Qs) [("u"%string, ek_u)] [("u"%string, [Some 1%Z])].
Definition ek_alpha : list Qs := map q [1; 7; 2; 8; 3; 9]%Z.
Lemma ek_readable : node_readable ek_m ek_sp ek_alpha "u" ek_u (tags_of ek_sp "u").
Proof.
  split; [simpl; lia|]. split; [reflexivity|]. split; [exists 4, 1; vm_compute; reflexivity|].
  intros c n ((i & C1) & C2 & C3) K. simpl in C2. do 5 (destruct i as [|i]; [injection C1 as <-; try discriminate; simpl in K; repeat (destruct K as [<-|K]); try destruct K; ev_usable|]).
  unfold cell_at in C1. simpl in C1. destruct i; discriminate.
Qed.

Lemma q_dec : forall x y : Q, {x = y} + {x <> y}.
Proof. decide equality; [apply Pos.eq_dec|apply Z.eq_dec]. Defined.
Lemma shown_dec : forall x y : string * list (list (option Q)), {x = y} + {x <> y}.
Proof.
  decide equality; [|apply string_dec]. apply list_eq_dec. apply list_eq_dec. decide equality. apply q_dec.
Defined.
(** What a file shows *)
Definition file_shows (r : res (vtk_file Qs)) (cs : list (list nat)) (p c : list (string * list (list (option Q)))) : bool :=
  match r with
  | Err _ => false
  | Ok f => if list_eq_dec (list_eq_dec Nat.eq_dec) (vk_cells f) cs then
              if list_eq_dec shown_dec (qshow (vk_point f)) p then if list_eq_dec shown_dec (qshow (vk_cell f)) c then true else false else false
            else false
  end.
Lemma file_shows_ok : forall r cs p c, file_shows r cs p c = true ->
  exists file, r = Ok file /\ vk_cells file = cs /\ qshow (vk_point file) = p /\ qshow (vk_cell file) = c.
Proof.
  intros r cs p c H. unfold file_shows in H. destruct r as [f|]; [|discriminate]. exists f. split; [reflexivity|].
  repeat match type of H with (if ?d then _ else _) = true => destruct d; [|discriminate] end. repeat split; assumption.
Qed.
Definition failing (r : res (vtk_file Qs)) : option err := match r with Ok _ => None | Err e => Some e end.
Lemma failing_ok : forall r e, failing r = Some e -> r = Err e.
Proof. intros [f|e'] e H; [discriminate|]. injection H as ->. reflexivity. Qed.

(** Results *)
Lemma ev_case : good_points ev_m /\ NoDup (dkeys (vs_fields ev_sp)) /\
  (forall name fld, In (name, fld) (vs_fields ev_sp) ->
     if in_dec string_dec name ev_centred then on_cells 2 ev_sp ev_alpha fld (tops (m_cells pt ev_m) 2)
     else on_nodes ev_m 2 ev_sp ev_alpha name fld (tags_of ev_sp name)) /\
  exists file, write_vtk_file ev_m 2 ev_sp ev_alpha ev_centred = Ok file /\ vk_cells file = [[0; 1; 2]; [3; 2; 1]] /\
    qshow (vk_point file) = [("u_h"%string, [[Some 1]; [Some 2]; [Some 3]; [Some 4]]);
      ("w_h"%string, [[Some 1; Some 5]; [Some 6; Some (9 # 2)]; [Some 6; Some (9 # 2)]; [Some 8; Some 1]])]%Q /\
    qshow (vk_cell file) = [("s_h"%string, [[Some 0; Some 0]; [Some 2; Some (-1)]])]%Q.
Proof.
  split; [exact ev_good|]. split; [exact ev_names|]. split; [exact ev_fields|]. apply file_shows_ok. vm_compute. reflexivity.
Qed.
Lemma ev_tag_s : dget (vs_tags ev_sp) "s"%string <> None.
Proof. discriminate. Qed.
Lemma ev_same_cells : with_tags (m_cells pt ev_m) (tags_of ev_sp "s") = tops (m_cells pt ev_m) 2.
Proof. vm_compute. reflexivity. Qed.
Lemma e12_case : NoDup (dkeys (all_fields e12)) /\
  (forall sp name fld, In sp e12 -> In (name, fld) (vs_fields sp) -> (exists f, dget e12_funs name = Some f /\ fits 2 fld f) /\
     if in_dec string_dec name ["v"%string] then on_cells 2 sp ev_alpha fld (with_tags_of sp name (tops (m_cells pt ev_m) 2))
     else on_nodes ev_m 2 sp ev_alpha name fld (tags_of sp name)) /\
  exists file, write_fe_spaces ev_centroid ev_m 2 e12 e12_funs ev_alpha ["v"%string] = Ok file /\
    qshow (vk_point file) = [("u_h"%string, [[Some 1]; [Some 2]; [Some 3]; [None]]); ("u_e"%string, [[Some 0]; [Some 1]; [Some 1]; [None]])]%Q /\
    qshow (vk_cell file) = [("v_h"%string, [[None]; [Some 3]]); ("v_e"%string, [[None]; [Some (4 # 3)]])]%Q.
Proof. split; [exact e12_names|]. split; [exact e12_fields|]. destruct (file_shows_ok (write_fe_spaces ev_centroid ev_m 2 e12 e12_funs ev_alpha ["v"%string]) [[0; 1; 2]; [3; 2; 1]]
  [("u_h"%string, [[Some 1]; [Some 2]; [Some 3]; [None]]); ("u_e"%string, [[Some 0]; [Some 1]; [Some 1]; [None]])]%Q
  [("v_h"%string, [[None]; [Some 3]]); ("v_e"%string, [[None]; [Some (4 # 3)]])]%Q) as (file & E & _ & H); [vm_compute; reflexivity|]. exists file. exact (conj E H). Qed.
Lemma ev_error_case : exists file, write_pointwise_l2_error ev_centroid ev_sqrt ev_m 2 ev_sp ev_funs ev_alpha ev_centred = Ok file /\
    qshow (vk_point file) = [("u_error"%string, [[Some 1]; [Some 1]; [Some 4]; [Some 4]]);
      ("w_error"%string, [[Some 26]; [Some (181 # 4)]; [Some (193 # 4)]; [Some 49]])]%Q /\
    qshow (vk_cell file) = [("s_error"%string, [[Some (2 # 9)]; [Some (41 # 9)]])]%Q.
Proof. destruct (file_shows_ok (write_pointwise_l2_error ev_centroid ev_sqrt ev_m 2 ev_sp ev_funs ev_alpha ev_centred) [[0; 1; 2]; [3; 2; 1]]
  [("u_error"%string, [[Some 1]; [Some 1]; [Some 4]; [Some 4]]);
      ("w_error"%string, [[Some 26]; [Some (181 # 4)]; [Some (193 # 4)]; [Some 49]])]%Q
  [("s_error"%string, [[Some (2 # 9)]; [Some (41 # 9)]])]%Q) as (file & E & _ & H); [vm_compute; reflexivity|]. exists file. exact (conj E H). Qed.
Lemma ev_exact_only : exists file, write_exact_solution ev_m 2 [("w"%string, 2); ("u"%string, 1)] ev_funs = Ok file /\
  qshow (vk_point file) = [("w_e"%string, [[Some 0; Some 0]; [Some 1; Some 0]; [Some 0; Some 1]; [Some 1; Some 1]]);
    ("u_e"%string, [[Some 0]; [Some 1]; [Some 1]; [Some 2]])]%Q.
Proof. destruct (file_shows_ok (write_exact_solution ev_m 2 [("w"%string, 2); ("u"%string, 1)] ev_funs) [[0; 1; 2]; [3; 2; 1]]
  [("w_e"%string, [[Some 0; Some 0]; [Some 1; Some 0]; [Some 0; Some 1]; [Some 1; Some 1]]);
    ("u_e"%string, [[Some 0]; [Some 1]; [Some 1]; [Some 2]])]%Q
  []) as (file & E & _ & H & _); [vm_compute; reflexivity|]. exists file. exact (conj E H). Qed.
Lemma ev_failing : node_readable ev_m e3_sp ev_alpha "t" e3_t (tags_of e3_sp "t") /\ comp_of e3_t = 3 /\
  write_vtk_file ev_m 2 e3_sp ev_alpha [] = Err ValueError /\
  write_vtk_file ev_m 2 e1_sp ev_alpha ["u"%string] = Err KeyError /\
  write_vtk_file ev_m 2 (mk_vs (F := Qs) [("u"%string, ev_u)] []) ev_alpha [] = Err KeyError /\
  write_vtk_file_with_exact_solution ev_centroid ev_m 2 ev_sp e12_funs ev_alpha [] = Err KeyError /\
  write_vtk_file_with_exact_solution ev_centroid ev_m 2 (mk_vs (F := Qs) [] []) e12_funs ev_alpha [] = Err NameError.
Proof. split; [exact e3_readable|]. split; [reflexivity|]. repeat split; apply failing_ok; vm_compute; reflexivity. Qed.
