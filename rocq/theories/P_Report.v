(** * Property: the report of a mesh (src/mesh/mesh.py:377-425) *)
From Coq Require Import String List Arith ZArith Bool Lia.
From Verif Require Import Base MeshModel MeshSpec MeshExamples GraphModel ReportModel ReportSpec ReportProof ReportExamples.
Import ListNotations.
Open Scope string_scope.
Open Scope list_scope.
Open Scope nat_scope.

(** ** C110 *)
Theorem C110_report : forall (X : Type) (physical_name : cell -> string) (points : list (list X)) (l : list cell),
  (exists c, In c l /\ is_tagged c) ->
  exists lines, write_data physical_name points (map Some l) = (lines, Ok tt) /\
    (exists a, nth_error lines 1 = Some [Text "Min entity dimension: "; Num a] /\ least a (fun n => exists c, In c l /\ c_dim c = n)) /\
    (exists a, nth_error lines 2 = Some [Text "Max entity dimension: "; Num a] /\ greatest a (fun n => exists c, In c l /\ c_dim c = n)) /\
    (exists a, nth_error lines 3 = Some [Text "Min entity dimension with physical tag: "; Num a] /\ least a (fun n => exists c, In c l /\ is_tagged c /\ c_dim c = n)) /\
    (exists a, nth_error lines 4 = Some [Text "Max entity dimension with physical tag: "; Num a] /\ greatest a (fun n => exists c, In c l /\ is_tagged c /\ c_dim c = n)) /\
    nth_error lines 7 = Some [Text "Number_of_points: "; Num (length points)] /\
    (forall i p, nth_error points i = Some p -> nth_error lines (8 + i) = Some (Text "tag: " :: Num i :: Text " " :: map Coord p)) /\
    nth_error lines (10 + length points) = Some [Text "Number_of_cells: "; Num (length l)] /\
    exists sections, skipn (11 + length points) lines = concat sections /\ length sections = length l /\
      forall k c, nth_error l k = Some c -> exists s, nth_error sections k = Some s /\ section_of physical_name c s.
Proof. exact @report_lemma. Qed.
Print Assumptions C110_report.
Example C110_report_example : ex2 = map Some ex2_cells /\ (exists c, In c ex2_cells /\ is_tagged c) /\
  nth_error (fst (write_data (fun _ => "Unnamed") ex2_points ex2)) 8 = Some [Text "tag: "; Num 0; Text " "; Coord 0; Coord 0; Coord 0] /\
  snd (write_data (fun _ => "Unnamed") ex2_points ex2) = Ok tt.
Proof. exact ex2_report. Qed.

(** Meshes with the same report are the same. *)
Theorem C110_faithful : forall (X : Type) (physical_name : cell -> string) (points : list (list X)) cs points' cs' lines,
  write_data physical_name points cs = (lines, Ok tt) -> write_data physical_name points' cs' = (lines, Ok tt) ->
  points = points' /\ cs = cs'.
Proof. exact @faithful_lemma. Qed.
Print Assumptions C110_faithful.
Example C110_faithful_example : exists lines, write_data (fun _ => "Unnamed") ex2_points ex2 = (lines, Ok tt) /\ length lines = ex2_lines.
Proof. eexists. split; [vm_compute; reflexivity|reflexivity]. Qed.

(** Without any physical tag the report stops before the points. *)
Theorem C110_untagged_refuted : forall (X : Type) (physical_name : cell -> string) (points : list (list X)) l,
  l <> [] -> (forall c, In c l -> c_mat c = None) ->
  exists a b, write_data physical_name points (map Some l) =
    ([ [Text "Dimension data"]; [Text "Min entity dimension: "; Num a]; [Text "Max entity dimension: "; Num b] ], Err ValueError).
Proof. exact @untagged_lemma. Qed.
Print Assumptions C110_untagged_refuted.
Example C110_untagged_example : write_data (fun _ => "Unnamed") [[5]; [6]] [Some (mk_cell 0 0 [1] None [[0]])] =
  ([ [Text "Dimension data"]; [Text "Min entity dimension: "; Num 0]; [Text "Max entity dimension: "; Num 0] ], Err ValueError).
Proof. reflexivity. Qed.

(** With a point in no element of the file the report is empty, and what the file held is lost. *)
Theorem C110_unused_refuted : forall (X : Type) (physical_name : cell -> string) (points : list (list X)) np blocks physical cs i,
  well_shaped blocks -> build_conformal_mesh np blocks physical = Ok cs -> fully_tagged blocks physical ->
  i < length cs -> i < np -> (forall d row t, In (d, row, t) (input_rows blocks physical) -> d <= 3 -> ~ In i row) ->
  write_data physical_name points cs = ([], Err AttributeError).
Proof. exact @unused_lemma. Qed.
Print Assumptions C110_unused_refuted.
Example C110_unused_example : exists cs, well_shaped exh_blocks /\ fully_tagged exh_blocks exh_phys /\
  build_conformal_mesh 4 exh_blocks exh_phys = Ok cs /\ 3 < length cs /\
  (forall d row t, In (d, row, t) (input_rows exh_blocks exh_phys) -> d <= 3 -> ~ In 3 row) /\
  write_data (fun _ => "Unnamed") [[0]; [1]; [2]; [3]] cs = ([], Err AttributeError).
Proof.
  eexists. split; [exact exh_shaped|]. split; [exact exh_tagged|]. split; [vm_compute; reflexivity|].
  split; [simpl; lia|]. split; [|reflexivity]. cbn. intros d row t H _. repeat destruct H as [H|H]; inversion H; subst; cbn; lia.
Qed.
