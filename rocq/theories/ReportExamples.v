(** * Data for the examples of C110 *)
From Coq Require Import String List Arith ZArith Bool.
From Verif Require Import Base MeshModel MeshExamples ReportModel ReportSpec.
Import ListNotations.
Open Scope string_scope.
Open Scope list_scope.

Definition ex2_cells : list cell := flat_map (fun s : option cell => match s with Some c => [c] | None => [] end) ex2.
Definition ex2_points : list (list nat) := [[0; 0; 0]; [1; 0; 0]; [1; 1; 0]; [0; 1; 0]].
Definition ex2_lines : nat := Eval vm_compute in length (fst (write_data (fun _ => "Unnamed") ex2_points ex2)).
Lemma ex2_report : ex2 = map Some ex2_cells /\ (exists c, In c ex2_cells /\ is_tagged c) /\
  nth_error (fst (write_data (fun _ => "Unnamed") ex2_points ex2)) 8 = Some [Text "tag: "; Num 0; Text " "; Coord 0; Coord 0; Coord 0] /\
  snd (write_data (fun _ => "Unnamed") ex2_points ex2) = Ok tt.
Proof.
  split; [vm_compute; reflexivity|]. split; [|split; vm_compute; reflexivity].
  assert (E : exists c, find tagged ex2_cells = Some c) by (eexists; vm_compute; reflexivity).
  destruct E as [c E]. apply find_some in E as [H T]. exists c. split; [assumption|]. unfold tagged in T. unfold is_tagged.
  destruct (c_mat c) as [t|]; [now exists t|discriminate].
Qed.
