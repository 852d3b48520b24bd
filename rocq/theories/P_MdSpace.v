(** * Property: mixed-dimensional product spaces (src/spaces/md_product_space.py, MDProductSpace) *)
From Coq Require Import List Arith ZArith Bool.
From Verif Require Import Base MeshModel MeshExamples GraphModel DofModel SpaceModel SpaceSpec SpaceExamples MdSpaceModel MdSpaceProof MdSpaceExamples.
Import ListNotations.

(** ** C107 *)
Theorem C107_constructor : forall (T : Type) (products : list T),
  (length products <= 3 -> exists o, new_md products = Ok o /\ md_products o = products /\ md_order o = None /\ md_spaces o = None /\ md_dofs o = None /\ md_n o = None) /\
  (3 < length products -> new_md products = Err ValueError).
Proof. exact @new_lemma. Qed.
Print Assumptions C107_constructor.
Example C107_constructor_example : new_md [5; 6; 7] = Ok (mk_md [5; 6; 7] None None None None None None) /\ new_md [5; 6; 7; 8] = Err ValueError.
Proof. split; reflexivity. Qed.

Theorem C107_quadrature : forall (T : Type) (o : md T) (fields : dict nat field), fields <> [] -> (forall n f, In (n, f) fields -> 1 <= f_dim f <= 3) ->
  exists o' k q b, md_define_quadrature o fields = (o', Ok tt) /\ md_order o' = Some (2 * k + 1) /\
    (forall n f, In (n, f) fields -> f_order f <= k) /\ (exists n f, In (n, f) fields /\ f_order f = k) /\
    md_quadrature o' = Some q /\ md_bc_quadrature o' = Some b /\ length q = 4 /\ length b = 4 /\
    forall e, e < 4 ->
      ((exists n f, In (n, f) fields /\ f_dim f = e) -> nth_error q e = Some (rule_for e (2 * k + 1))) /\
      (~ (exists n f, In (n, f) fields /\ f_dim f = e) -> nth_error q e = Some None) /\
      ((exists n f, In (n, f) fields /\ f_dim f = S e) -> nth_error b e = Some (rule_for e (2 * k + 1))) /\
      (~ (exists n f, In (n, f) fields /\ f_dim f = S e) -> nth_error b e = Some None).
Proof. exact @quadrature_lemma. Qed.
Print Assumptions C107_quadrature.
Example C107_quadrature_example : exists o', md_define_quadrature md_example md_fields = (o', Ok tt) /\ md_order o' = Some 5 /\
  md_quadrature o' = Some [None; Some (QBasix CInterval 5); None; Some (QBasix CTetrahedron 5)] /\
  md_bc_quadrature o' = Some [Some QPoint; None; Some (QBasix CTriangle 5); None].
Proof. eexists. repeat split; reflexivity. Qed.

(** False as stated with a field of dimension 0: the second loop asks for the cell type of
    dimension -1. *)
Theorem C107_dimension_zero_refuted : forall (T : Type) (o : md T) (fields : dict nat field),
  (forall n f, In (n, f) fields -> f_dim f <= 3) -> (exists n f, In (n, f) fields /\ f_dim f = 0) ->
  snd (md_define_quadrature o fields) = Err KeyError.
Proof. exact @quadrature_zero_lemma. Qed.
Print Assumptions C107_dimension_zero_refuted.
Example C107_dimension_zero_example : snd (md_define_quadrature md_example md_fields_zero) = Err KeyError.
Proof. reflexivity. Qed.

(** No discrete space can be defined, the class not being imported ... *)
Theorem C107_spaces_refuted : forall (T : Type) (o : md T) (fields : dict nat field), fields <> [] ->
  snd (md_define_spaces o fields) = Err NameError /\ md_spaces (fst (md_define_spaces o fields)) = Some [].
Proof. exact @spaces_refuted. Qed.
Print Assumptions C107_spaces_refuted.
Example C107_spaces_example : (forall n f, In (n, f) md_fields -> exists s, new_space (f_cells f) (f_mesh_dim f) (f_dim f) (f_comps f) (f_layout f) = Ok s) /\
  snd (md_define_spaces (fst (md_define_quadrature md_example md_fields)) md_fields) = Err NameError.
Proof. exact (conj md_fields_fine eq_refl). Qed.

(** ... so whichever methods are called, in whichever order, no destination is ever returned. *)
Theorem C107_never : forall (T : Type) products (o : md T) calls i, new_md products = Ok o ->
  let o' := perform_all o calls in
  ((exists fields, In (DefineSpaces fields) calls) /\ In DefineDofs calls ->
     md_destinations o' i = Ok [] /\ md_bc_destinations o' i = Ok [] /\ md_destination_indexes o' i = Err ValueError /\ md_bc_destination_indexes o' i = Err ValueError) /\
  (~ ((exists fields, In (DefineSpaces fields) calls) /\ In DefineDofs calls) ->
     md_destinations o' i = Err AttributeError /\ md_bc_destinations o' i = Err AttributeError /\
     md_destination_indexes o' i = Err AttributeError /\ md_bc_destination_indexes o' i = Err AttributeError) /\
  (md_n o' = None \/ md_n o' = Some 0%Z).
Proof. exact @never_lemma. Qed.
Print Assumptions C107_never.
Example C107_never_example :
  md_destination_indexes (perform_all md_example [DefineQuadrature md_fields; DefineSpaces md_fields; DefineDofs; DefineN]) 0 = Err ValueError /\
  md_n (perform_all md_example [DefineQuadrature md_fields; DefineSpaces md_fields; DefineDofs; DefineN]) = Some 0%Z /\
  md_destination_indexes (perform_all md_example [DefineQuadrature md_fields; DefineDofs]) 0 = Err AttributeError.
Proof. repeat split; reflexivity. Qed.
