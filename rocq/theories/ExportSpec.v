(** * Vocabulary for the statements about the export of solutions *)
From Coq Require Import String List Arith Bool ZArith.
From Verif Require Import Base MeshModel MeshSpec GraphModel CutModel FormModel FormSpec PostModel PostSpec ExportModel.
Import ListNotations.
Open Scope list_scope.
Open Scope nat_scope.

(** Each cell lists, as its sub-cells of dimension 0, the vertices at its nodes; these are
    different, there is one vertex per node, and nodes are points of the mesh *)
Definition vertex_mesh (np : nat) (cs : cells) : Prop :=
  (forall i c, cell_at cs i c -> NoDup (c_nodes c) /\
     (forall v cv, In v (nth 0 (c_sub c) []) -> cell_at cs v cv -> exists n, c_nodes cv = [n] /\ In n (c_nodes c) /\ n < np) /\
     (forall n, In n (c_nodes c) -> exists v cv, In v (nth 0 (c_sub c) []) /\ cell_at cs v cv /\ c_nodes cv = [n])) /\
  (forall v w cv cw, cell_at cs v cv -> cell_at cs w cw -> c_dim cv = 0 -> c_dim cw = 0 -> c_nodes cv = c_nodes cw -> v = w).

(** The cells of dimension [dim] in order; those with one of the tags *)
Definition is_cell (s : option cell) : list cell := match s with Some c => [c] | None => [] end.
Definition tops (cs : cells) (dim : nat) : list cell := filter (fun c => Nat.eqb (c_dim c) dim) (flat_map is_cell cs).
Definition with_tags (cs : cells) (tags : list (option Z)) : list cell :=
  filter (fun c => if in_dec eq_dec (c_mat c) tags then true else false) (flat_map is_cell cs).

(** The position of a node *)
Fixpoint place (n : nat) (l : list nat) : nat :=
  match l with [] => 0 | x :: l => if Nat.eqb x n then 0 else S (place n l) end.

Definition names_of {V} (centred : list string) (inside : bool) (l : list (string * V)) : list (string * V) :=
  filter (fun nf => if in_dec string_dec (fst nf) centred then inside else negb inside) l.

(** The arrays of a list of fields, in order, with the given endings of their names *)
Fixpoint holds {V R} (endings : list string) (Q : string -> V -> list R -> Prop) (fields : list (string * V)) (d : dict string R) : Prop :=
  match fields with
  | [] => d = []
  | nf :: fields => exists rs rest, length rs = length endings /\
      d = map (fun er => (String.append (fst nf) (fst er), snd er)) (combine endings rs) ++ rest /\ Q (fst nf) (snd nf) rs /\ holds endings Q fields rest
  end.

Section ExportSpec.
  Context {F : scalar} {P : Type}.
  Local Open Scope num_scope.

  Definition comp_of (fld : vtk_field F) : nat := pf_comp (vf_post fld).
  Definition elements_of (fld : vtk_field F) : list (post_element F) := pf_elements (vf_post fld).
  (** the number of entries of a component *)
  Definition entries (dim : nat) (fld : vtk_field F) : nat := dirs_of dim (vf_post fld).
  Definition width (dim : nat) (fld : vtk_field F) : nat := (comp_of fld * entries dim fld)%nat.

  (** The discrete function at the point of a table: component [c], entry [d] *)
  Definition at_point (alpha : list F) (m : nat) (pe : post_element F) (t : tab F) (c d : nat) : F :=
    Sum (t_nphi t) (fun k => coefficient alpha 0 m pe k c * t_val t 0 0 k d).
  (** The element of a cell; the discrete function at a node of the cell and at its centre *)
  Definition element_of (fld : vtk_field F) (c : cell) : nat :=
    match dget (vf_ids fld) (c_id c) with Some i => i | None => 0%nat end.
  Definition value_in (alpha : list F) (fld : vtk_field F) (c : cell) (t : tab F) (r d : nat) : F :=
    match nth_error (elements_of fld) (element_of fld c) with
    | Some pe => at_point alpha (comp_of fld) pe t r d
    | None => k0
    end.
  Definition table_at (fld : vtk_field F) (c : cell) (n : nat) : tab F := vf_vertex fld (element_of fld c) (place n (c_nodes c)).
  Definition vertex_value (alpha : list F) (fld : vtk_field F) (n : nat) (c : cell) : nat -> nat -> F :=
    value_in alpha fld c (table_at fld c n).
  Definition centre_value (alpha : list F) (fld : vtk_field F) (c : cell) : nat -> nat -> F :=
    value_in alpha fld c (vf_centre fld (element_of fld c)).

  Definition count (n : nat) : F := Sum n (fun _ => k1).
  Definition mean (l : list F) : F := total l * kinv (count (length l)).
  (** The entries of a value in order *)
  Definition flat (rows cols : nat) (v : nat -> nat -> F) : list (option F) :=
    flat_map (fun r => map (fun d => Some (v r d)) (seq 0 cols)) (seq 0 rows).
  Definition values_of (a : arr F) : list (option F) :=
    match a with Axis1 n f => map (fun i => Some (f i)) (seq 0 n) | Axis2 m => flat (mt_rows m) (mt_cols m) (mt_val m) end.

  (** The cells of a field around a node: of the dimension of the field and with one of its tags *)
  Definition carries (cs : cells) (fld : vtk_field F) (tags : list (option Z)) (c : cell) : Prop :=
    (exists i, cell_at cs i c) /\ c_dim c = vf_dim fld /\ In (c_mat c) tags.
  Definition around (cs : cells) (fld : vtk_field F) (tags : list (option Z)) (n : nat) (adj : list cell) : Prop :=
    NoDup adj /\ forall c, In c adj <-> carries cs fld tags c /\ In n (c_nodes c).

  (** An array on the points: at a node of a cell of the field the mean of the discrete function
      over the cells around it, elsewhere [blank] *)
  Definition node_rows (m : mesh P) (fld : vtk_field F) (tags : list (option Z)) (blank : list (option F))
      (row : nat -> list cell -> list (option F)) (data : rows F) : Prop :=
    length data = length (m_points P m) /\
    forall n, n < length (m_points P m) -> exists adj, around (m_cells P m) fld tags n adj /\
      nth_error data n = Some (match adj with [] => blank | _ => row n adj end).
  Definition averages (dim : nat) (alpha : list F) (fld : vtk_field F) (n : nat) (adj : list cell) : list (option F) :=
    flat (comp_of fld) (entries dim fld) (fun r d => mean (map (fun c => vertex_value alpha fld n c r d) adj)).
  Definition exact_at (m : mesh P) (f : P -> arr F) (n : nat) : list (option F) :=
    match nth_error (m_points P m) n with Some x => values_of (f x) | None => [] end.
  Definition centre_rows (dim : nat) (alpha : list F) (fld : vtk_field F) (c : cell) : list (option F) :=
    flat (comp_of fld) (entries dim fld) (centre_value alpha fld c).
  Definition nodes_of (m : mesh P) (c : cell) : list P :=
    flat_map (fun n => match nth_error (m_points P m) n with Some x => [x] | None => [] end) (c_nodes c).

  (** The coefficients on a cell can be read with table [t] *)
  Definition usable (sp : vtk_space F) (alpha : list F) (fld : vtk_field F) (c : cell) (t : tab F) : Prop :=
    exists i pe, dget (vf_ids fld) (c_id c) = Some i /\ nth_error (elements_of fld) i = Some pe /\
      0 < t_nphi t /\ length (dofs_of pe) = (t_nphi t * comp_of fld)%nat /\ (forall d, In d (dofs_of pe) -> d < length alpha) /\
      forall nf, In nf (vs_fields sp) -> exists e d, nth_error (elements_of (snd nf)) i = Some e /\ pe_dest e = Ok d.
  (** Lagrange fields have at most [dim] components; the functions of the others have [dim]
      entries *)
  Definition shapely (dim : nat) (fld : vtk_field F) (t : tab F) : Prop :=
    if lagrange (vf_post fld) then comp_of fld <= dim else 0 < comp_of fld /\ dim <= t_vs t.

  (** A field built on the cells with the tags given for it, whose coefficients at nodes can be
      read *)
  Definition node_readable (m : mesh P) (sp : vtk_space F) (alpha : list F) (name : string) (fld : vtk_field F)
      (tags : list (option Z)) : Prop :=
    0 < vf_dim fld /\ dget (vs_tags sp) name = Some tags /\
    (exists fuel mesh_dim, build_data_on_physical_tags (S fuel) (m_cells P m) mesh_dim (vf_dim fld) tags = Ok (vf_topology fld)) /\
    forall c n, carries (m_cells P m) fld tags c -> In n (c_nodes c) -> usable sp alpha fld c (table_at fld c n).
  Definition on_nodes (m : mesh P) (dim : nat) (sp : vtk_space F) (alpha : list F) (name : string) (fld : vtk_field F)
      (tags : list (option Z)) : Prop :=
    node_readable m sp alpha name fld tags /\
    forall c n, carries (m_cells P m) fld tags c -> In n (c_nodes c) -> shapely dim fld (table_at fld c n).
  Definition tags_of (sp : vtk_space F) (name : string) : list (option Z) :=
    match dget (vs_tags sp) name with Some l => l | None => [] end.
  (** A field whose values at the centres of the given cells can be read *)
  Definition on_cells (dim : nat) (sp : vtk_space F) (alpha : list F) (fld : vtk_field F) (cs : list cell) : Prop :=
    0 < vf_dim fld /\
    forall c, In c cs -> usable sp alpha fld c (vf_centre fld (element_of fld c)) /\ shapely dim fld (vf_centre fld (element_of fld c)).

  Definition good_points (m : mesh P) : Prop :=
    closed_mesh (m_cells P m) /\ self_incident (m_cells P m) /\ vertex_mesh (length (m_points P m)) (m_cells P m).

  (** The exact function has as many entries as the field; as an array it is laid out as the
      discrete value: one row per component *)
  Definition fits (dim : nat) (fld : vtk_field F) (f : P -> arr F) : Prop :=
    forall x, length (values_of (f x)) = width dim fld.
  Definition laid_out (dim : nat) (fld : vtk_field F) (a : arr F) (v : nat -> nat -> F) : Prop :=
    match a with
    | Axis1 n f => comp_of fld = 1 /\ n = entries dim fld /\ forall d, v 0 d = f d
    | Axis2 m => mt_rows m = comp_of fld /\ mt_cols m = entries dim fld /\ forall r d, v r d = mt_val m r d
    end.
  (** The sum of the squared differences *)
  Definition distance2 (rows cols : nat) (u v : nat -> nat -> F) : F :=
    Sum rows (fun r => Sum cols (fun d => (u r d - v r d) * (u r d - v r d))).
  (** For a Lagrange field and an array of one axis: the sum over all pairs of entries *)
  Definition pairs2 (n rows : nat) (f : nat -> F) (v : nat -> nat -> F) : F :=
    Sum rows (fun r => Sum n (fun d => (f d - v r 0%nat) * (f d - v r 0%nat))).
  (** The pointwise error at a node, for a distance [D]; the exact function at the centre of a cell; rows given for
      the cells with a tag of the field only *)
  Definition error_row (m : mesh P) (alpha : list F) (fld : vtk_field F) (D : P -> (nat -> nat -> F) -> F)
      (n : nat) (adj : list cell) : list (option F) :=
    match nth_error (m_points P m) n with
    | Some x => [Some (D x (fun r d => mean (map (fun c => vertex_value alpha fld n c r d) adj)))]
    | None => []
    end.
  Definition exact_row (centroid : list P -> P) (m : mesh P) (f : P -> arr F) (c : cell) : list (option F) := values_of (f (centroid (nodes_of m c))).
  Definition nan_rows (sp : vtk_space F) (name : string) (dim : nat) (fld : vtk_field F) (row : cell -> list (option F)) (c : cell)
      : list (option F) :=
    if in_dec eq_dec (c_mat c) (tags_of sp name) then row c else repeat None (width dim fld).
  Definition with_tags_of (sp : vtk_space F) (name : string) (cs : list cell) : list cell :=
    filter (fun c => if in_dec eq_dec (c_mat c) (tags_of sp name) then true else false) cs.
  (** What a file holds of a field: on cells ([b]) the values at the centres, on points the means;
      the same with the exact function *)
  Definition h_of (m : mesh P) (dim : nat) (sp : vtk_space F) (alpha : list F) (b : bool) (name : string) (fld : vtk_field F) (rs : list (rows F)) : Prop :=
    if b then rs = [map (centre_rows dim alpha fld) (tops (m_cells P m) dim)]
    else exists data, rs = [data] /\ node_rows m fld (tags_of sp name) (repeat (Some k0) (width dim fld)) (averages dim alpha fld) data.
  Definition he_of (centroid : list P -> P) (m : mesh P) (dim : nat) (sp : vtk_space F) (functions : dict string (P -> arr F)) (alpha : list F) (b : bool) (name : string) (fld : vtk_field F) (rs : list (rows F)) : Prop :=
    exists f, dget functions name = Some f /\
    if b then rs = [map (centre_rows dim alpha fld) (tops (m_cells P m) dim); map (exact_row centroid m f) (tops (m_cells P m) dim)]
    else exists h e, rs = [h; e] /\
      node_rows m fld (tags_of sp name) (repeat (Some k0) (width dim fld)) (averages dim alpha fld) h /\
      node_rows m fld (tags_of sp name) (repeat (Some k0) (width dim fld)) (fun n _ => exact_at m f n) e.
  (** The fields of several spaces; nan where a field is not present *)
  Definition all_fields (sps : list (vtk_space F)) : list (string * (vtk_space F * vtk_field F)) :=
    flat_map (fun sp => map (fun nf => (fst nf, (sp, snd nf))) (vs_fields sp)) sps.
  Definition nan_of (centroid : list P -> P) (m : mesh P) (dim : nat) (functions : dict string (P -> arr F)) (alpha : list F) (b : bool) (name : string) (sf : vtk_space F * vtk_field F) (rs : list (rows F)) : Prop :=
    let sp := fst sf in let fld := snd sf in
    exists f, dget functions name = Some f /\
    if b then rs = [map (nan_rows sp name dim fld (centre_rows dim alpha fld)) (tops (m_cells P m) dim);
                    map (nan_rows sp name dim fld (exact_row centroid m f)) (tops (m_cells P m) dim)]
    else exists h e, rs = [h; e] /\
      node_rows m fld (tags_of sp name) (repeat None (width dim fld)) (averages dim alpha fld) h /\
      node_rows m fld (tags_of sp name) (repeat None (width dim fld)) (fun n _ => exact_at m f n) e.
  (** Pointwise errors, for a distance *)
  Definition error_of (centroid : list P -> P) (m : mesh P) (dim : nat) (sp : vtk_space F) (D : string -> vtk_field F -> P -> (nat -> nat -> F) -> F) (alpha : list F) (b : bool) (name : string) (fld : vtk_field F)
      (rs : list (rows F)) : Prop :=
    if b then rs = [map (fun c => [Some (D name fld (centroid (nodes_of m c)) (centre_value alpha fld c))]) (tops (m_cells P m) dim)]
    else exists data, rs = [data] /\ node_rows m fld (tags_of sp name) [Some k0] (error_row m alpha fld (D name fld)) data.
  (** The exact function on all points *)
  Definition e_of (m : mesh P) (functions : dict string (P -> arr F)) (name : string) (n : nat) (rs : list (rows F)) : Prop :=
    exists f, dget functions name = Some f /\ rs = [map (fun x => values_of (f x)) (m_points P m)].
End ExportSpec.

Definition type_names : list string := ["vertex"%string; "line"%string; "triangle"%string; "tetra"%string].
