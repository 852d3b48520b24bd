(** * Property: queries of a domain (src/topology/domain.py) *)
From Coq Require Import List Arith ZArith Bool.
From Verif Require Import Base ShapeModel ShapeSpec ShapeExamples QueryModel QuerySpec QueryProof QueryExamples.
Import ListNotations.

(** ** C103 *)
Theorem C103_max_tag : forall (P : Type) (D : domain P), match max_tag D with
  | Ok m => largest (fun t => exists s, in_domain D s /\ s_tag s = t) m
  | Err e => e = ValueError /\ forall s, ~ in_domain D s
  end.
Proof. exact (fun P => @max_tag_lemma P). Qed.
Print Assumptions C103_max_tag.
Example C103_max_tag_example : max_tag spare = Ok 9%Z /\ max_tag [[]; @nil (shape Z)] = Err ValueError.
Proof. split; reflexivity. Qed.

Theorem C103_max_physical_tag : forall (P : Type) (D : domain P), match max_physical_tag D with
  | Ok m => largest (fun p => exists s, in_domain D s /\ s_phys s = Some p) m
  | Err e => e = ValueError /\ forall s, in_domain D s -> s_phys s = None
  end.
Proof. exact (fun P => @max_physical_lemma P). Qed.
Print Assumptions C103_max_physical_tag.
Example C103_max_physical_tag_example : max_physical_tag spare = Ok 7%Z /\ max_physical_tag twice = Err ValueError.
Proof. split; reflexivity. Qed.

Theorem C103_shapes_with_physical_tag : forall (P : Type) (D : domain P) p,
  selected (fun s => s_phys s = p) (concat D) (shapes_with_physical_tag D p).
Proof. exact (fun P => @physical_lemma P). Qed.
Print Assumptions C103_shapes_with_physical_tag.
Example C103_shapes_example : shapes_with_physical_tag spare (Some 3%Z) = nth 1 spare [] /\
  shapes_with_physical_tag spare None = [at_ 1 1; at_ 9 2; at_ 1 5].
Proof. split; reflexivity. Qed.

Theorem C103_lookup_vertex : forall (P : Type) (pclose : P -> P -> bool) (D : domain P) vertices p,
  nth_error D 0 = Some vertices -> Forall (fun v => s_point v <> None) vertices ->
  match lookup_vertex pclose D p with
  | Ok (Some v) => exists l1 l2, vertices = l1 ++ v :: l2 /\ is_at pclose p v /\ forall w, In w (l1 ++ l2) -> ~ is_at pclose p w
  | Ok None => forall v, In v vertices -> ~ is_at pclose p v
  | Err e => e = AssertionError /\ exists i j v w, i < j /\ nth_error vertices i = Some v /\ nth_error vertices j = Some w /\
               is_at pclose p v /\ is_at pclose p w
  end.
Proof. exact (fun P => @lookup_lemma P). Qed.
Print Assumptions C103_lookup_vertex.
Example C103_lookup_example : Forall (fun v => s_point v <> None) (nth 0 twice []) /\ lookup_vertex Z.eqb twice 0%Z = Ok (Some (at_ 0 0)) /\
  lookup_vertex Z.eqb twice 5%Z = Ok None /\ lookup_vertex Z.eqb twice 1%Z = Err AssertionError.
Proof. split; [repeat constructor; discriminate|]. repeat split. Qed.

(** The graph of the shapes of the top dimension decides; the second removal changes nothing. *)
Theorem C103_remove_vertex : forall (P : Type) dimension fuel (D : domain P) shapes vertices, 0 < dimension ->
  nth_error D dimension = Some shapes -> nth_error D 0 = Some vertices -> Forall (fun s => depth s <= fuel) shapes -> Forall (fun s => 0 < s_dim s) shapes ->
  exists g kept, build_graph dimension fuel D None = Ok g /\ remove_vertex dimension (Some g) D = Ok (set_at D 0 kept) /\
    selected (used shapes) vertices kept /\
    build_graph dimension fuel (set_at D 0 kept) None = Ok g /\ remove_vertex dimension (Some g) (set_at D 0 kept) = Ok (set_at D 0 kept).
Proof. exact (fun P => @remove_lemma P). Qed.
Print Assumptions C103_remove_vertex.
Example C103_remove_example : exists g, Forall (fun s => depth s <= 3) (nth 1 spare []) /\ Forall (fun s => 0 < s_dim s) (nth 1 spare []) /\
  build_graph 1 3 spare None = Ok g /\ remove_vertex 1 (Some g) spare = Ok [spare_kept; nth 1 spare []].
Proof. eexists. split; [repeat constructor|]. split; [repeat constructor|]. split; reflexivity. Qed.

(** Before build_grahp *)
Theorem C103_remove_early : forall (P : Type) dimension (D : domain P) v vertices, nth_error D 0 = Some (v :: vertices) ->
  remove_vertex dimension None D = Err AttributeError.
Proof. exact (fun P => @remove_early P). Qed.
Print Assumptions C103_remove_early.
Example C103_remove_early_example : nth_error spare 0 <> None /\ remove_vertex 1 None spare = Err AttributeError.
Proof. split; [discriminate|reflexivity]. Qed.

(** Refuted: only the vertices of the shapes remain. *)
Theorem C103_remove_refuted : exists (D : domain Z) g v, build_graph 1 3 D None = Ok g /\
  (exists D', remove_vertex 1 (Some g) D = Ok D' /\ In v (nth 0 D' [])) /\
  forall s t c, In s (nth 1 D []) -> reach s t -> child t c -> s_dim c = 0 -> c <> v.
Proof.
  exact (ex_intro _ spare (ex_intro _ _ (ex_intro _ (at_ 1 5) (conj eq_refl (conj
    (ex_intro _ [spare_kept; nth 1 spare []] (conj eq_refl (or_intror (or_intror (or_introl eq_refl))))) spare_used))))).
Qed.
Print Assumptions C103_remove_refuted.

Theorem C103_refresh_wires : forall (P : Type) (pclose : P -> P -> bool) fuel (D : domain P) edges, (forall x, pclose x x = true) ->
  nth_error D 1 = Some edges -> (forall w, In w edges -> s_composite w = true -> exists a l, path_of w a l) ->
  exists wires os, refresh_wires pclose (S fuel) D = Ok os /\ selected (fun w => s_composite w = true) edges wires /\
    Forall2 (fun w o => forall a l, path_of w a l -> follows a l o) wires os.
Proof. exact (fun P => @refresh_lemma P). Qed.
Print Assumptions C103_refresh_wires.
Example C103_refresh_example : (forall w, In w (nth 1 wired []) -> s_composite w = true -> exists a l, path_of w a l) /\
  refresh_wires Z.eqb 1 wired = Ok [[1; -1; 1]%Z].
Proof. split; [exact wired_paths|reflexivity]. Qed.
