(** * Property theorems C37-C39, C41, C45, C65, C66: shapes and domains *)
From Coq Require Import List Arith ZArith Bool Lia Permutation Sorted.
From Verif Require Import Base BaseProof VecBase GeoModel ShapeModel ShapeSpec ShapeProof DomProof BoxProof Box3Proof AssignProof MemberProof ShapeExamples.
Import ListNotations.

(** [np.argsort] can be given. *)
Example argsort_exists : is_argsort argsort_example /\ argsort_example [5; 3; 4]%Z = [1; 2; 0].
Proof. split; [exact argsort_example_ok|reflexivity]. Qed.

(** ** C37 *)
Theorem C37_boundary : forall (P : Type) (argsort : list Z -> list nat), is_argsort argsort -> forall (s : shape P) (shapes : list (shape P)),
  (Forall (admissible s) shapes -> exists s', set_boundary argsort s shapes = Ok s' /\
     Permutation (s_boundary s') shapes /\ StronglySorted Z.le (map s_tag (s_boundary s')) /\
     s_kind s' = s_kind s /\ s_tag s' = s_tag s /\ s_phys s' = s_phys s /\ s_point s' = s_point s /\ s_embedded s' = s_embedded s) /\
  (~ Forall (admissible s) shapes -> set_boundary argsort s shapes = Err ValueError).
Proof. exact (fun P => @boundary_lemma P). Qed.
Print Assumptions C37_boundary.
Example C37_example : set_boundary argsort_example (new_shape Edge 4%Z None) [at_ 5 1; at_ 3 2] = Ok (edge_ 4 (at_ 3 2) (at_ 5 1)) /\
  set_boundary argsort_example (new_shape Edge 4%Z None) [new_shape Face 5%Z (@None Z); at_ 3 2] = Err ValueError.
Proof. split; reflexivity. Qed.

Theorem C37_immersed : forall (P : Type) (s : shape P) (shapes : list (shape P)),
  (Forall (admissible s) shapes -> exists s', set_immersed s shapes = Ok s' /\ s_embedded s' = shapes /\
     s_kind s' = s_kind s /\ s_tag s' = s_tag s /\ s_phys s' = s_phys s /\ s_point s' = s_point s /\ s_boundary s' = s_boundary s /\
     (s_kind s <> Wire \/ Forall (fun c => immersed c = []) shapes -> immersed s' = shapes)) /\
  (~ Forall (admissible s) shapes -> set_immersed s shapes = Err ValueError).
Proof. exact (fun P => @immersed_lemma P). Qed.
Print Assumptions C37_immersed.
Example C37_immersed_example : set_immersed (edge_ 4 (at_ 3 2) (at_ 5 1)) [at_ 9 7; at_ 8 6] = Ok (mk_shape Edge 4%Z None None [at_ 3 2; at_ 5 1] [at_ 9 7; at_ 8 6]).
Proof. reflexivity. Qed.

(** ** C38 *)
(** Shapes whose parts have no immersed shapes compare equal exactly when they are the same. *)
Theorem C38_equality_partial : forall (P : Type) (pclose : P -> P -> bool) fuel (s t : shape P), depth s <= fuel -> plain s ->
  (shape_eq pclose fuel s t = Ok true <-> same pclose s t).
Proof. exact (fun P => @equality_lemma P). Qed.
Print Assumptions C38_equality_partial.
(** Shapes that are the same always compare equal. *)
Theorem C38_same_equal : forall (P : Type) (pclose : P -> P -> bool) fuel (s t : shape P), depth s <= fuel -> same pclose s t -> shape_eq pclose fuel s t = Ok true.
Proof. exact (fun P => @same_eq P). Qed.
Print Assumptions C38_same_equal.
(** With a closeness that is an equivalence, equality is one. *)
Theorem C38_equivalence_partial : forall (P : Type) (pclose : P -> P -> bool) fuel,
  (forall x, pclose x x = true) -> (forall x y, pclose x y = true -> pclose y x = true) ->
  (forall x y z, pclose x y = true -> pclose y z = true -> pclose x z = true) ->
  (forall s, depth s <= fuel -> pointed s -> shape_eq pclose fuel s s = Ok true) /\
  (forall s t, depth s <= fuel -> depth t <= fuel -> plain s -> shape_eq pclose fuel s t = Ok true -> shape_eq pclose fuel t s = Ok true) /\
  (forall s t u, depth s <= fuel -> plain s -> plain t -> shape_eq pclose fuel s t = Ok true -> shape_eq pclose fuel t u = Ok true -> shape_eq pclose fuel s u = Ok true).
Proof. exact (fun P => @equivalence_lemma P). Qed.
Print Assumptions C38_equivalence_partial.
(** Line 146: with immersed shapes the boundaries are not compared. *)
Theorem C38_boundary_refuted : exists s t : shape Z, shape_eq Z.eqb 10 s t = Ok true /\ ~ same Z.eqb s t.
Proof. exact (ex_intro _ wire_a (ex_intro _ wire_b wires_refute)). Qed.
Print Assumptions C38_boundary_refuted.
(** np.isclose is not symmetric, hence neither is the equality of vertices. *)
Theorem C38_symmetry_refuted : exists a b : shape vec, shape_eq allclose_default 1 a b = Ok true /\ shape_eq allclose_default 1 b a = Ok false.
Proof. exact (ex_intro _ _ (ex_intro _ _ not_symmetric)). Qed.
Print Assumptions C38_symmetry_refuted.
Example C38_example : depth (edge_ 4 (at_ 0 0) (at_ 1 1)) = 2 /\ plain (edge_ 4 (at_ 0 0) (at_ 1 1)) /\
  shape_eq Z.eqb 2 (edge_ 4 (at_ 0 0) (at_ 1 1)) (edge_ 4 (at_ 0 0) (at_ 1 1)) = Ok true /\
  shape_eq Z.eqb 2 (edge_ 4 (at_ 0 0) (at_ 1 1)) (edge_ 4 (at_ 0 0) (at_ 1 2)) = Ok false.
Proof. repeat split; try reflexivity. simpl. tauto. Qed.

(** ** C39 *)
Theorem C39_wire : forall (P : Type) (pclose : P -> P -> bool) fuel (wire w e v : shape P) l, (forall x, pclose x x = true) ->
  immersed wire = map fst ((e, v) :: l) -> walk w ((e, v) :: l) -> (s_tag w < s_tag v)%Z ->
  exists o, orient_immersed_edges pclose (S fuel) wire = Ok o /\ length o = S (length l) /\
    (forall i e' a b, nth_error ((e, v) :: l) i = Some (e', b) -> nth_error (starts w ((e, v) :: l)) i = Some a ->
       exists s, nth_error o i = Some s /\ leads s e' a b) /\
    orient_immersed_vertices pclose (S fuel) wire = Ok (starts w ((e, v) :: l)) /\
    wire_ends wire o = Ok (w, last (map snd ((e, v) :: l)) w).
Proof. exact (fun P => @wire_lemma P). Qed.
Print Assumptions C39_wire.
Example C39_example : immersed path_wire = map fst path_example /\ walk va path_example /\ (s_tag va < s_tag vb)%Z /\
  orient_immersed_edges Z.eqb 1 path_wire = Ok [1; -1; 1]%Z /\ starts va path_example = [va; vb; vc].
Proof. split; [reflexivity|]. split; [exact path_walk|]. repeat split. Qed.

(** ** C41 *)
(** Provided the hash separates the tags which occur in one dimension. *)
Theorem C41_create_domain_partial : forall (P : Type) (hash : nat -> Z -> Z) dimension (shapes : list (shape P)),
  Forall (fun s => s_dim s <= dimension) shapes ->
  (forall s t, In s shapes -> In t shapes -> s_dim s = s_dim t -> hash (s_dim s) (s_tag s) = hash (s_dim t) (s_tag t) -> s_tag s = s_tag t) ->
  exists D, create_domain hash dimension shapes = Ok D /\ length D = S dimension /\
    forall d, d <= dimension -> NoDup (map s_tag (nth d D [])) /\ forall s, In s (nth d D []) <-> s_dim s = d /\ last_of shapes s.
Proof. exact (fun P => @create_domain_lemma P). Qed.
Print Assumptions C41_create_domain_partial.
(** CPython: hash(-1) = hash(-2), so one of two vertices with these tags is lost. *)
Theorem C41_refuted : forall (P : Type) (tuple_hash : Z -> Z -> Z) (p q : P),
  let a := new_vertex (-1) p in let b := new_vertex (-2) q in
  create_domain (fun d t => tuple_hash (int_hash (Z.of_nat d)) (int_hash t)) 1 [a; b] = Ok [[b]; []].
Proof. exact (fun P => @collision_lemma P). Qed.
Print Assumptions C41_refuted.
Example C41_example : let hash := fun d t => (t * 10 + Z.of_nat d)%Z in
  Forall (fun s => s_dim s <= 1) shapes_example /\ (forall (s t : shape Z), s_dim s = s_dim t -> hash (s_dim s) (s_tag s) = hash (s_dim t) (s_tag t) -> s_tag s = s_tag t) /\
  create_domain hash 1 shapes_example = Ok [[at_ 0 7; at_ 1 1]; [edge_ 0 (at_ 0 0) (at_ 1 1)]].
Proof. split; [repeat constructor|]. split; [intros s t E; cbv beta; rewrite E; lia|reflexivity]. Qed.

(** ** C45 *)
Theorem C45_box_2D : forall (P : Type) (pclose : P -> P -> bool) (argsort : list Z -> list nat), is_argsort argsort ->
  forall fuel points area bc, 2 <= length points -> (forall x, pclose x x = true) -> 4 <= fuel ->
  let n := length points in
  exists vertices edges wire face o g,
    build_box_2D pclose argsort fuel points area bc = Ok ([vertices; edges ++ [wire]; [face]], (wire, o), g) /\
    (Forall is_vertex vertices /\ map s_point vertices = map Some points /\ map s_tag vertices = map Z.of_nat (seq 0 n)) /\
    (Forall (fun e => s_kind e = Edge) edges /\ map s_tag edges = map Z.of_nat (seq 0 n) /\ map s_phys edges = map bc (seq 0 n)) /\
    (s_kind wire = Wire /\ s_tag wire = Z.of_nat n /\ immersed wire = edges) /\
    (s_kind face = Face /\ s_tag face = 0%Z /\ s_phys face = area /\ s_boundary face = [wire]) /\
    NoDup (map s_tag (edges ++ [wire])) /\
    length o = n /\
    (forall i, i < n -> exists s e a b, nth_error o i = Some s /\ nth_error edges i = Some e /\
       nth_error vertices i = Some a /\ nth_error vertices (S i mod n) = Some b /\ leads s e a b) /\
    (exists v, nth_error vertices 0 = Some v /\ wire_ends wire o = Ok (v, v) /\ forall u, In u (s_boundary wire) <-> u = v) /\
    (forall a b, In (a, b) (g_edges g) <->
       (a, b) = ((0, 0), (1, Z.of_nat n))%Z \/ (a, b) = ((1, Z.of_nat n), (2, 0))%Z \/
       exists i, i < n /\ ((a, b) = ((1, Z.of_nat n), (1, Z.of_nat i))%Z \/ (a, b) = ((1, Z.of_nat i), (2, Z.of_nat i))%Z \/
                           (a, b) = ((1, Z.of_nat i), (2, Z.of_nat (S i mod n)))%Z)).
Proof. exact (fun P => @box_2D_lemma P). Qed.
Print Assumptions C45_box_2D.
Example C45_example : exists D w g, build_box_2D Z.eqb argsort_example 4 [10; 20; 30]%Z (Some 1%Z) (fun i => Some (Z.of_nat i)) = Ok (D, (w, [1; 1; -1]%Z), g) /\
  map (map s_tag) D = [[0; 1; 2]; [0; 1; 2; 3]; [0]]%Z.
Proof. eexists. eexists. eexists. split; reflexivity. Qed.
Theorem C45_box_3D : forall (P : Type) (pclose : P -> P -> bool) (argsort : list Z -> list nat), is_argsort argsort ->
  forall fuel points solid bc, 8 <= length points -> (forall x, pclose x x = true) -> 6 <= fuel ->
  exists vertices edges wires faces shell body os g,
    build_box_3D pclose argsort fuel points solid bc = Ok ([vertices; edges ++ wires; faces ++ [shell]; [body]], combine wires os, g) /\
    (Forall is_vertex vertices /\ map s_point vertices = map Some points /\ map s_tag vertices = map Z.of_nat (seq 0 (length points))) /\
    (map s_kind edges = repeat Edge 12 /\ map s_kind wires = repeat Wire 6 /\ map s_kind faces = repeat Face 6 /\ s_kind shell = Shell /\ s_kind body = Solid) /\
    map s_tag (edges ++ wires ++ faces ++ [shell; body]) = map Z.of_nat (seq 0 26) /\
    map s_phys faces = map bc (seq 0 6) /\ s_phys body = solid /\
    map s_boundary faces = map (fun w => [w]) wires /\ s_boundary shell = wires /\ immersed shell = faces /\ s_boundary body = [shell] /\
    (length os = 6 /\ forall k wire o, nth_error wires k = Some wire -> nth_error os k = Some o ->
       exists w l, walk w l /\ length l = 4 /\ immersed wire = map fst l /\ (forall e, In e (immersed wire) -> In e edges) /\
         wire_ends wire o = Ok (w, w) /\ length o = 4 /\
         forall i e a b, nth_error l i = Some (e, b) -> nth_error (starts w l) i = Some a -> exists s, nth_error o i = Some s /\ leads s e a b) /\
    (forall e, In e edges -> count_occ Z.eq_dec (flat_map (fun w => map s_tag (immersed w)) wires) (s_tag e) = 2) /\
    (forall i, i < 8 -> count_occ Z.eq_dec (flat_map (fun e => map s_tag (s_boundary e)) edges) (Z.of_nat i) = 3).
Proof. exact (fun P => @box_3D_lemma P). Qed.
Print Assumptions C45_box_3D.
Example C45_example_3D : match build_box_3D Z.eqb argsort_example 6 [0; 1; 2; 3; 4; 5; 6; 7]%Z (Some 1%Z) (fun i => Some (Z.of_nat i)) with
    | Ok (_, ws, _) => map snd ws
    | Err _ => []
    end = [[1; 1; 1; -1]; [1; 1; 1; -1]; [1; 1; -1; -1]; [1; 1; -1; -1]; [1; 1; -1; -1]; [1; 1; -1; -1]]%Z.
Proof. vm_compute. reflexivity. Qed.

Theorem C45_box_1D : forall (P : Type) (argsort : list Z -> list nat), is_argsort argsort ->
  forall fuel p q (rest : list P) line bc_0 bc_1, 2 <= fuel -> let n := S (S (length rest)) in
  exists a b others e g, build_box_1D argsort fuel (p :: q :: rest) line bc_0 bc_1 = Ok ([a :: b :: others; [e]], g) /\
    (Forall is_vertex (a :: b :: others) /\ map s_point (a :: b :: others) = map Some (p :: q :: rest) /\
     map s_tag (a :: b :: others) = map Z.of_nat (seq 0 n) /\ map s_phys (a :: b :: others) = bc_0 :: bc_1 :: repeat None (length rest)) /\
    (s_kind e = Edge /\ s_tag e = 0%Z /\ s_phys e = line /\ s_boundary e = [a; b] /\ immersed e = []) /\
    (forall x y, In (x, y) (g_edges g) <-> (x, y) = ((0, 0), (1, 0))%Z \/ (x, y) = ((0, 0), (1, 1))%Z).
Proof. exact (fun P => @box_1D_lemma P). Qed.
Print Assumptions C45_box_1D.
Example C45_example_1D : exists D g, build_box_1D argsort_example 2 [10; 20]%Z (Some 1%Z) (Some 2%Z) None = Ok (D, g) /\
  map (map s_phys) D = [[Some 2; None]; [Some 1]]%Z.
Proof. eexists. eexists. split; reflexivity. Qed.

(** ** C65 *)
(** Without an argument the shapes of the dimension of the domain are taken. *)
Theorem C65_graph : forall (P : Type) dimension fuel (D : domain P) arg d shapes, arg = Some d \/ (arg = None /\ d = dimension) ->
  nth_error D d = Some shapes -> Forall (fun s => depth s <= fuel) shapes ->
  exists g, build_graph dimension fuel D arg = Ok g /\
    (forall a b, In (a, b) (g_edges g) <-> exists s t c, In s shapes /\ reach s t /\ child t c /\
       a = (Z.of_nat dimension - Z.of_nat (s_dim t), s_tag t)%Z /\ b = (Z.of_nat dimension - Z.of_nat (s_dim c), s_tag c)%Z) /\
    (forall x, In x (g_nodes g) <-> (exists y, In (x, y) (g_edges g) \/ In (y, x) (g_edges g)) \/
                                    (d = 0 /\ g_edges g = [] /\ exists s, In s shapes /\ x = (Z.of_nat dimension - Z.of_nat (s_dim s), s_tag s)%Z)).
Proof. exact (fun P => @graph_arg P). Qed.
Print Assumptions C65_graph.
Example C65_example : exists g, build_graph 1 3 [[at_ 0 0; at_ 1 1]; [edge_ 0 (at_ 0 0) (at_ 1 1)]] (Some 1) = Ok g /\
  g_edges g = [((0, 0), (1, 0)); ((0, 0), (1, 1))]%Z.
Proof. eexists. split; reflexivity. Qed.

(** ** C66 *)
Theorem C66_assignment : forall (P : Type) (argsort : list Z -> list nat), is_argsort argsort -> forall (s other : shape P),
  (s_kind s <> s_kind other -> shape_assignment argsort s other = Err ValueError) /\
  (s_kind s = s_kind other -> settled other ->
   exists s', shape_assignment argsort s other = Ok s' /\ s_kind s' = s_kind other /\ s_tag s' = s_tag other /\ s_phys s' = s_phys other /\
     s_boundary s' = s_boundary other /\ immersed s' = immersed other /\ (s_kind other = Vertex -> s_point s' = s_point other)).
Proof. exact (fun P => @assignment_lemma P). Qed.
Print Assumptions C66_assignment.
Theorem C66_assignment_same : forall (P : Type) (pclose : P -> P -> bool) (argsort : list Z -> list nat), is_argsort argsort ->
  forall (s other s' : shape P), (forall x, pclose x x = true) -> settled other -> pointed other ->
  shape_assignment argsort s other = Ok s' -> same pclose s' other.
Proof. exact (fun P => @assignment_same P). Qed.
Print Assumptions C66_assignment_same.
Example C66_example : settled (edge_ 4 (at_ 0 0) (at_ 1 1)) /\ pointed (edge_ 4 (at_ 0 0) (at_ 1 1)) /\
  shape_assignment argsort_example (edge_ 7 (at_ 2 0) (at_ 3 1)) (edge_ 4 (at_ 0 0) (at_ 1 1)) = Ok (edge_ 4 (at_ 0 0) (at_ 1 1)).
Proof.
  split; [|split; [simpl; repeat split; discriminate|reflexivity]].
  unfold settled. split; [repeat constructor|]. split; [constructor|]. split; [repeat constructor; discriminate|]. split; [|discriminate].
  simpl. intros x y [<-|[<-|[]]] [<-|[<-|[]]] E; auto; discriminate.
Qed.

(** ** C68 *)
(** Membership counts: it holds when exactly one boundary shape, or exactly one immersed
    shape, is the same as [other]. *)
Theorem C68_counts : forall (P : Type) (pclose : P -> P -> bool) fuel (s other : shape P),
  (forall c, child s c -> depth c <= fuel /\ plain c /\ graded c) -> plain other -> graded other -> uniform (s_boundary s) other -> uniform (immersed s) other ->
  exists b, contains pclose fuel s other = Ok b /\ (b = true <-> exactly_one pclose (s_boundary s) other \/ exactly_one pclose (immersed s) other).
Proof. exact (fun P => @contains_lemma P). Qed.
Print Assumptions C68_counts.
(** With different tags it holds exactly for the boundary and immersed shapes. *)
Theorem C68_member_partial : forall (P : Type) (pclose : P -> P -> bool) fuel (s other : shape P),
  (forall c, child s c -> depth c <= fuel /\ plain c /\ graded c) -> plain other -> graded other -> uniform (s_boundary s) other -> uniform (immersed s) other ->
  NoDup (map s_tag (s_boundary s)) -> NoDup (map s_tag (immersed s)) ->
  exists b, contains pclose fuel s other = Ok b /\ (b = true <-> exists c, child s c /\ same pclose c other).
Proof. exact (fun P => @member_lemma P). Qed.
Print Assumptions C68_member_partial.
Example C68_example : let s := mk_shape Wire 9 None None [at_ 0 0; at_ 2 2] [edge_ 5 (at_ 0 0) (at_ 1 1); edge_ 6 (at_ 1 1) (at_ 2 2)] in
  let other := edge_ 6 (at_ 1 1) (at_ 2 2) in
  ((forall c, child s c -> depth c <= 2 /\ plain c /\ graded c) /\ plain other /\ graded other /\ uniform (s_boundary s) other /\ uniform (immersed s) other /\
   NoDup (map s_tag (s_boundary s)) /\ NoDup (map s_tag (immersed s))) /\
  contains Z.eqb 2 s other = Ok true /\ contains Z.eqb 2 s (edge_ 6 (at_ 1 1) (at_ 2 3)) = Ok false /\ contains Z.eqb 2 s (at_ 1 1) = Ok false.
Proof. exact member_example. Qed.
(** The boundary of a closed wire is made of twice the same vertex, which is then not found. *)
Theorem C68_closed_refuted : exists s other : shape Z, In other (s_boundary s) /\ contains Z.eqb 10 s other = Ok false.
Proof. exact closed_wire_refutes. Qed.
Print Assumptions C68_closed_refuted.
(** A face with an immersed vertex and an immersed edge: the vertex is compared with the edge. *)
Theorem C68_mixed_refuted : exists s other : shape Z, In other (immersed s) /\ contains Z.eqb 10 s other = Err AttributeError.
Proof. exact mixed_face_refutes. Qed.
Print Assumptions C68_mixed_refuted.
