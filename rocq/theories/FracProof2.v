(** * Lemmas: splitting fractures at their intersections, C59 *)
From Coq Require Import List Arith ZArith Bool Lia Permutation Sorted.
From Verif Require Import Base BaseProof FracModel FracSpec.
Import ListNotations.

Lemma get_at_nth_error {A} (l : list A) i x : nth_error l i = Some x -> get_at l i = Ok x.
Proof. unfold get_at. intros ->. reflexivity. Qed.
Lemma nth_error_app_1 {A} (l l' : list A) i : i < length l -> nth_error (l ++ l') i = nth_error l i.
Proof. apply nth_error_app1. Qed.
Lemma nth_error_app_2 {A} (l l' : list A) i : length l <= i -> nth_error (l ++ l') i = nth_error l' (i - length l).
Proof. apply nth_error_app2. Qed.
Lemma nth_error_app_new {A} (l : list A) x : nth_error (l ++ [x]) (length l) = Some x.
Proof. rewrite nth_error_app_2 by lia. rewrite Nat.sub_diag. reflexivity. Qed.

Section Proof.
  Variable P : Type.
  Variable isect : P -> P -> P -> P -> option P.
  Variable near : P -> P -> bool.
  Variable argsort : list P -> P -> list nat.
  Notation network := (network P).
  Notation mk_network := (mk_network P).
  Notation n_cells := (n_cells P).
  Notation n_points := (n_points P).

  (** *** the disjoint description *)
  Definition line_cells (shift : Z) (k : nat) : list gcell :=
    let tag := (Z.of_nat k + shift)%Z in
    [mk_gcell 0 (3 * k) tag (Some (2 * k)) [] []; mk_gcell 0 (3 * k + 1) tag (Some (2 * k + 1)) [] [];
     mk_gcell 1 (3 * k + 2) tag None [3 * k; 3 * k + 1] []].
  Definition as_lists (segs : list (P * P)) : list (list P) := map (fun s => [fst s; snd s]) segs.

  Lemma fold_insert_line shift segs : forall k cs ps,
    fold_left (insert_line P) (combine (as_lists segs) (map (fun i => (Z.of_nat i + shift)%Z) (seq k (length segs))))
      (cs, ps, 3 * k, 2 * k) =
    (cs ++ flat_map (line_cells shift) (seq k (length segs)), ps ++ flat_map (fun s => [fst s; snd s]) segs,
     3 * (k + length segs), 2 * (k + length segs)).
  Proof.
    induction segs as [|(a, b) segs IH]; intros k cs ps.
    - cbn [as_lists map length seq combine fold_left flat_map]. rewrite !app_nil_r, Nat.add_0_r. reflexivity.
    - cbn [as_lists map length seq combine fold_left fst snd flat_map].
      unfold insert_line at 2. cbn [fst snd insert_ends].
      replace (3 * k + 1 + 1 + 1) with (3 * S k) by lia. replace (2 * k + 1 + 1) with (2 * S k) by lia.
      rewrite IH. replace (3 * k + 1 + 1) with (3 * k + 2) by lia. rewrite <- !app_assoc. cbn [app line_cells].
      replace (k + S (length segs)) with (S k + length segs) by lia. reflexivity.
  Qed.
  Lemma length_line_cells shift l : length (flat_map (line_cells shift) l) = 3 * length l.
  Proof. induction l; simpl; lia. Qed.
  Lemma nth_line_cells shift N k r : k < N -> r < 3 ->
    nth_error (flat_map (line_cells shift) (seq 0 N)) (3 * k + r) = nth_error (line_cells shift k) r.
  Proof.
    intros Hk Hr. enough (G : forall N s k, k < N -> nth_error (flat_map (line_cells shift) (seq s N)) (3 * k + r) = nth_error (line_cells shift (s + k)) r).
    { rewrite G; auto. }
    clear N k Hk. induction N as [|N IH]; intros s k Hk; [lia|]. cbn [seq flat_map]. destruct k as [|k].
    - rewrite Nat.add_0_r. replace (3 * 0 + r) with r by lia. apply nth_error_app_1. simpl. lia.
    - rewrite nth_error_app_2 by (simpl; lia). replace (3 * S k + r - length (line_cells shift s)) with (3 * k + r) by (simpl; lia).
      rewrite IH by lia. f_equal. f_equal. lia.
  Qed.
  Lemma length_seg_points (segs : list (P * P)) : length (flat_map (fun s => [fst s; snd s]) segs) = 2 * length segs.
  Proof. induction segs; simpl; lia. Qed.
  Lemma nth_seg_points (segs : list (P * P)) k a b : nth_error segs k = Some (a, b) ->
    nth_error (flat_map (fun s => [fst s; snd s]) segs) (2 * k) = Some a /\
    nth_error (flat_map (fun s => [fst s; snd s]) segs) (2 * k + 1) = Some b.
  Proof.
    revert k. induction segs as [|(c, d) segs IH]; intros [|k] H; try discriminate.
    - inversion H. auto.
    - simpl in H. destruct (IH k H) as [A B]. cbn [flat_map].
      rewrite !nth_error_app_2 by (simpl; lia). cbn [length].
      replace (2 * S k - 2) with (2 * k) by lia. replace (2 * S k + 1 - 2) with (2 * k + 1) by lia. auto.
  Qed.
  Lemma disjoint_spec shift segs : segs <> [] -> disjoint P (as_lists segs) shift =
    Ok (mk_network (flat_map (line_cells shift) (seq 0 (length segs))) (flat_map (fun s => [fst s; snd s]) segs)).
  Proof.
    intros H. unfold disjoint. unfold as_lists at 2. rewrite map_length.
    pose proof (fold_insert_line shift segs 0 [] []) as F. simpl (3 * 0) in F. simpl (2 * 0) in F. rewrite F.
    destruct segs; [congruence|]. reflexivity.
  Qed.
  Lemma line_positions_spec shift N : line_positions (flat_map (line_cells shift) (seq 0 N)) = map (fun k => 3 * k + 2) (seq 0 N).
  Proof.
    unfold line_positions. rewrite length_line_cells, seq_length.
    enough (G : forall N s, map snd (filter (fun ci : gcell * nat => gc_dim (fst ci) =? 1)
      (combine (flat_map (line_cells shift) (seq s N)) (seq (3 * s) (3 * N)))) = map (fun k => 3 * k + 2) (seq s N)) by (apply (G N 0)).
    clear N. induction N as [|N IH]; intros s; [reflexivity|]. cbn [seq flat_map].
    replace (3 * S N) with (S (S (S (3 * N)))) by lia. cbn [seq line_cells app combine filter fst gc_dim Nat.eqb map snd].
    replace (S (S (S (3 * s)))) with (3 * S s) by lia. rewrite IH. f_equal. lia.
  Qed.

  (** *** the invariant of the intersection loop *)
  Variable segs : list (P * P).
  Variable shift : Z.
  Notation N := (length segs).
  Definition tag_of (k : nat) : Z := (Z.of_nat k + shift)%Z.
  Definition line_of (k : nat) (imm : list nat) : gcell := mk_gcell 1 (3 * k + 2) (tag_of k) None [3 * k; 3 * k + 1] imm.
  (** position of the vertex of point [t] *)
  Definition vpos (t : nat) : nat := if t <? 2 * N then 3 * (t / 2) + t mod 2 else 3 * N + (t - 2 * N).
  Definition first_near (ps : list P) (x : P) (t : nat) : Prop :=
    exists p, nth_error ps t = Some p /\ near p x = true /\
      forall t' p', t' < t -> nth_error ps t' = Some p' -> near p' x = false.
  Definition recorded (done : list (nat * nat)) (ps : list P) (k v : nat) : Prop :=
    exists i j a b p q x t, In (i, j) done /\ (k = i \/ k = j) /\ nth_error segs i = Some (a, b) /\ nth_error segs j = Some (p, q) /\
      isect a b p q = Some x /\ first_near ps x t /\ v = vpos t.
  (** the tag of the vertex of point [t] *)
  Definition vtag (ps : list P) (t : nat) (tag : Z) : Prop :=
    (t < 2 * N -> tag = tag_of (t / 2)) /\
    (2 * N <= t -> exists i j a b p q x, i < j /\ nth_error segs i = Some (a, b) /\ nth_error segs j = Some (p, q) /\
       isect a b p q = Some x /\ nth_error ps t = Some x /\ tag = pair_integers (tag_of i) (tag_of j) /\
       forall t' p', t' < t -> nth_error ps t' = Some p' -> near p' x = false).
  Lemma vtag_app ps l t tag : vtag ps t tag -> vtag (ps ++ l) t tag.
  Proof.
    intros [A B]. split; auto. intros L. destruct (B L) as (i & j & a & b & p & q & x & H1 & H2 & H3 & H4 & H5 & H6 & H7). exists i, j, a, b, p, q, x.
    assert (t < length ps) by (apply nth_error_Some; congruence). do 4 (split; auto). split; [rewrite nth_error_app1; auto|]. split; auto.
    intros t' p' Ht Hp. rewrite nth_error_app1 in Hp by lia. eauto.
  Qed.
  Record Inv (imm : nat -> list nat) (done : list (nat * nat)) (n : network) : Prop := {
    iv_len : length (n_points n) = 2 * N + (length (n_cells n) - 3 * N) /\ 3 * N <= length (n_cells n);
    iv_pts : forall k a b, nth_error segs k = Some (a, b) ->
      nth_error (n_points n) (2 * k) = Some a /\ nth_error (n_points n) (2 * k + 1) = Some b;
    iv_line : forall k, k < N -> nth_error (n_cells n) (3 * k + 2) = Some (line_of k (imm k));
    iv_vert : forall t, t < length (n_points n) -> exists tag, nth_error (n_cells n) (vpos t) = Some (mk_gcell 0 (vpos t) tag (Some t) [] []) /\ vtag (n_points n) t tag;
    iv_imm : forall k v, k < N -> In v (imm k) <-> recorded done (n_points n) k v }.

  Lemma vpos_even k : k < N -> vpos (2 * k) = 3 * k.
  Proof.
    intros. unfold vpos. destruct (Nat.ltb_spec (2 * k) (2 * N)); [|lia].
    replace (2 * k) with (k * 2) by lia. rewrite Nat.div_mul, Nat.mod_mul by lia. lia.
  Qed.
  Lemma vpos_odd k : k < N -> vpos (2 * k + 1) = 3 * k + 1.
  Proof.
    intros. unfold vpos. destruct (Nat.ltb_spec (2 * k + 1) (2 * N)); [|lia].
    replace (2 * k + 1) with (1 + k * 2) by lia. rewrite Nat.div_add, Nat.mod_add by lia.
    replace (1 / 2) with 0 by reflexivity. replace (1 mod 2) with 1 by reflexivity. lia.
  Qed.
  Lemma vpos_not_line t k : k < N -> vpos t <> 3 * k + 2.
  Proof.
    intros Hk. unfold vpos. destruct (Nat.ltb_spec t (2 * N)); [|lia].
    pose proof (Nat.mod_upper_bound t 2). intros E. lia.
  Qed.
  Lemma vpos_lt t c : t < 2 * N + (c - 3 * N) -> 3 * N <= c -> vpos t < c.
  Proof.
    intros. unfold vpos. destruct (Nat.ltb_spec t (2 * N)); [|lia].
    pose proof (Nat.mod_upper_bound t 2). pose proof (Nat.div_mod_eq t 2). lia.
  Qed.
  Lemma vpos_inj t t' : vpos t = vpos t' -> t = t'.
  Proof.
    unfold vpos. pose proof (Nat.mod_upper_bound t 2). pose proof (Nat.div_mod_eq t 2).
    pose proof (Nat.mod_upper_bound t' 2). pose proof (Nat.div_mod_eq t' 2).
    destruct (Nat.ltb_spec t (2 * N)), (Nat.ltb_spec t' (2 * N)); lia.
  Qed.
  (** every position is a line or the position of a point *)
  Lemma position_cases c i : i < c -> 3 * N <= c -> (exists k, k < N /\ i = 3 * k + 2) \/ exists t, t < 2 * N + (c - 3 * N) /\ i = vpos t.
  Proof.
    intros Hi Hc. destruct (Nat.lt_ge_cases i (3 * N)).
    - pose proof (Nat.mod_upper_bound i 3). pose proof (Nat.div_mod_eq i 3). set (k := i / 3) in *.
      assert (i mod 3 = 0 \/ i mod 3 = 1 \/ i mod 3 = 2) as [E|[E|E]] by lia; rewrite E in *.
      + right. exists (2 * k). rewrite vpos_even by lia. lia.
      + right. exists (2 * k + 1). rewrite vpos_odd by lia. lia.
      + left. exists k. lia.
    - right. exists (2 * N + (i - 3 * N)). split; [lia|]. unfold vpos. destruct (Nat.ltb_spec (2 * N + (i - 3 * N)) (2 * N)); lia.
  Qed.

  Lemma Inv_start : Inv (fun _ => []) [] (mk_network (flat_map (line_cells shift) (seq 0 N)) (flat_map (fun s => [fst s; snd s]) segs)).
  Proof.
    constructor; simpl FracModel.n_cells; simpl FracModel.n_points.
    - rewrite length_seg_points, length_line_cells, seq_length. lia.
    - intros k a b H. apply nth_seg_points. auto.
    - intros k Hk. rewrite (nth_line_cells shift N k 2) by lia. reflexivity.
    - intros t Ht. rewrite length_seg_points in Ht.
      destruct (Nat.Even_or_Odd t) as [(k & ->)|(k & ->)].
      + rewrite vpos_even by lia. exists (tag_of k).
        replace (3 * k) with (3 * k + 0) at 1 by lia. rewrite nth_line_cells by lia. split; [reflexivity|]. split; [|lia]. intros _. rewrite (Nat.mul_comm 2 k), Nat.div_mul by lia. reflexivity.
      + rewrite vpos_odd by lia. exists (tag_of k). rewrite nth_line_cells by lia. split; [reflexivity|]. split; [|lia]. intros _.
        replace (2 * k + 1) with (1 + k * 2) by lia. rewrite Nat.div_add by lia. reflexivity.
    - intros k v _. split; [intros []|]. intros (i & j & a & b & p & q & x & t & [] & _).
  Qed.

  Lemma ends_spec imm done n k a b : Inv imm done n -> nth_error segs k = Some (a, b) -> ends P n (3 * k + 2) = Ok (a, b).
  Proof.
    intros I H. assert (Hk : k < N) by (apply nth_error_Some; congruence).
    unfold ends. rewrite (get_at_nth_error _ _ _ (iv_line _ _ _ I k Hk)). cbn [bind line_of gc_bc mapM].
    destruct (iv_pts _ _ _ I _ _ _ H) as [A B].
    assert (LA : 2 * k < length (n_points n)) by (apply nth_error_Some; congruence).
    assert (LB : 2 * k + 1 < length (n_points n)) by (apply nth_error_Some; congruence).
    destruct (iv_vert _ _ _ I _ LA) as (ta & VA & _). destruct (iv_vert _ _ _ I _ LB) as (tb & VB & _).
    rewrite vpos_even in VA by auto. rewrite vpos_odd in VB by auto.
    rewrite (get_at_nth_error _ _ _ VA). cbn [bind gc_pid]. rewrite (get_at_nth_error _ _ _ VB). cbn [bind gc_pid mapM].
    rewrite (get_at_nth_error _ _ _ A), (get_at_nth_error _ _ _ B). reflexivity.
  Qed.

  Lemma find_index_Some {A} (f : A -> bool) l i : find_index f l = Some i ->
    exists x, nth_error l i = Some x /\ f x = true /\ forall j y, j < i -> nth_error l j = Some y -> f y = false.
  Proof.
    revert i. induction l as [|a l IH]; intros i H; simpl in H; [discriminate|]. destruct (f a) eqn:E.
    - inversion H. exists a. split; auto. split; auto. intros; lia.
    - destruct (find_index f l) as [j|] eqn:F; [|discriminate]. inversion H. destruct (IH _ eq_refl) as (x & Hx & Fx & Hj).
      exists x. split; auto. split; auto. intros [|j'] y Hj' Hy; simpl in Hy; [inversion Hy; subst; auto|]. eapply Hj; eauto. lia.
  Qed.
  Lemma find_index_None {A} (f : A -> bool) l : find_index f l = None -> forall x, In x l -> f x = false.
  Proof.
    induction l as [|a l IH]; intros H x Hx; [destruct Hx|]. simpl in H. destruct (f a) eqn:E; [discriminate|].
    destruct (find_index f l); [discriminate|]. destruct Hx as [<-|Hx]; auto.
  Qed.
  Lemma find_index_exists {A} (f : A -> bool) l i x : nth_error l i = Some x -> f x = true ->
    (forall j y, nth_error l j = Some y -> f y = true -> j = i) -> find_index f l = Some i.
  Proof.
    intros H1 H2 H3. destruct (find_index f l) as [j|] eqn:E.
    - destruct (find_index_Some _ _ _ E) as (y & Hy & Fy & _). f_equal. eapply H3; eauto.
    - exfalso. pose proof (find_index_None _ _ E x (nth_error_In _ _ H1)). congruence.
  Qed.

  Hypothesis near_refl : forall x, near x x = true.

  (** *** inserting an intersection vertex *)
  Lemma first_near_app ps l x t : first_near ps x t -> first_near (ps ++ l) x t.
  Proof.
    intros (p & H1 & H2 & H3). exists p. assert (t < length ps) by (apply nth_error_Some; congruence).
    split; [rewrite nth_error_app_1; auto|]. split; auto. intros t' p' Ht Hp. rewrite nth_error_app_1 in Hp by lia. eauto.
  Qed.
  Lemma first_near_unique ps x t t' : first_near ps x t -> first_near ps x t' -> t = t'.
  Proof.
    intros (p & H1 & H2 & H3) (q & G1 & G2 & G3). destruct (Nat.lt_trichotomy t t') as [|[|]]; auto.
    - rewrite (G3 _ _ H H1) in H2. discriminate.
    - rewrite (H3 _ _ H G1) in G2. discriminate.
  Qed.
  Lemma insert_vertex_spec imm done n x tag : Inv imm done n ->
    (exists i j a b p q, i < j /\ nth_error segs i = Some (a, b) /\ nth_error segs j = Some (p, q) /\ isect a b p q = Some x /\ tag = pair_integers (tag_of i) (tag_of j)) ->
    exists n' t,
    insert_vertex_cell P near n x tag = Ok (n', vpos t) /\ first_near (n_points n') x t /\
    (exists l, n_points n' = n_points n ++ l) /\ (exists l, n_cells n' = n_cells n ++ l) /\
    length (n_points n') = 2 * N + (length (n_cells n') - 3 * N) /\
    (forall t, t < length (n_points n') -> exists tag, nth_error (n_cells n') (vpos t) = Some (mk_gcell 0 (vpos t) tag (Some t) [] []) /\ vtag (n_points n') t tag).
  Proof.
    intros I Tg. destruct (iv_len _ _ _ I) as [L1 L2]. unfold insert_vertex_cell.
    destruct (find_index (fun p => near p x) (n_points n)) as [t|] eqn:E.
    - apply find_index_Some in E as (p & Hp & Np & Hf).
      assert (Ht : t < length (n_points n)) by (apply nth_error_Some; congruence).
      destruct (iv_vert _ _ _ I t Ht) as (tg & V & Vt).
      rewrite (find_index_exists _ _ (vpos t) _ V).
      + exists n, t. split; auto. split; [exists p; auto|]. split; [exists []; rewrite app_nil_r; auto|].
        split; [exists []; rewrite app_nil_r; auto|]. split; auto. apply I.
      + simpl. apply eqb_refl.
      + intros j c Hj Q. apply andb_prop in Q as [Q1 Q2]. apply Nat.eqb_eq in Q1. rewrite eqb_true in Q2.
        assert (Hjl : j < length (n_cells n)) by (apply nth_error_Some; congruence).
        destruct (position_cases _ j Hjl L2) as [(k & Hk & ->)|(t' & Ht' & ->)].
        * rewrite (iv_line _ _ _ I k Hk) in Hj. inversion Hj. subst c. discriminate.
        * rewrite <- L1 in Ht'. destruct (iv_vert _ _ _ I t' Ht') as (tg' & V' & _). rewrite V' in Hj. inversion Hj. subst c.
          simpl in Q2. inversion Q2. reflexivity.
    - pose proof (find_index_None _ _ E) as F.
      assert (VP : vpos (length (n_points n)) = length (n_cells n)).
      { unfold vpos. destruct (Nat.ltb_spec (length (n_points n)) (2 * N)); lia. }
      exists (mk_network (n_cells n ++ [mk_gcell 0 (length (n_cells n)) tag (Some (length (n_points n))) [] []]) (n_points n ++ [x])), (length (n_points n)).
      rewrite VP. split; auto. cbn [FracModel.n_points FracModel.n_cells]. split; [|split; [|split; [|split]]]; eauto.
      + exists x. rewrite nth_error_app_new. split; auto. split; auto. intros t' p' Ht Hp.
        rewrite nth_error_app_1 in Hp by auto. apply F. eapply nth_error_In; eauto.
      + rewrite !app_length. simpl. lia.
      + intros t Ht. rewrite app_length in Ht. simpl in Ht. destruct (Nat.eq_dec t (length (n_points n))) as [->|Hn].
        * rewrite VP. exists tag. split; [apply nth_error_app_new|]. split; [lia|]. intros _. destruct Tg as (i & j & a & b & p & q & H1 & H2 & H3 & H4 & H5).
          exists i, j, a, b, p, q, x. do 4 (split; auto). split; [apply nth_error_app_new|]. split; auto.
          intros t' p' Ht' Hp'. rewrite nth_error_app_1 in Hp' by auto. apply F. eapply nth_error_In; eauto.
        * destruct (iv_vert _ _ _ I t) as (tg & V & Vt); [lia|]. exists tg. split; [rewrite nth_error_app_1; auto; apply nth_error_Some; congruence|apply vtag_app; auto].
  Qed.

  Lemma recorded_app done ps l k v : recorded done ps k v -> recorded done (ps ++ l) k v.
  Proof.
    intros (i & j & a & b & p & q & x & t & H1 & H2 & H3 & H4 & H5 & H6 & H7).
    exists i, j, a, b, p, q, x, t. repeat (split; auto). apply first_near_app; auto.
  Qed.
  (** nothing recorded earlier disappears or appears when points are appended *)
  Lemma recorded_app_inv done ps l k v :
    (forall i j a b p q x, In (i, j) done -> nth_error segs i = Some (a, b) -> nth_error segs j = Some (p, q) -> isect a b p q = Some x ->
       exists t, first_near ps x t) ->
    recorded done (ps ++ l) k v -> recorded done ps k v.
  Proof.
    intros F (i & j & a & b & p & q & x & t & H1 & H2 & H3 & H4 & H5 & H6 & H7).
    destruct (F _ _ _ _ _ _ _ H1 H3 H4 H5) as (t' & Ht'). assert (t = t').
    { eapply first_near_unique; [exact H6|]. apply first_near_app; auto. }
    subst t'. exists i, j, a, b, p, q, x, t. repeat (split; auto).
  Qed.

  Lemma modify_spec cs i f c : nth_error cs i = Some c -> modify cs i f = Ok (set_at cs i (f c)).
  Proof. intros H. unfold modify. rewrite (get_at_nth_error _ _ _ H). reflexivity. Qed.

  Definition covered (done : list (nat * nat)) (ps : list P) : Prop :=
    forall i j a b p q x, In (i, j) done -> nth_error segs i = Some (a, b) -> nth_error segs j = Some (p, q) -> isect a b p q = Some x ->
       exists t, first_near ps x t.

  Lemma pair_step imm done n i j a b : Inv imm done n -> covered done (n_points n) -> i < j -> j < N ->
    nth_error segs i = Some (a, b) ->
    exists n' imm', intersect_pair P isect near a b (3 * i + 2) n (3 * j + 2) = Ok n' /\
      Inv imm' (done ++ [(i, j)]) n' /\ covered (done ++ [(i, j)]) (n_points n').
  Proof.
    intros I Cv Hij Hj Hi. assert (Hi' : i < N) by lia. unfold intersect_pair.
    destruct (nth_error segs j) as [(p, q)|] eqn:Ej; [|apply nth_error_None in Ej; lia].
    rewrite (ends_spec _ _ _ _ _ _ I Ej). cbn [bind]. destruct (isect a b p q) as [x|] eqn:X.
    2:{ exists n, imm. split; auto. split.
        - destruct I. constructor; auto. intros k v Hk. rewrite iv_imm0 by auto. unfold recorded. split.
          + intros (i' & j' & a' & b' & p' & q' & x' & t & H1 & H). exists i', j', a', b', p', q', x', t. rewrite in_app_iff. auto.
          + intros (i' & j' & a' & b' & p' & q' & x' & t & H1 & H2 & H3 & H4 & H5 & H6).
            exists i', j', a', b', p', q', x', t. split; auto. apply in_app_iff in H1 as [H1|[H1|[]]]; auto. inversion H1; subst. congruence.
        - intros i' j' a' b' p' q' x' H1 H3 H4 H5. apply in_app_iff in H1 as [H1|[H1|[]]]; [eapply Cv; eauto|]. inversion H1; subst. congruence. }
    rewrite (get_at_nth_error _ _ _ (iv_line _ _ _ I i Hi')), (get_at_nth_error _ _ _ (iv_line _ _ _ I j Hj)). cbn [bind].
    destruct (insert_vertex_spec imm done n x (pair_integers (gc_tag (line_of i (imm i))) (gc_tag (line_of j (imm j)))) I)
      
      as (n' & t & E & Fn & (lp & Lp) & (lc & Lc) & Len & Vert).
    { exists i, j, a, b, p, q. repeat (split; auto). }
    rewrite E. cbn [bind].
    assert (OldL : forall k, k < N -> nth_error (n_cells n') (3 * k + 2) = Some (line_of k (imm k))).
    { intros k Hk. rewrite Lc, nth_error_app_1; [apply I; auto|]. destruct (iv_len _ _ _ I). lia. }
    rewrite (modify_spec _ _ _ _ (OldL i Hi')). cbn [bind].
    assert (L3 : 3 * N <= length (n_cells n')) by (rewrite Lc, app_length; destruct (iv_len _ _ _ I); lia).
    assert (Lj : nth_error (set_at (n_cells n') (3 * i + 2) (add_immersed (line_of i (imm i)) (vpos t))) (3 * j + 2) = Some (line_of j (imm j))).
    { rewrite nth_error_set_at_other by lia. apply OldL. auto. }
    rewrite (modify_spec _ _ _ _ Lj). cbn [bind].
    eexists. exists (fun k => if (k =? i) || (k =? j) then imm k ++ [vpos t] else imm k). split; [reflexivity|].
    assert (Cv' : covered (done ++ [(i, j)]) (n_points n')).
    { intros i' j' a' b' p' q' x' H1 H3 H4 H5. apply in_app_iff in H1 as [H1|[H1|[]]].
      - destruct (Cv _ _ _ _ _ _ _ H1 H3 H4 H5) as (t' & Ht'). exists t'. rewrite Lp. apply first_near_app; auto.
      - inversion H1; subst. assert (x' = x) by congruence. subst. eauto. }
    split; [|exact Cv']. constructor; cbn [FracModel.n_cells FracModel.n_points].
    - rewrite !length_set_at. split; auto.
    - intros k a' b' H. rewrite Lp. destruct (iv_pts _ _ _ I _ _ _ H) as [A B].
      rewrite !nth_error_app_1 by (apply nth_error_Some; congruence). auto.
    - intros k Hk. destruct (Nat.eqb_spec k j) as [->|Hkj].
      + rewrite orb_true_r. rewrite nth_error_set_at_same; [reflexivity|]. rewrite length_set_at. lia.
      + rewrite nth_error_set_at_other by lia. destruct (Nat.eqb_spec k i) as [->|Hki]; simpl orb.
        * rewrite nth_error_set_at_same by lia. reflexivity.
        * rewrite nth_error_set_at_other by lia. apply OldL; auto.
    - intros t' Ht'. destruct (Vert t' Ht') as (tg & V & Vt). exists tg. split; [|exact Vt].
      rewrite !nth_error_set_at_other by (intros Q; symmetry in Q; revert Q; apply vpos_not_line; lia). exact V.
    - intros k v Hk. assert (R : In v (imm k) <-> recorded done (n_points n') k v).
      { rewrite (iv_imm _ _ _ I) by auto. rewrite Lp. split; [apply recorded_app|]. apply recorded_app_inv. exact Cv. }
      assert (R2 : recorded (done ++ [(i, j)]) (n_points n') k v <-> recorded done (n_points n') k v \/ ((k = i \/ k = j) /\ v = vpos t)).
      { unfold recorded. split.
        - intros (i' & j' & a' & b' & p' & q' & x' & t' & H1 & H2 & H3 & H4 & H5 & H6 & H7).
          apply in_app_iff in H1 as [H1|[H1|[]]].
          + left. exists i', j', a', b', p', q', x', t'. auto 10.
          + inversion H1; subst i' j'. right. split; auto. assert (x' = x) by congruence. subst x'. rewrite H7. f_equal.
            eapply first_near_unique; eauto.
        - intros [(i' & j' & a' & b' & p' & q' & x' & t' & H1 & H)|[H ->]].
          + exists i', j', a', b', p', q', x', t'. rewrite in_app_iff. auto.
          + exists i, j, a, b, p, q, x, t. rewrite in_app_iff. simpl. auto 10. }
      rewrite R2, <- R. destruct (Nat.eqb_spec k i), (Nat.eqb_spec k j); simpl orb; cbv iota; rewrite ?in_app_iff; simpl; intuition.
  Qed.

  (** *** all pairs *)
  Lemma inner_loop i a b : nth_error segs i = Some (a, b) -> forall m s imm done n, i < s -> s + m = N ->
    Inv imm done n -> covered done (n_points n) ->
    exists n' imm', foldM (intersect_pair P isect near a b (3 * i + 2)) (map (fun k => 3 * k + 2) (seq s m)) n = Ok n' /\
      Inv imm' (done ++ map (pair i) (seq s m)) n' /\ covered (done ++ map (pair i) (seq s m)) (n_points n').
  Proof.
    intros Hi. induction m as [|m IH]; intros s imm done n His Hs I C.
    - exists n, imm. cbn [seq map foldM]. rewrite app_nil_r. auto.
    - cbn [seq map foldM]. destruct (pair_step imm done n i s a b I C His ltac:(lia) Hi) as (n1 & imm1 & E1 & I1 & C1).
      rewrite E1. cbn [bind]. destruct (IH (S s) imm1 _ n1 ltac:(lia) ltac:(lia) I1 C1) as (n' & imm' & E & I' & C').
      exists n', imm'. rewrite <- app_assoc in I', C'. auto.
  Qed.
  Lemma all_ends imm done n : Inv imm done n -> exists l, mapM (ends P n) (map (fun k => 3 * k + 2) (seq 0 N)) = Ok l.
  Proof.
    intros I. enough (G : forall m s, s + m = N -> exists l, mapM (ends P n) (map (fun k => 3 * k + 2) (seq s m)) = Ok l) by (apply G; lia).
    induction m as [|m IH]; intros s Hs; [exists []; reflexivity|]. cbn [seq map mapM].
    destruct (nth_error segs s) as [(a, b)|] eqn:E; [|apply nth_error_None in E; lia].
    rewrite (ends_spec _ _ _ _ _ _ I E). cbn [bind]. destruct (IH (S s) ltac:(lia)) as (l & ->). eexists. reflexivity.
  Qed.
  Lemma outer_loop : forall m s imm done n, s + m = N -> Inv imm done n -> covered done (n_points n) ->
    (forall i j, In (i, j) done <-> i < j < N /\ i < s) ->
    exists n' imm' done', intersect_all P isect near (map (fun k => 3 * k + 2) (seq s m)) (map (fun k => 3 * k + 2) (seq 0 N)) n = Ok n' /\
      Inv imm' done' n' /\ (forall i j, In (i, j) done' <-> i < j < N) /\ covered done' (n_points n').
  Proof.
    induction m as [|m IH]; intros s imm done n Hs I C D.
    - exists n, imm, done. split; auto. split; auto. split; auto. intros i j. rewrite D. lia.
    - cbn [seq map intersect_all]. destruct (nth_error segs s) as [(a, b)|] eqn:E; [|apply nth_error_None in E; lia].
      rewrite (ends_spec _ _ _ _ _ _ I E). cbn [bind]. destruct (all_ends _ _ _ I) as (l & ->). cbn [bind].
      destruct (inner_loop s a b E m (S s) imm done n ltac:(lia) ltac:(lia) I C) as (n1 & imm1 & E1 & I1 & C1).
      rewrite E1. cbn [bind]. apply (IH (S s) imm1 _ n1 ltac:(lia) I1 C1).
      intros i j. rewrite in_app_iff, D, in_map_iff. split.
      + intros [H|(j' & Q & H)]; [lia|]. inversion Q; subst. apply in_seq in H. lia.
      + intros [H1 H2]. destruct (Nat.eq_dec i s) as [->|]; [|left; lia]. right. exists j. split; auto. apply in_seq. lia.
  Qed.

  (** *** the pieces *)
  Lemma insert_pieces i tag c : forall cons cs, i < length cs ->
    nth_error cs i = Some c -> (forall u v, In (u, v) cons -> u < length cs /\ v < length cs) ->
    exists cs', foldM (insert_piece i tag) cons (cs, length cs) = Ok (cs', length cs + length cons) /\
      length cs' = length cs + length cons /\
      nth_error cs' i = Some (mk_gcell (gc_dim c) (gc_id c) (gc_tag c) (gc_pid c) (gc_bc c) (gc_imm c ++ seq (length cs) (length cons))) /\
      (forall j, j < length cs -> j <> i -> nth_error cs' j = nth_error cs j) /\
      (forall t u v, nth_error cons t = Some (u, v) -> nth_error cs' (length cs + t) = Some (mk_gcell 1 (length cs + t) tag None [u; v] [])).
  Proof.
    intros cons. revert c. induction cons as [|(u, v) cons IH]; intros c cs Hi Hc Hb.
    - exists cs. cbn [foldM length seq]. rewrite Nat.add_0_r, app_nil_r. split; [reflexivity|]. split; auto. split; [destruct c; auto|].
      split; auto. intros [|t]; discriminate.
    - cbn [foldM]. unfold insert_piece at 1. cbn [fst snd]. destruct (Hb u v (or_introl eq_refl)) as [Hu Hv].
      destruct (nth_error cs u) as [cu|] eqn:Eu; [|apply nth_error_None in Eu; lia].
      destruct (nth_error cs v) as [cv|] eqn:Ev; [|apply nth_error_None in Ev; lia].
      rewrite (get_at_nth_error _ _ _ Eu), (get_at_nth_error _ _ _ Ev). cbn [bind].
      assert (Hc1 : nth_error (cs ++ [mk_gcell 1 (length cs) tag None [u; v] []]) i = Some c) by (rewrite nth_error_app_1; auto).
      rewrite (modify_spec _ _ _ _ Hc1). cbn [bind].
      set (cs1 := set_at _ i _). assert (L1 : length cs1 = length cs + 1) by (unfold cs1; rewrite length_set_at, app_length; reflexivity).
      rewrite <- L1. destruct (IH (add_immersed c (length cs)) cs1) as (cs' & E & L & A & B & T).
      + lia.
      + unfold cs1. rewrite nth_error_set_at_same; auto. rewrite app_length. simpl. lia.
      + intros u' v' H. destruct (Hb u' v' (or_intror H)). lia.
      + exists cs'. rewrite E. cbn [length]. split; [f_equal; f_equal; lia|]. split; [lia|]. split; [|split].
        * rewrite A. destruct c as [c1 c2 c3 c4 c5 c6]; simpl. f_equal. f_equal. rewrite <- app_assoc. simpl. rewrite L1. do 2 f_equal. f_equal. lia.
        * intros j Hj Hji. rewrite B by lia. unfold cs1. rewrite nth_error_set_at_other by auto. apply nth_error_app_1. auto.
        * intros [|t] u' v' H.
          -- simpl in H. inversion H; subst u' v'. rewrite Nat.add_0_r. rewrite B by lia. unfold cs1.
             rewrite nth_error_set_at_other by lia. apply nth_error_app_new.
          -- simpl in H. specialize (T t u' v' H). replace (length cs + S t) with (length cs1 + t) by lia. exact T.
  Qed.

  Lemma consecutive_spec l : length (consecutive l) = length l - 1 /\
    forall t u v, nth_error (consecutive l) t = Some (u, v) <-> nth_error l t = Some u /\ nth_error l (t + 1) = Some v.
  Proof.
    induction l as [|x l [IH1 IH2]].
    - split; auto. intros [|t] u v; split; try discriminate; intros [? _]; discriminate.
    - destruct l as [|y l].
      + split; auto. intros [|t] u v; split; try discriminate; intros [? ?]; try destruct t; discriminate.
      + change (consecutive (x :: y :: l)) with ((x, y) :: consecutive (y :: l)). split; [cbn [length]; rewrite IH1; simpl; lia|].
        intros [|t] u v.
        * simpl. split; [intros H; inversion H; auto|intros [H1 H2]; congruence].
        * cbn [nth_error]. rewrite IH2. simpl. reflexivity.
  Qed.

  (** *** order *)
  Lemma before_uniq l : forall seen v w, before (uniq_acc seen l) v w -> before l v w.
  Proof.
    induction l as [|x l IH]; intros seen v w (i & j & Hij & Hi & Hj); [destruct i; discriminate|].
    simpl in Hi, Hj. destruct (memb x seen).
    - destruct (IH seen v w) as (i' & j' & H & A & B); [exists i, j; auto|]. exists (S i'), (S j'). split; [lia|auto].
    - destruct j as [|j]; [lia|]. destruct i as [|i]; simpl in Hi, Hj.
      + inversion Hi; subst. assert (In w l).
        { eapply nth_error_In in Hj. apply In_uniq_acc in Hj. tauto. }
        destruct (In_nth_error _ _ H) as (j' & Hj'). exists 0, (S j'). split; [lia|auto].
      + destruct (IH (seen ++ [x]) v w) as (i' & j' & H & A & B); [exists i, j; split; [lia|auto]|]. exists (S i'), (S j'). split; [lia|auto].
  Qed.
  Lemma before_app l1 l2 v w : before (l1 ++ l2) v w -> ~ In w l2 -> before l1 v w.
  Proof.
    intros (i & j & Hij & Hi & Hj) H. assert (Hl : j < length l1).
    { destruct (Nat.lt_ge_cases j (length l1)); auto. exfalso. rewrite nth_error_app_2 in Hj by auto. apply H. eapply nth_error_In; eauto. }
    rewrite nth_error_app_1 in Hi, Hj by lia. exists i, j. auto.
  Qed.
  Lemma before_cons l x v w : before (x :: l) v w -> v <> x -> before l v w.
  Proof.
    intros (i & j & Hij & Hi & Hj) H. destruct i as [|i]; [simpl in Hi; congruence|]. destruct j as [|j]; [lia|].
    exists i, j. split; [lia|auto].
  Qed.

  (** *** splitting one line *)
  Definition vertex_at (cs : list gcell) (points : list P) (v : nat) (x : P) : Prop :=
    exists t tag, nth_error cs v = Some (mk_gcell 0 v tag (Some t) [] []) /\ nth_error points t = Some x.
  Lemma vertices_of cs points imm : (forall v, In v imm -> exists x, vertex_at cs points v x) ->
    exists vc pids xs, mapM (get_at cs) imm = Ok vc /\ map gc_id vc = imm /\
      mapM (fun v => match gc_pid v with None => Err TypeError | Some t => Ok t end) vc = Ok pids /\
      mapM (get_at points) pids = Ok xs /\ Forall2 (vertex_at cs points) imm xs.
  Proof.
    induction imm as [|v imm IH]; intros H.
    - exists [], [], []. repeat split; auto.
    - destruct (H v (or_introl eq_refl)) as (x & t & tag & Hv & Hx). destruct IH as (vc & pids & xs & A & B & C & D & F); [intros; apply H; simpl; auto|].
      exists (mk_gcell 0 v tag (Some t) [] [] :: vc), (t :: pids), (x :: xs). cbn [mapM map gc_pid gc_id].
      rewrite (get_at_nth_error _ _ _ Hv). cbn [bind]. rewrite A. cbn [bind]. rewrite C. cbn [bind mapM].
      rewrite (get_at_nth_error _ _ _ Hx). cbn [bind]. rewrite D. cbn [bind]. rewrite B. repeat split; auto.
      constructor; auto. exists t, tag. auto.
  Qed.
  Lemma Forall2_len {A B} (R : A -> B -> Prop) l l' : Forall2 R l l' -> length l = length l'.
  Proof. induction 1; simpl; auto. Qed.
  Lemma Forall2_nth_error {A B} (R : A -> B -> Prop) l l' i a b : Forall2 R l l' -> nth_error l i = Some a -> nth_error l' i = Some b -> R a b.
  Proof.
    intros H. revert i. induction H; intros [|i] H1 H2; simpl in *; try discriminate; [congruence|eauto].
  Qed.
  Lemma map_nth_seq (l : list nat) : map (fun k => nth k l 0) (seq 0 (length l)) = l.
  Proof.
    induction l as [|x l IH]; auto. cbn [length seq map]. f_equal; auto. rewrite <- seq_shift, map_map. exact IH.
  Qed.
  Lemma sorted_ids vc l : (forall k, In k l -> k < length vc) ->
    mapM (fun k => do v <- get_at vc k; Ok (gc_id v)) l = Ok (map (fun k => nth k (map gc_id vc) 0) l).
  Proof.
    induction l as [|k l IH]; intros H; auto. cbn [mapM map]. pose proof (H k (or_introl eq_refl)) as Hk.
    destruct (nth_error vc k) as [c|] eqn:E; [|apply nth_error_None in E; lia].
    rewrite (get_at_nth_error _ _ _ E). cbn [bind]. rewrite IH by (intros; apply H; simpl; auto). cbn [bind].
    do 2 f_equal. symmetry. apply nth_error_nth. rewrite nth_error_map, E. reflexivity.
  Qed.

  Hypothesis argsort_perm : forall xs o, Permutation (argsort xs o) (seq 0 (length xs)).

  Definition sorted_in (points : list P) (cs : list gcell) (a : P) (imm : list nat) (v w : nat) : Prop :=
    exists xs i j u1 u2, Forall2 (vertex_at cs points) imm xs /\ i < j /\ nth_error (argsort xs a) i = Some u1 /\ nth_error (argsort xs a) j = Some u2 /\
      nth_error imm u1 = Some v /\ nth_error imm u2 = Some w.

  Lemma split_line_spec points cs k imm a b : k < N ->
    nth_error cs (3 * k + 2) = Some (line_of k imm) ->
    vertex_at cs points (3 * k) a -> vertex_at cs points (3 * k + 1) b ->
    (forall v, In v imm -> exists x, vertex_at cs points v x) ->
    (imm = [] -> split_line P argsort points (cs, length cs) (3 * k + 2) = Ok (cs, length cs)) /\
    (imm <> [] -> exists cs' chain, split_line P argsort points (cs, length cs) (3 * k + 2) = Ok (cs', length cs') /\
       length cs' = length cs + (length chain - 1) /\
       nth_error cs' (3 * k + 2) = Some (line_of k (seq (length cs) (length chain - 1))) /\
       (forall j, j < length cs -> j <> 3 * k + 2 -> nth_error cs' j = nth_error cs j) /\
       (forall t u v, nth_error chain t = Some u -> nth_error chain (t + 1) = Some v ->
          nth_error cs' (length cs + t) = Some (mk_gcell 1 (length cs + t) (tag_of k) None [u; v] [])) /\
       NoDup chain /\ (forall v, In v chain <-> v = 3 * k \/ v = 3 * k + 1 \/ In v imm) /\
       (~ In (3 * k) imm -> hd_error chain = Some (3 * k)) /\ (~ In (3 * k + 1) imm -> exists l, chain = l ++ [3 * k + 1]) /\
       (forall v w, before chain v w -> In v imm -> In w imm -> sorted_in points cs a imm v w)).
  Proof.
    intros Hk Hl (ta & tga & Va & Xa) (tb & tgb & Vb & Xb) Hv. unfold split_line. rewrite (get_at_nth_error _ _ _ Hl). cbn [bind line_of gc_bc mapM].
    rewrite (get_at_nth_error _ _ _ Va), (get_at_nth_error _ _ _ Vb). cbn [bind map gc_id gc_imm line_of].
    destruct (vertices_of cs points imm Hv) as (vc & pids & xs & A & B & C & D & F). rewrite A. cbn [bind]. split.
    - intros ->. destruct vc; [reflexivity|discriminate].
    - intros Hne. destruct vc as [|c0 vc0] eqn:Evc; [subst imm; contradiction Hne; reflexivity|]. rewrite <- Evc in *. clear Evc.
      rewrite C. cbn [bind]. rewrite D. cbn [bind]. rewrite (get_at_nth_error _ _ _ Va). cbn [bind gc_pid].
      rewrite (get_at_nth_error _ _ _ Xa). cbn [bind].
      assert (Lv : length vc = length xs) by (rewrite <- (Forall2_len _ _ _ F), <- B, map_length; auto).
      assert (Pm := argsort_perm xs a).
      rewrite sorted_ids. 2:{ intros i Hi. apply (Permutation_in _ Pm), in_seq in Hi. lia. }
      cbn [bind]. rewrite B.
      set (sorted := map _ (argsort xs a)).
      assert (Ps : Permutation sorted imm).
      { unfold sorted. transitivity (map (fun i => nth i imm 0) (seq 0 (length imm))); [|rewrite map_nth_seq; reflexivity].
        rewrite (Forall2_len _ _ _ F). apply Permutation_map. exact Pm. }
      set (l0 := uniq sorted). assert (I0 : forall v, In v l0 <-> In v imm).
      { intros v. unfold l0. rewrite In_uniq. split; apply Permutation_in; [exact Ps|symmetry; exact Ps]. }
      assert (N0 : NoDup l0) by apply NoDup_uniq.
      set (l1 := if memb (3 * k) l0 then l0 else 3 * k :: l0).
      assert (I1 : forall v, In v l1 <-> v = 3 * k \/ In v imm).
      { intros v. unfold l1. destruct (memb (3 * k) l0) eqn:M.
        - apply memb_In in M. rewrite I0 in *. split; auto. intros [->|]; auto.
        - simpl. rewrite I0. intuition. }
      assert (N1 : NoDup l1).
      { unfold l1. destruct (memb (3 * k) l0) eqn:M; auto. constructor; auto. apply memb_notIn. auto. }
      set (l2 := if memb (3 * k + 1) l1 then l1 else l1 ++ [3 * k + 1]).
      assert (I2 : forall v, In v l2 <-> v = 3 * k \/ v = 3 * k + 1 \/ In v imm).
      { intros v. unfold l2. destruct (memb (3 * k + 1) l1) eqn:M.
        - apply memb_In in M. rewrite I1 in *. split; [tauto|]. intros [->|[->|]]; auto.
        - rewrite in_app_iff, I1. simpl. intuition. }
      assert (N2 : NoDup l2).
      { unfold l2. destruct (memb (3 * k + 1) l1) eqn:M; auto. apply NoDup_app_single; auto. apply memb_notIn. auto. }
      rewrite (modify_spec _ _ _ _ Hl). cbn [bind]. set (cs1 := set_at cs _ _).
      assert (L1 : length cs1 = length cs) by (unfold cs1; apply length_set_at).
      assert (HL : 3 * k + 2 < length cs) by (apply nth_error_Some; congruence).
      destruct (consecutive_spec l2) as [CL CN].
      destruct (insert_pieces (3 * k + 2) (tag_of k) (clear_immersed (line_of k imm)) (consecutive l2) cs1) as (cs' & E & L & G1 & G2 & G3).
      + lia.
      + unfold cs1. rewrite nth_error_set_at_same; auto.
      + intros u v Huv. assert (forall w, In w l2 -> w < length cs).
        { intros w Hw. apply I2 in Hw as [->|[->|Hw]]; try lia. destruct (Hv w Hw) as (x & t & tag & Hx & _). apply nth_error_Some. congruence. }
        apply In_nth_error in Huv as (t & Ht). apply CN in Ht as [H1 H2]. rewrite L1. split; apply H; eapply nth_error_In; eauto.
      + rewrite L1 in *. exists cs', l2. split; [|split; [|split; [|split; [|split; [|split; [|split; [|split; [|split]]]]]]]]; auto.
        * etransitivity; [exact E|]. f_equal. f_equal. lia.
        * lia.
        * rewrite G1. simpl. rewrite CL. reflexivity.
        * intros j Hj Hjk. rewrite G2 by auto. unfold cs1. apply nth_error_set_at_other. auto.
        * intros t u v H1 H2. apply G3. apply CN. auto.
        * intros Hb. unfold l2, l1. rewrite <- I0 in Hb. apply memb_notIn in Hb. rewrite Hb.
          destruct (memb (3 * k + 1) (3 * k :: l0)); reflexivity.
        * intros Hb. exists l1. unfold l2. assert (M : ~ In (3 * k + 1) l1) by (rewrite I1; intros [|]; [lia|contradiction]).
          apply memb_notIn in M. rewrite M. reflexivity.
        * intros v w Hbf Iv Iw. assert (B0 : before l0 v w).
          { assert (B1 : before l1 v w).
            { unfold l2 in Hbf. destruct (memb (3 * k + 1) l1) eqn:M; auto. eapply before_app; [exact Hbf|]. intros [Q|[]].
              subst w. apply memb_notIn in M. apply M. apply I1. auto. }
            unfold l1 in B1. destruct (memb (3 * k) l0) eqn:M; auto. eapply before_cons; [exact B1|]. intros ->.
            apply memb_notIn in M. apply M. apply I0. auto. }
          apply before_uniq in B0. destruct B0 as (i & j & Hij & Hi & Hj). unfold sorted in Hi, Hj.
          rewrite nth_error_map in Hi, Hj.
          destruct (nth_error (argsort xs a) i) as [u1|] eqn:E1; [|discriminate].
          destruct (nth_error (argsort xs a) j) as [u2|] eqn:E2; [|discriminate]. simpl in Hi, Hj.
          assert (R : forall i u, nth_error (argsort xs a) i = Some u -> u < length imm).
          { intros i' u Hu. apply nth_error_In in Hu. apply (Permutation_in _ Pm), in_seq in Hu. rewrite (Forall2_len _ _ _ F). lia. }
          exists xs, i, j, u1, u2. split; auto. split; auto. split; auto. split; auto. split.
          -- rewrite (nth_error_nth' imm 0) by eauto. exact Hi.
          -- rewrite (nth_error_nth' imm 0) by eauto. exact Hj.
  Qed.

  (** *** splitting all lines *)
  Record split_done (n1 : network) (imm : nat -> list nat) (cs : list gcell) (k : nat) (imm' chain : list nat) : Prop := {
    sd_line : nth_error cs (3 * k + 2) = Some (line_of k imm');
    sd_nodup : NoDup chain;
    sd_in : forall v, In v chain <-> v = 3 * k \/ v = 3 * k + 1 \/ In v (imm k);
    sd_none : imm k = [] -> imm' = [];
    sd_pieces : imm k <> [] -> exists s, length (n_cells n1) <= s /\ imm' = seq s (length chain - 1) /\
       forall t u v, nth_error chain t = Some u -> nth_error chain (t + 1) = Some v ->
          nth_error cs (s + t) = Some (mk_gcell 1 (s + t) (tag_of k) None [u; v] []);
    sd_head : ~ In (3 * k) (imm k) -> hd_error chain = Some (3 * k);
    sd_last : ~ In (3 * k + 1) (imm k) -> exists l, chain = l ++ [3 * k + 1];
    sd_order : forall v w a b, nth_error segs k = Some (a, b) -> before chain v w -> In v (imm k) -> In w (imm k) ->
       sorted_in (n_points n1) (n_cells n1) a (imm k) v w }.

  Lemma split_done_stable n1 imm cs cs' k imm' chain i : k < N -> 3 * N <= length (n_cells n1) ->
    (forall j, j < length cs -> j <> 3 * i + 2 -> nth_error cs' j = nth_error cs j) -> i < N -> i <> k ->
    split_done n1 imm cs k imm' chain -> split_done n1 imm cs' k imm' chain.
  Proof.
    intros Hk Hn Same Hi Hik S. destruct S. constructor; auto.
    - rewrite Same; auto; [|lia]. apply nth_error_Some. congruence.
    - intros H. destruct (sd_pieces0 H) as (s & Hs & E & Q). exists s. split; auto. split; auto. intros t u v H1 H2.
      rewrite Same; auto; [|lia]. apply nth_error_Some. rewrite (Q _ _ _ H1 H2). discriminate.
  Qed.

  (** [c] is the piece number [i] between two vertices, immersed in one of the first [s] lines *)
  Definition piece (n1 : network) (cs : list gcell) (s i : nat) (c : gcell) : Prop :=
    exists k t u imm', k < s /\ nth_error cs (3 * k + 2) = Some (line_of k imm') /\ In i imm' /\ t < length (n_points n1) /\ u < length (n_points n1) /\ c = mk_gcell 1 i (tag_of k) None [vpos t; vpos u] [].
  Lemma split_all imm done n1 : Inv imm done n1 -> forall m s cs, s + m = N ->
    length (n_cells n1) <= length cs ->
    (forall j, j < length (n_cells n1) -> (forall k, k < s -> j <> 3 * k + 2) -> nth_error cs j = nth_error (n_cells n1) j) ->
    (forall k, k < s -> exists imm' chain, split_done n1 imm cs k imm' chain) ->
    (forall i c, length (n_cells n1) <= i -> nth_error cs i = Some c -> piece n1 cs s i c) ->
    exists cs', foldM (split_line P argsort (n_points n1)) (map (fun k => 3 * k + 2) (seq s m)) (cs, length cs) = Ok (cs', length cs') /\
      length (n_cells n1) <= length cs' /\
      (forall j, j < length (n_cells n1) -> (forall k, k < N -> j <> 3 * k + 2) -> nth_error cs' j = nth_error (n_cells n1) j) /\
      (forall k, k < N -> exists imm' chain, split_done n1 imm cs' k imm' chain) /\
      (forall i c, length (n_cells n1) <= i -> nth_error cs' i = Some c -> piece n1 cs' N i c).
  Proof.
    intros I. destruct (iv_len _ _ _ I) as [Len1 Len2]. induction m as [|m IH]; intros s cs Hs Lc Same Done Ids.
    - exists cs. assert (s = N) by lia. subst s. auto.
    - cbn [seq map foldM]. destruct (nth_error segs s) as [(a, b)|] eqn:Es; [|apply nth_error_None in Es; lia].
      assert (HsN : s < N) by lia.
      assert (VA : forall t x, nth_error (n_points n1) t = Some x -> vertex_at cs (n_points n1) (vpos t) x /\ vertex_at (n_cells n1) (n_points n1) (vpos t) x).
      { intros t x Hx. assert (Ht : t < length (n_points n1)) by (apply nth_error_Some; congruence).
        destruct (iv_vert _ _ _ I t Ht) as (tg & V & Vt). split; exists t, tg; split; auto.
        rewrite Same; auto; [apply nth_error_Some; congruence|]. intros k Hk. apply vpos_not_line. lia. }
      destruct (iv_pts _ _ _ I _ _ _ Es) as [Pa Pb].
      assert (Va := proj1 (VA _ _ Pa)). assert (Vb := proj1 (VA _ _ Pb)). rewrite vpos_even in Va by auto. rewrite vpos_odd in Vb by auto.
      assert (Vi : forall v, In v (imm s) -> exists t x, v = vpos t /\ nth_error (n_points n1) t = Some x).
      { intros v Hv. apply (iv_imm _ _ _ I) in Hv; auto. destruct Hv as (i & j & a' & b' & p & q & x & t & _ & _ & _ & _ & _ & (p' & F & _) & ->). eauto. }
      assert (Ln : nth_error cs (3 * s + 2) = Some (line_of s (imm s))).
      { rewrite Same; [apply I; auto|lia|intros; lia]. }
      destruct (split_line_spec (n_points n1) cs s (imm s) a b HsN Ln Va Vb) as [Z1 Z2].
      { intros v Hv. destruct (Vi v Hv) as (t & x & -> & Hx). exists x. apply VA. auto. }
      destruct (list_eq_dec Nat.eq_dec (imm s) []) as [E|E].
      + rewrite (Z1 E). cbn [bind]. apply IH; [lia|exact Lc|intros j Hj Hq; apply Same; auto| |
          intros i c Hi Hc; destruct (Ids i c Hi Hc) as (k0 & t0 & u0 & im0 & Hk0 & Q); exists k0, t0, u0, im0; split; [lia|exact Q]].
        intros k Hk. destruct (Nat.eq_dec k s) as [->|Hks]; [|apply Done; lia].
        exists [], [3 * s; 3 * s + 1]. constructor; auto.
        * rewrite Ln, E. reflexivity.
        * constructor; [simpl; intros [|[]]; lia|]. constructor; [intros []|constructor].
        * intros v. rewrite E. simpl. intuition.
        * congruence.
        * intros _. exists [3 * s]. reflexivity.
        * intros v w a' b' _ _ Hv. rewrite E in Hv. destruct Hv.
      + destruct (Z2 E) as (cs' & chain & R & L & A & B & C & D & F & G & H & J). rewrite R. cbn [bind].
        apply IH; [lia|lia| | |].
        * intros j Hj Hk. rewrite B; [|lia|apply Hk; lia]. apply Same; auto.
        * intros k Hk. destruct (Nat.eq_dec k s) as [->|Hks].
          -- exists (seq (length cs) (length chain - 1)), chain. constructor; auto.
             ++ congruence.
             ++ intros _. exists (length cs). auto.
             ++ intros v w a' b' Hab Hb Hv Hw. assert (a' = a) by congruence. subst a'.
                destruct (J v w Hb Hv Hw) as (xs & i & j & u1 & u2 & F2 & Q). exists xs, i, j, u1, u2. split; [|exact Q].
                assert (T : forall l xs, (forall v, In v l -> In v (imm s)) -> Forall2 (vertex_at cs (n_points n1)) l xs -> Forall2 (vertex_at (n_cells n1) (n_points n1)) l xs).
                { clear - Vi VA. intros l xs Hl F. induction F as [|v' x' l' xs' Hx F IHF]; constructor.
                  - destruct (Vi v') as (t & x & -> & Ht); [apply Hl; simpl; auto|]. destruct (VA t x Ht) as [V1 V2].
                    destruct V1 as (t1 & tg1 & P1 & Q1). destruct Hx as (t2 & tg2 & P2 & Q2). rewrite P1 in P2. inversion P2; subst.
                    assert (x' = x) by congruence. subst. exact V2.
                  - apply IHF. intros; apply Hl; simpl; auto. }
                apply T; auto.
          -- destruct (Done k ltac:(lia)) as (imm' & chain' & S). exists imm', chain'.
             eapply split_done_stable with (i := s); eauto; lia.
        * intros i c Hi Hc. destruct (Nat.lt_ge_cases i (length cs)) as [Hl|Hl].
          -- rewrite B in Hc by lia. destruct (Ids i c Hi Hc) as (k0 & t0 & u0 & im0 & Hk0 & Q0 & Q). exists k0, t0, u0, im0. split; [lia|].
             split; [rewrite B; [exact Q0|lia|lia]|exact Q].
          -- assert (Hi' : i < length cs') by (apply nth_error_Some; congruence).
             destruct (nth_error chain (i - length cs)) as [u|] eqn:Eu; [|apply nth_error_None in Eu; lia].
             destruct (nth_error chain (i - length cs + 1)) as [v|] eqn:Ev; [|apply nth_error_None in Ev; lia].
             specialize (C _ _ _ Eu Ev). replace (length cs + (i - length cs)) with i in C by lia. rewrite C in Hc. inversion Hc.
             assert (VV : forall w, In w chain -> exists t, t < length (n_points n1) /\ w = vpos t).
             { intros w Hw. apply F in Hw as [-> |[-> |Hw]].
               - exists (2 * s). rewrite vpos_even by auto. split; auto. apply nth_error_Some. congruence.
               - exists (2 * s + 1). rewrite vpos_odd by auto. split; auto. apply nth_error_Some. congruence.
               - destruct (Vi w Hw) as (t & x & -> & Hx). exists t. split; auto. apply nth_error_Some. congruence. }
             destruct (VV u) as (t1 & T1 & ->); [eapply nth_error_In; eauto|]. destruct (VV v) as (t2 & T2 & ->); [eapply nth_error_In; eauto|].
             exists s, t1, t2. eexists. split; [lia|]. split; [exact A|]. split; [apply in_seq; lia|]. auto.
  Qed.

  Lemma C59_lemma : segs <> [] ->
    exists n, intersect_1D_fractures P isect near argsort (map (fun s => [fst s; snd s]) segs) shift = Ok n /\
    ((forall i c, nth_error (n_cells n) i = Some c -> gc_id c = i) /\ network_cells P isect near segs shift n /\
      (forall k l x, meets P isect segs k l x -> exists v, represents P near n v x)) /\
    forall k, k < N -> exists imm chain, fracture_split P isect near segs shift n k imm chain /\
      (~ on_fracture P isect near segs n k (3 * k) -> hd_error chain = Some (3 * k)) /\
      (~ on_fracture P isect near segs n k (3 * k + 1) -> exists l, chain = l ++ [3 * k + 1]) /\
      (forall v w a b x y, nth_error segs k = Some (a, b) -> before chain v w ->
         on_fracture P isect near segs n k v -> on_fracture P isect near segs n k w -> located P n v x -> located P n w y ->
         exists xs i j u1 u2, i < j /\ nth_error (argsort xs a) i = Some u1 /\ nth_error (argsort xs a) j = Some u2 /\
           nth_error xs u1 = Some x /\ nth_error xs u2 = Some y).
  Proof.
    intros Hne. unfold intersect_1D_fractures. fold (as_lists segs). rewrite disjoint_spec by auto. cbn [bind FracModel.n_cells].
    rewrite line_positions_spec.
    destruct (outer_loop N 0 (fun _ => []) [] _ ltac:(lia) Inv_start) as (n1 & imm & done & E & I & D & Cv).
    { intros i j a b p q x []. } { intros i j. simpl. lia. }
    rewrite E. cbn [bind]. destruct (iv_len _ _ _ I) as [Len1 Len2].
    destruct (split_all imm done n1 I N 0 (n_cells n1) ltac:(lia)) as (cs & R & L & Same & Done & Ids); auto.
    { intros k Hk. lia. } { intros i c Hi Hc. assert (i < length (n_cells n1)) by (apply nth_error_Some; congruence). lia. }
    rewrite R. cbn [bind]. eexists. split; [reflexivity|]. cbn [FracModel.n_cells].
    assert (Rep : forall v x, represents P near (mk_network cs (n_points n1)) v x <-> exists t, first_near (n_points n1) x t /\ v = vpos t).
    { intros v x. unfold represents. cbn [FracModel.n_cells FracModel.n_points]. split.
      - intros (t & p & c & H1 & H2 & H3 & H4 & H5 & H6). exists t. split; [exists p; auto|].
        assert (Hv : v < length cs) by (apply nth_error_Some; congruence).
        destruct (Nat.lt_ge_cases v (length (n_cells n1))) as [Hl|Hl].
        + destruct (position_cases _ v Hl Len2) as [(k & Hk & ->)|(t' & Ht' & ->)].
          * destruct (Done k Hk) as (imm' & chain & S). rewrite (sd_line _ _ _ _ _ _ S) in H4. inversion H4. subst c. discriminate.
          * rewrite Same in H4; [|lia|intros; apply vpos_not_line; auto]. rewrite <- Len1 in Ht'.
            destruct (iv_vert _ _ _ I t' Ht') as (tg & V & Vt). rewrite V in H4. inversion H4. subst c. simpl in H6. congruence.
        + destruct (Ids v c Hl H4) as (k' & t' & u' & im' & _ & _ & _ & _ & _ & ->). discriminate.
      - intros (t & (p & H1 & H2 & H3) & ->). assert (Ht : t < length (n_points n1)) by (apply nth_error_Some; congruence).
        destruct (iv_vert _ _ _ I t Ht) as (tg & V & Vt). exists t, p. eexists. split; eauto. split; auto. split; auto.
        rewrite Same; [|apply nth_error_Some; congruence|intros; apply vpos_not_line; auto]. split; [exact V|]. auto. }
    assert (On : forall k v, k < N -> on_fracture P isect near segs (mk_network cs (n_points n1)) k v <-> In v (imm k)).
    { intros k v Hk. rewrite (iv_imm _ _ _ I) by auto. unfold on_fracture, recorded, meets. split.
      - intros (l & x & (a & b & p & q & Ha & Hp & Hkl & X) & Rp). apply Rep in Rp as (t & F & ->).
        exists (Nat.min k l), (Nat.max k l), a, b, p, q, x, t. rewrite D.
        assert (Nat.max k l < N) by (apply nth_error_Some; congruence). repeat (split; auto); lia.
      - intros (i & j & a & b & p & q & x & t & H1 & H2 & H3 & H4 & H5 & H6 & ->). apply D in H1.
        assert (Rp : represents P near (mk_network cs (n_points n1)) (vpos t) x) by (apply Rep; eauto).
        destruct H2 as [->| ->].
        + exists j, x. split; auto. exists a, b, p, q. rewrite Nat.min_l, Nat.max_r by lia. repeat (split; auto). lia.
        + exists i, x. split; auto. exists a, b, p, q. rewrite Nat.min_r, Nat.max_l by lia. repeat (split; auto). lia. }
    assert (Loc : forall t x, nth_error (n_points n1) t = Some x -> located P (mk_network cs (n_points n1)) (vpos t) x).
    { intros t x Hx. assert (Ht : t < length (n_points n1)) by (apply nth_error_Some; congruence).
      destruct (iv_vert _ _ _ I t Ht) as (tg & V & Vt). eexists. exists t. cbn [FracModel.n_cells FracModel.n_points].
      rewrite Same; [|apply nth_error_Some; congruence|intros; apply vpos_not_line; auto]. split; [exact V|]. auto. }
    split; [split; [|split]|].
    - intros i c Hc. assert (Hi : i < length cs) by (apply nth_error_Some; congruence).
      destruct (Nat.lt_ge_cases i (length (n_cells n1))) as [Hl|Hl]; [|destruct (Ids i c Hl Hc) as (k' & t' & u' & im' & _ & _ & _ & _ & _ & ->); reflexivity].
      destruct (position_cases _ i Hl Len2) as [(k & Hk & ->)|(t' & Ht' & ->)].
      + destruct (Done k Hk) as (imm' & chain & S). rewrite (sd_line _ _ _ _ _ _ S) in Hc. inversion Hc. reflexivity.
      + rewrite Same in Hc; [|lia|intros; apply vpos_not_line; auto]. rewrite <- Len1 in Ht'.
        destruct (iv_vert _ _ _ I t' Ht') as (tg & V & Vt). rewrite V in Hc. inversion Hc. reflexivity.
    - assert (Vx : forall t, t < length (n_points n1) -> exists tg, nth_error cs (vpos t) = Some (mk_gcell 0 (vpos t) tg (Some t) [] []) /\ vtag (n_points n1) t tg).
      { intros t Ht. destruct (iv_vert _ _ _ I t Ht) as (tg & V & Vt). exists tg. split; auto. rewrite Same; [exact V|apply nth_error_Some; congruence|intros; apply vpos_not_line; auto]. }
      intros i c Hc. cbn [FracModel.n_cells FracModel.n_points] in *. assert (Hi : i < length cs) by (apply nth_error_Some; congruence).
      assert (Vq : forall t, t < length (n_points n1) -> is_vertex cs (vpos t)). { intros t Ht. destruct (Vx t Ht) as (tg & V & _). eexists. split; [exact V|reflexivity]. }
      destruct (Nat.lt_ge_cases i (length (n_cells n1))) as [Hl|Hl].
      + destruct (position_cases _ i Hl Len2) as [(k & Hk & ->)|(t' & Ht' & ->)].
        * destruct (Done k Hk) as (imm' & chain & S). rewrite (sd_line _ _ _ _ _ _ S) in Hc. inversion Hc. clear Hc. right. left. exists k, imm'. split; auto. split; [reflexivity|].
          destruct (nth_error segs k) as [[a b]|] eqn:Ek; [|apply nth_error_None in Ek; lia]. destruct (iv_pts _ _ _ I _ _ _ Ek) as [Pa Pb].
          split; [rewrite <- (vpos_even k) by auto; apply Vq; apply nth_error_Some; congruence|]. split; [rewrite <- (vpos_odd k) by auto; apply Vq; apply nth_error_Some; congruence|].
          intros m Hm. destruct (list_eq_dec Nat.eq_dec (imm k) []) as [En|En]; [rewrite (sd_none _ _ _ _ _ _ S En) in Hm; destruct Hm|].
          destruct (sd_pieces _ _ _ _ _ _ S En) as (s & Ls & Ei & Q). rewrite Ei in Hm. apply in_seq in Hm.
          destruct (nth_error chain (m - s)) as [u|] eqn:Eu; [|apply nth_error_None in Eu; lia].
          destruct (nth_error chain (m - s + 1)) as [w|] eqn:Ew; [|apply nth_error_None in Ew; lia].
          specialize (Q _ _ _ Eu Ew). replace (s + (m - s)) with m in Q by lia. exists u, w. exact Q.
        * rewrite Same in Hc; [|lia|intros; apply vpos_not_line; auto]. rewrite <- Len1 in Ht'. destruct (iv_vert _ _ _ I t' Ht') as (tg & V & Vt). rewrite V in Hc. inversion Hc. clear Hc.
          left. exists t', tg. split; [reflexivity|]. destruct Vt as [Vt1 Vt2]. unfold vpos. destruct (Nat.ltb_spec t' (2 * N)) as [Lt|Ge].
          -- split; [intros Q; split; [reflexivity|exact (Vt1 Q)]|intros Q; lia].
          -- split; [intros Q; lia|intros Q; split; [lia|exact (Vt2 Q)]].
      + destruct (Ids i c Hl Hc) as (k & t & u & im' & Hk & Li & Im & Ht & Hu & ->). right. right. exists k, (vpos t), (vpos u).
        split; [exact Hk|]. split; auto. split; auto. split; [reflexivity|]. exists im'. auto.
    - intros k l x (a & b & p & q & Ha & Hp & Hkl & X). assert (Nat.max k l < N) by (apply nth_error_Some; congruence).
      destruct (Cv (Nat.min k l) (Nat.max k l) a b p q x) as (t & F); [apply D; lia|exact Ha|exact Hp|exact X|]. exists (vpos t). apply Rep. exists t. auto.
    - intros k Hk. destruct (Done k Hk) as (imm' & chain & S). exists imm', chain. split; [|split; [|split]].
      + constructor; cbn [FracModel.n_cells].
        * apply (sd_line _ _ _ _ _ _ S).
        * intros a b Hab. destruct (iv_pts _ _ _ I _ _ _ Hab) as [Pa Pb]. rewrite <- (vpos_odd k), <- (vpos_even k) by auto. auto.
        * rewrite !(sd_in _ _ _ _ _ _ S). auto.
        * intros v. rewrite (sd_in _ _ _ _ _ _ S), On by auto. reflexivity.
        * apply S.
        * intros H. apply (sd_none _ _ _ _ _ _ S). destruct (imm k) as [|v l] eqn:Ei; auto. exfalso. apply (H v). apply On; auto. rewrite Ei. simpl. auto.
        * intros (v & Hv). apply On in Hv; auto. destruct (sd_pieces _ _ _ _ _ _ S) as (s & _ & Q); [intros Q; rewrite Q in Hv; destruct Hv|].
          exists s. exact Q.
      + rewrite On by auto. apply S.
      + rewrite On by auto. apply S.
      + intros v w a b x y Hab Hb Hv Hw Lv Lw. apply On in Hv, Hw; auto.
        destruct (sd_order _ _ _ _ _ _ S v w a b Hab Hb Hv Hw) as (xs & i & j & u1 & u2 & F & Hij & A1 & A2 & B1 & B2).
        exists xs, i, j, u1, u2. split; auto. split; auto. split; auto.
        assert (X : forall u v x, nth_error (imm k) u = Some v -> located P (mk_network cs (n_points n1)) v x -> nth_error xs u = Some x).
        { intros u v' x' Hu (c & t & C1 & C2 & C3). cbn [FracModel.n_cells FracModel.n_points] in C1, C3.
          destruct (nth_error xs u) as [x0|] eqn:Ex.
          - destruct (Forall2_nth_error _ _ _ _ _ _ F Hu Ex) as (t0 & tg0 & V0 & X0).
            assert (v' < length (n_cells n1)) by (apply nth_error_Some; congruence).
            rewrite Same in C1; [|auto|].
            + rewrite V0 in C1. inversion C1. subst c. simpl in C2. congruence.
            + intros k' Hk' ->. rewrite (iv_line _ _ _ I k' Hk') in V0. discriminate.
          - apply nth_error_None in Ex. rewrite <- (Forall2_len _ _ _ F) in Ex. assert (u < length (imm k)) by (apply nth_error_Some; congruence). lia. }
        split; eapply X; eauto.
  Qed.
End Proof.
