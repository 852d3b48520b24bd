(** * Proofs about boxes: the cells of a network, all of them in its graph *)
From Coq Require Import List Arith ZArith Bool Lia Permutation.
From Verif Require Import Base BaseProof FracModel FracSpec FracProof2 NetProof MesherModel MesherSpec MesherProof BuilderModel BuilderSpec BuilderProof BuilderProof2.
Import ListNotations.

Lemma network_graph_nodes fuel cs all_q g : build_network_graph fuel cs all_q = Ok g ->
  NoDup (g_nodes g) /\ forall x, In x (g_nodes g) <-> exists u v, In (u, v) (g_edges g) /\ (u = x \/ v = x).
Proof.
  unfold build_network_graph. intros H. apply bind_Ok in H as (parts & _ & H). injection H as <-. split; [apply NoDup_uniq|].
  intros x. rewrite In_nodes_from_edgelist. split.
  - intros ([u v] & He & Hx). exists u, v. split; [exact (proj2 (In_edges_from_edgelist (concat parts) (u, v)) He)|auto].
  - intros (u & v & He & Hx). exists (u, v). split; [exact (proj1 (In_edges_from_edgelist (concat parts) (u, v)) He)|auto].
Qed.

Section Net.
  Variable P : Type.
  Variable isect : P -> P -> P -> P -> option P.
  Variable near : P -> P -> bool.
  Variable segs : list (P * P).
  Variable shift : Z.
  Variable net : network P.
  Hypothesis near_refl : forall x, near x x = true.
  Hypothesis Ids : forall i c, nth_error (n_cells P net) i = Some c -> gc_id c = i.
  Hypothesis C : network_cells P isect near segs shift net.
  Hypothesis F : forall k, k < length segs -> exists imm chain, fracture_split P isect near segs shift net k imm chain.
  Notation cs := (n_cells P net).
  Notation N := (length segs).

  Lemma line_at k : k < N -> exists imm, nth_error cs (3 * k + 2) = Some (mk_gcell 1 (3 * k + 2) (Z.of_nat k + shift) None [3 * k; 3 * k + 1] imm) /\ NoDup imm /\
    is_vertex cs (3 * k) /\ is_vertex cs (3 * k + 1) /\
    forall m, In m imm -> exists u v, nth_error cs m = Some (mk_gcell 1 m (Z.of_nat k + shift) None [u; v] []) /\ is_vertex cs u /\ is_vertex cs v.
  Proof.
    intros K. destruct (F k K) as (imm & chain & S). pose proof (fs_line _ _ _ _ _ _ _ _ _ S) as L. exists imm. split; auto.
    assert (ND : NoDup imm).
    { destruct (ListDec.NoDup_dec Nat.eq_dec imm) as [D|D]; auto. exfalso. assert (imm = []) as ->; [|apply D; constructor].
      apply (fs_none _ _ _ _ _ _ _ _ _ S). intros v Hv. destruct (fs_pieces _ _ _ _ _ _ _ _ _ S) as (s & E & _); [eauto|]. apply D. rewrite E. apply seq_NoDup. }
    destruct (C _ _ L) as [(t & tag & Q & _)|[(k' & im & _ & Q & V1 & V2 & M)|(k' & u & w & _ & V1 & V2 & Q & im & Li & Im)]]; [discriminate| |].
    - assert (k' = k) by (injection Q; intros; lia). subst k'. assert (im = imm) by congruence. subst im. do 3 (split; auto).
      intros m Hm. destruct (M m Hm) as (u & v & E). exists u, v. split; auto.
      destruct (C _ _ E) as [(t & tag & Z & _)|[(k' & im & _ & Z & W1 & W2 & _)|(k' & u' & w & _ & W1 & W2 & Z & _)]]; [discriminate| |].
      + injection Z as _ _ -> -> _. auto.
      + injection Z as _ -> ->. auto.
    - exfalso. assert (imm = []) by congruence. assert (k' = k) by (injection Q; intros; lia). subst k'. assert (im = imm) by congruence. subst. destruct Im.
  Qed.
  Lemma pid_bound v c t : nth_error cs v = Some c -> gc_dim c = 0 -> gc_pid c = Some t -> t < length (n_points P net).
  Proof.
    intros Hc D Hp. destruct (C _ _ Hc) as [(t' & tag & Q & A & B)|[(k' & im & _ & Q & _)|(k' & u & w & _ & _ & _ & Q & _)]]; [|subst; discriminate|subst; discriminate].
    subst c. cbn in Hp. injection Hp as ->. destruct (Nat.lt_ge_cases t (2 * N)) as [L|L].
    - destruct (A L) as [Ev _]. set (k := t / 2) in *. assert (K : k < N) by (apply Nat.div_lt_upper_bound; lia). destruct (F k K) as (imm & chain & S).
      destruct (nth_error segs k) as [[a b]|] eqn:Es; [|apply nth_error_None in Es; lia]. destruct (fs_first _ _ _ _ _ _ _ _ _ S a b Es) as [La Lb].
      assert (X : exists x, located P net v x).
      { assert (t mod 2 < 2) by (apply Nat.mod_upper_bound; lia). destruct (t mod 2) as [|[|r]]; [|exists b|lia]; subst v; [exists a; replace (3 * k + 0) with (3 * k) by lia|]; auto. }
      destruct X as (x & c' & t' & Hc' & Hp' & Hx). rewrite Hc in Hc'. injection Hc' as <-. injection Hp' as <-. apply nth_error_Some. congruence.
    - destruct (B L) as (_ & k & l & a & b & p & q & x & _ & _ & _ & _ & Hx & _). apply nth_error_Some. congruence.
  Qed.
  Lemma chain_ends k imm chain v : fracture_split P isect near segs shift net k imm chain -> (exists w, on_fracture P isect near segs net k w) -> In v chain ->
    exists i u w, nth_error cs i = Some (mk_gcell 1 i (Z.of_nat k + shift) None [u; w] []) /\ (v = u \/ v = w).
  Proof.
    intros S On Hv. destruct (fs_pieces _ _ _ _ _ _ _ _ _ S On) as (s & _ & Q).
    assert (L : 2 <= length chain).
    { destruct (fs_ends _ _ _ _ _ _ _ _ _ S) as [E1 E2]. destruct chain as [|x [|y r]]; simpl in *; [tauto| |lia]. destruct E1 as [E1|[]], E2 as [E2|[]]. lia. }
    apply In_nth_error in Hv as (t & Ht). destruct (nth_error chain (t + 1)) as [w|] eqn:Ew; [exists (s + t), v, w; auto|].
    apply nth_error_None in Ew. assert (t < length chain) by (apply nth_error_Some; congruence).
    destruct (nth_error chain (t - 1)) as [u|] eqn:Eu; [|apply nth_error_None in Eu; lia].
    exists (s + (t - 1)), u, v. split; auto. apply Q; auto. replace (t - 1 + 1) with t by lia. auto.
  Qed.
  (** Every vertex ends a line which is not divided. *)
  Lemma vertex_end v : is_vertex cs v -> exists i c, nth_error cs i = Some c /\ gc_dim c = 1 /\ gc_imm c = [] /\ In v (gc_bc c).
  Proof.
    intros (c & Hc & D). destruct (C _ _ Hc) as [(t & tag & Q & A & B)|[(k' & im & _ & Q & _)|(k' & u & w & _ & _ & _ & Q & _)]]; [|subst; discriminate|subst; discriminate].
    destruct (Nat.lt_ge_cases t (2 * N)) as [L|L].
    - destruct (A L) as [Ev _]. set (k := t / 2) in *. assert (K : k < N) by (apply Nat.div_lt_upper_bound; lia). destruct (F k K) as (imm & chain & S).
      pose proof (fs_line _ _ _ _ _ _ _ _ _ S) as Ln. assert (V : v = 3 * k \/ v = 3 * k + 1) by (assert (t mod 2 < 2) by (apply Nat.mod_upper_bound; lia); lia).
      set (q := fun d => (gc_dim d =? 1) && negb (some_immersed d) && memb v (gc_bc d)). destruct (existsb q cs) eqn:Eq.
      + apply existsb_exists in Eq as (d & Hd & Qd). apply In_nth_error in Hd as (i & Hi). exists i, d. split; auto. unfold q in Qd. apply andb_true_iff in Qd as [Qd Q3]. apply andb_true_iff in Qd as [Q1 Q2].
        apply Nat.eqb_eq in Q1. apply memb_In in Q3. split; auto. split; auto. unfold some_immersed in Q2. destruct (gc_imm d); [reflexivity|discriminate].
      + exfalso. assert (imm = []).
        { apply (fs_none _ _ _ _ _ _ _ _ _ S). intros w Hw. destruct (chain_ends k imm chain v S) as (i & u & u' & Hi & Hu); [eauto|apply (fs_members _ _ _ _ _ _ _ _ _ S); tauto|].
          assert (existsb q cs = true); [|congruence]. apply existsb_exists. eexists. split; [eapply nth_error_In; exact Hi|]. unfold q. cbn. unfold memb. cbn. destruct Hu as [<-|<-]; rewrite eqb_refl; simpl; rewrite ?orb_true_r; reflexivity. }
        subst imm. assert (existsb q cs = true); [|congruence]. apply existsb_exists. eexists. split; [eapply nth_error_In; exact Ln|]. unfold q. cbn [gc_dim gc_imm gc_bc some_immersed]. cbn [Nat.eqb negb andb]. apply memb_In. destruct V as [V|V]; [left|right; left]; symmetry; exact V.
    - destruct (B L) as (_ & k & l & a & b & p & q & x & Hkl & Hk & Hl & X & Hx & _ & Nr). assert (K : k < N) by (apply nth_error_Some; congruence).
      destruct (F k K) as (imm & chain & S). assert (On : on_fracture P isect near segs net k v).
      { exists l, x. split; [exists a, b, p, q; rewrite Nat.min_l, Nat.max_r by lia; repeat (split; auto); lia|]. exists t, x, c. subst c. repeat (split; auto). }
      destruct (chain_ends k imm chain v S) as (i & u & w & Hi & Hu); [eauto|apply (fs_members _ _ _ _ _ _ _ _ _ S); tauto|].
      exists i. eexists. split; [exact Hi|]. cbn. split; auto. split; auto. destruct Hu as [<-|<-]; auto.
  Qed.
  Lemma nodes_all fuel g : 2 <= fuel -> build_network_graph fuel cs true = Ok g -> NoDup (g_nodes g) /\ forall x, In x (g_nodes g) <-> x < length cs.
  Proof.
    intros Hf E. destruct fuel as [|[|f]]; [lia|lia|]. destruct (network_graph_nodes _ _ _ _ E) as [ND M]. split; auto.
    destruct (graph_spec cs (cells_leveled _ _ _ _ _ _ C Ids) f true) as (g' & E' & _ & Ar). rewrite E in E'. injection E' as <-. intros x. rewrite M. split.
    - intros (u & v & He & Hx). apply Ar in He as (c & Hc & D & _ & Hv). destruct Hx as [->| ->]; [apply nth_error_Some; congruence|].
      destruct (cells_leveled _ _ _ _ _ _ C Ids _ _ Hc) as (_ & [Z|(_ & Hb & Hm)]); [lia|]. apply in_app_iff in Hv as [Hv|Hv].
      + destruct (Hb _ Hv) as (d & Hd & _). apply nth_error_Some. congruence.
      + destruct (Hm _ Hv) as (d & Hd & _). apply nth_error_Some. congruence.
    - intros Hx. destruct (nth_error cs x) as [c|] eqn:Hc; [|apply nth_error_None in Hc; lia].
      destruct (C _ _ Hc) as [(t & tag & Q & _)|[(k' & im & _ & Q & _)|(k' & u & w & _ & _ & _ & Q & _)]].
      + destruct (vertex_end x) as (i & d & Hi & D1 & D2 & D3); [exists c; subst; auto|]. exists i, x. split; auto. apply Ar. exists d. repeat (split; auto). rewrite in_app_iff. auto.
      + exists x, (3 * k'). split; auto. apply Ar. exists c. subst c. repeat (split; auto). simpl. auto.
      + exists x, u. split; auto. apply Ar. exists c. subst c. repeat (split; auto). simpl. auto.
  Qed.

  (** ** The description *)
  Variable n : nat.
  Notation dc := (2 * n + 1).
  Definition dummy : gcell := mk_gcell 0 0 0%Z None [] [].
  Definition cellat (i : nat) : gcell := nth i cs dummy.
  Definition moved (c : gcell) : gcell := mk_gcell (gc_dim c) (gc_id c + dc) (gc_tag c) (option_map (fun t => t + n) (gc_pid c)) (gc_bc c) (gc_imm c).
  Definition at_ (i : nat) : gcell := moved (cellat i).
  Definition num (v : nat) : Z := match gc_pid (cellat v) with Some t => Z.of_nat (n + t + 1) | None => 0%Z end.
  Definition pieces_of (i : nat) : list nat := match gc_imm (cellat i) with [] => [i] | imm => imm end.
  Definition dline (i : nat) : Z * Z * Z := (num (nth 0 (gc_bc (cellat i)) 0), num (nth 1 (gc_bc (cellat i)) 0), line_number n i).
  Definition cs' : list gcell := map (shift_cell_ids (Z.of_nat dc)) (map (shift_point_ids (Z.of_nat n)) cs).
  Lemma cellat_nth i c : nth_error cs i = Some c -> cellat i = c.
  Proof. intros H. unfold cellat. apply nth_error_nth. auto. Qed.
  Lemma moved_spec i c : nth_error cs i = Some c -> shift_cell_ids (Z.of_nat dc) (shift_point_ids (Z.of_nat n) c) = moved c.
  Proof.
    intros H. unfold shift_cell_ids, shift_point_ids, moved.
    destruct (C _ _ H) as [(t & tag & -> & _)|[(k' & im & _ & -> & _)|(k' & u & w & _ & _ & _ & -> & _)]]; cbn; repeat f_equal; lia.
  Qed.
  Lemma cs'_nth i : i < length cs -> nth_error cs' i = Some (at_ i).
  Proof.
    intros L. destruct (nth_error cs i) as [c|] eqn:Hc; [|apply nth_error_None in Hc; lia]. unfold cs'. rewrite !nth_error_map, Hc. cbn [option_map].
    rewrite (moved_spec _ _ Hc). unfold at_. rewrite (cellat_nth _ _ Hc). reflexivity.
  Qed.
  Lemma get_cs' i : i < length cs -> get_at cs' i = Ok (at_ i).
  Proof. intros L. apply get_at_Some, cs'_nth. auto. Qed.
  Lemma mapM_cs' l : (forall i, In i l -> i < length cs) -> mapM (get_at cs') l = Ok (map at_ l).
  Proof. intros H. apply mapM_Ok_map. intros i I. apply get_cs'. auto. Qed.
  Lemma filter_map_comm {A B} (f : A -> B) (q : B -> bool) l : filter q (map f l) = map f (filter (fun x => q (f x)) l).
  Proof. induction l as [|x l IH]; auto. cbn [map filter]. destruct (q (f x)); cbn [map]; rewrite IH; auto. Qed.
  Lemma vertex_cell v : is_vertex cs v -> exists t tag, cellat v = mk_gcell 0 v tag (Some t) [] [] /\ nth_error cs v = Some (cellat v) /\ num v = Z.of_nat (n + t + 1) /\ t < length (n_points P net).
  Proof.
    intros (c & Hc & D). destruct (C _ _ Hc) as [(t & tag & Q & _)|[(k' & im & _ & Q & _)|(k' & u & w & _ & _ & _ & Q & _)]]; [|subst; discriminate|subst; discriminate].
    exists t, tag. unfold num. rewrite (cellat_nth _ _ Hc), Q. split; auto. split; [congruence|]. split; [reflexivity|]. eapply pid_bound; [exact Hc|exact D|subst; reflexivity].
  Qed.
  Lemma vertex_number_spec v z : vertex_number P n net v z <-> is_vertex cs v /\ z = num v.
  Proof.
    split.
    - intros (c & t & Hc & D & Hp & ->). split; [exists c; auto|]. unfold num. rewrite (cellat_nth _ _ Hc), Hp. reflexivity.
    - intros [V ->]. destruct (vertex_cell v V) as (t & tag & E & Hc & En & _). exists (cellat v), t. split; auto. rewrite E. split; auto.
  Qed.
  Lemma drawn_cell i : drawn P net i <-> exists u v tag, nth_error cs i = Some (cellat i) /\ cellat i = mk_gcell 1 i tag None [u; v] [] /\ is_vertex cs u /\ is_vertex cs v.
  Proof.
    split.
    - intros (c & Hc & D & Im). destruct (C _ _ Hc) as [(t & tag & Q & _)|[(k' & im & _ & Q & V1 & V2 & _)|(k' & u & w & _ & V1 & V2 & Q & _)]]; [subst; discriminate| |].
      + pose proof (Ids _ _ Hc) as Ei. subst c. cbn in Ei, Im. subst im. exists (3 * k'), (3 * k' + 1), (Z.of_nat k' + shift)%Z. rewrite (cellat_nth _ _ Hc). split; [exact Hc|]. split; [f_equal; exact Ei|]. auto.
      + exists u, w, (Z.of_nat k' + shift)%Z. rewrite (cellat_nth _ _ Hc). subst c. auto.
    - intros (u & v & tag & Hc & E & _). exists (cellat i). rewrite E in *. auto.
  Qed.
  (** The lines which are drawn for fracture [k] *)
  Lemma pieces_drawn k i : k < N -> In i (pieces_of (3 * k + 2)) -> drawn P net i /\ gc_tag (cellat i) = (Z.of_nat k + shift)%Z.
  Proof.
    intros K. destruct (line_at k K) as (imm & L & ND & V1 & V2 & M). unfold pieces_of. rewrite (cellat_nth _ _ L). cbn [gc_imm]. destruct imm as [|m imm].
    - intros [<-|[]]. split; [eexists; split; [exact L|auto]|rewrite (cellat_nth _ _ L); reflexivity].
    - intros I. destruct (M i I) as (u & v & E & _). split; [eexists; split; [exact E|auto]|rewrite (cellat_nth _ _ E); reflexivity].
  Qed.
  Lemma drawn_piece i : drawn P net i -> exists k, k < N /\ In i (pieces_of (3 * k + 2)).
  Proof.
    intros (c & Hc & D & Im). destruct (C _ _ Hc) as [(t & tag & Q & _)|[(k & im & K & Q & _)|(k & u & w & K & _ & _ & Q & im & Li & Ii)]]; [subst; discriminate| |].
    - exists k. split; auto. pose proof (Ids _ _ Hc) as Ei. subst c. cbn [gc_id gc_imm] in Ei, Im. subst im i. unfold pieces_of. rewrite (cellat_nth _ _ Hc). left. auto.
    - exists k. split; auto. unfold pieces_of. rewrite (cellat_nth _ _ Li). cbn [gc_imm]. destruct im; [destruct Ii|exact Ii].
  Qed.
  Lemma pieces_NoDup k : k < N -> NoDup (pieces_of (3 * k + 2)).
  Proof.
    intros K. destruct (line_at k K) as (imm & L & ND & _). unfold pieces_of. rewrite (cellat_nth _ _ L). cbn [gc_imm]. destruct imm; auto. constructor; [intros []|constructor].
  Qed.

  Lemma get_end i k v : drawn P net i -> nth_error (gc_bc (cellat i)) k = Some v -> is_vertex cs v -> net_end cs' (at_ i) k = Ok (num v).
  Proof.
    intros D Hk V. destruct (vertex_cell v V) as (t & tag & E & Hc & En & _). unfold net_end. change (gc_bc (at_ i)) with (gc_bc (cellat i)). rewrite (get_at_Some _ _ _ Hk). cbn [bind].
    rewrite get_cs' by (apply nth_error_Some; congruence). cbn [bind]. unfold at_, moved. rewrite E. cbn. rewrite En. f_equal. lia.
  Qed.

  Variable g : digraph nat.
  Hypothesis Ng : NoDup (g_nodes g).
  Hypothesis Mg : forall x, In x (g_nodes g) <-> x < length cs.
  Variable ftags : list Z.

  Definition net_groups0 (vs ls : list nat) : list (call P) := map (fun i => AddPhysicalGroup 0 (map num (filter (fun v => (gc_tag (cellat v) =? gc_tag (cellat i))%Z) vs)) (gc_tag (cellat i))) ls.
  Definition net_groupsx (vs : list nat) : list (call P) := map (fun v => AddPhysicalGroup 0 [num v] (gc_tag (cellat v))) (filter (fun v => negb (memb (gc_tag (cellat v)) ftags)) vs).
  Definition net_groups1 (ls : list nat) : list (call P) := map (fun i => AddPhysicalGroup 1 (map (line_number n) (pieces_of i)) (gc_tag (cellat i))) ls.
  Lemma describe_network_spec : exists vs ls, NoDup vs /\ NoDup ls /\ (forall v, In v vs <-> is_vertex cs v) /\ (forall i, In i ls <-> exists k, k < N /\ i = 3 * k + 2) /\
    let D := flat_map pieces_of ls in
    describe_network P cs' g ftags = Ok (map line_call (map dline D) ++ [Synchronize] ++ net_groups0 vs ls ++ net_groupsx vs ++ net_groups1 ls,
      flat_map (fun i => let '(b, e, _) := dline i in [b; e]) D, map (line_number n) D).
  Proof.
    set (inner := fun i => (gc_dim (cellat i) =? 1) && some_immersed (cellat i)).
    set (ni := map gc_id (concat (map (fun i => map at_ (gc_imm (cellat i))) (filter inner (g_nodes g))))).
    set (keep := fun i => (gc_dim (cellat i) =? 1) && negb (memb (gc_id (at_ i)) ni)).
    exists (filter (fun i => gc_dim (cellat i) =? 0) (g_nodes g)), (filter keep (g_nodes g)).
    split; [apply NoDup_filter; auto|]. split; [apply NoDup_filter; auto|].
    assert (Cell : forall i, i < length cs -> nth_error cs i = Some (cellat i)). { intros i L. unfold cellat. apply nth_error_nth'. auto. }
    assert (HV : forall v, In v (filter (fun i => gc_dim (cellat i) =? 0) (g_nodes g)) <-> is_vertex cs v).
    { intros v. rewrite filter_In, Mg, Nat.eqb_eq. split; [intros [L D]; exists (cellat v); auto|]. intros (c & Hc & D). rewrite (cellat_nth _ _ Hc). split; auto. apply nth_error_Some. congruence. }
    split; auto.
    assert (Imm : forall i m, i < length cs -> In m (gc_imm (cellat i)) -> gc_dim (cellat i) = 1 -> exists k imm, k < N /\ i = 3 * k + 2 /\ cellat i = mk_gcell 1 i (Z.of_nat k + shift) None [3 * k; 3 * k + 1] imm /\
       m < length cs /\ cellat m = mk_gcell 1 m (Z.of_nat k + shift) None (gc_bc (cellat m)) []).
    { intros i m L Hm D. pose proof (Cell i L) as Hc. destruct (C _ _ Hc) as [(t & tag & Q & _)|[(k & im & K & Q & _ & _ & M)|(k & u & w & K & _ & _ & Q & _)]]; [rewrite Q in D; discriminate| |rewrite Q in Hm; destruct Hm].
      assert (Ei : i = 3 * k + 2) by (pose proof (Ids _ _ Hc) as Z; rewrite Q in Z; cbn in Z; lia).
      rewrite Q in Hm. destruct (M m Hm) as (u & v & E). exists k, im. rewrite (cellat_nth _ _ E). split; auto. split; auto. split; [rewrite Ei at 2; exact Q|]. split; [apply nth_error_Some; congruence|reflexivity]. }
    assert (Hni : forall x, In x ni <-> exists i m, i < length cs /\ gc_dim (cellat i) = 1 /\ In m (gc_imm (cellat i)) /\ x = m + dc).
    { intros x. unfold ni. rewrite in_map_iff. split.
      - intros (c & <- & Hc). apply in_concat in Hc as (l & Hl & Hc). apply in_map_iff in Hl as (i & <- & Hi). apply filter_In in Hi as [Hi Q]. apply andb_true_iff in Q as [Q _]. apply Nat.eqb_eq in Q.
        apply in_map_iff in Hc as (m & <- & Hm). apply Mg in Hi. exists i, m. split; auto. split; auto. split; auto. destruct (Imm i m Hi Hm Q) as (k & im & _ & _ & _ & _ & E). unfold at_. rewrite E. reflexivity.
      - intros (i & m & L & D & Hm & ->). destruct (Imm i m L Hm D) as (k & im & _ & _ & _ & _ & E). exists (at_ m). split; [unfold at_; rewrite E; reflexivity|].
        apply in_concat. exists (map at_ (gc_imm (cellat i))). split; [apply in_map_iff; exists i; split; auto; apply filter_In; split; [apply Mg; auto|]|apply in_map; auto].
        unfold inner. rewrite D. cbn. unfold some_immersed. destruct (gc_imm (cellat i)); [destruct Hm|reflexivity]. }
    assert (HL : forall i, In i (filter keep (g_nodes g)) <-> exists k, k < N /\ i = 3 * k + 2).
    { intros i. rewrite filter_In, Mg. unfold keep. rewrite andb_true_iff, Nat.eqb_eq, negb_true_iff. split.
      - intros (L & D & Q). pose proof (Cell i L) as Hc. destruct (C _ _ Hc) as [(t & tag & Z & _)|[(k & im & K & Z & _)|(k & u & w & K & _ & _ & Z & im & Li & Ii)]]; [rewrite Z in D; discriminate| |].
        + exists k. split; auto. pose proof (Ids _ _ Hc) as E. rewrite Z in E. cbn in E. lia.
        + exfalso. apply memb_notIn in Q. apply Q. apply Hni. exists (3 * k + 2), i. split; [apply nth_error_Some; congruence|]. rewrite (cellat_nth _ _ Li). cbn [gc_dim gc_imm]. split; auto. split; auto.
          unfold at_. rewrite Z. reflexivity.
      - intros (k & K & ->). destruct (line_at k K) as (imm & L & _). split; [apply nth_error_Some; congruence|]. rewrite (cellat_nth _ _ L). split; auto. apply memb_notIn. intros Q.
        apply Hni in Q as (i & m & Li & D & Hm & E). unfold at_ in E. rewrite (cellat_nth _ _ L) in E. cbn in E. assert (m = 3 * k + 2) by lia. subst m.
        destruct (Imm i _ Li Hm D) as (k' & im & K' & -> & Ec & _ & E2). rewrite (cellat_nth _ _ L) in E2. injection E2 as Ek Ei. assert (k' = k) by lia. subst k'. rewrite (cellat_nth _ _ L) in Hm. rewrite Ei in Hm. destruct Hm. }
    split; auto. cbv zeta. set (ls := filter keep (g_nodes g)) in *. set (vs := filter (fun i => gc_dim (cellat i) =? 0) (g_nodes g)) in *. set (D := flat_map pieces_of ls).
    unfold describe_network. rewrite mapM_cs' by (intros i I; apply Mg; auto). cbn [bind]. rewrite !filter_map_comm.
    change (filter (fun x => gc_dim (at_ x) =? 0) (g_nodes g)) with vs.
    change (filter (fun x => (gc_dim (at_ x) =? 1) && some_immersed (at_ x)) (g_nodes g)) with (filter inner (g_nodes g)).
    assert (E1 : mapM (fun c => mapM (get_at cs') (gc_imm c)) (map at_ (filter inner (g_nodes g))) = Ok (map (fun i => map at_ (gc_imm (cellat i))) (filter inner (g_nodes g)))).
    { rewrite (mapM_Ok_map _ (fun c => map at_ (gc_imm c))); [rewrite map_map; reflexivity|]. intros c Hc. apply in_map_iff in Hc as (i & <- & Hi). apply filter_In in Hi as [Hi Q]. apply andb_true_iff in Q as [Q _]. apply Nat.eqb_eq in Q.
      change (gc_imm (at_ i)) with (gc_imm (cellat i)). apply mapM_cs'. intros m Hm. apply Mg in Hi. destruct (Imm i m Hi Hm Q) as (k & im & _ & _ & _ & L & _). auto. }
    rewrite E1. cbn [bind]. fold ni. rewrite !filter_map_comm. change (filter (fun x => (gc_dim (at_ x) =? 1) && negb (memb (gc_id (at_ x)) ni)) (g_nodes g)) with ls.
    assert (E2 : mapM (parts cs') (map at_ ls) = Ok (map (fun i => map at_ (pieces_of i)) ls)).
    { assert (G : forall l, (forall i, In i l -> In i ls) -> mapM (parts cs') (map at_ l) = Ok (map (fun i => map at_ (pieces_of i)) l)).
      { induction l as [|i l IH]; intros H; [reflexivity|]. cbn [map mapM]. assert (Pi : parts cs' (at_ i) = Ok (map at_ (pieces_of i))).
        { destruct (proj1 (HL i) (H i (or_introl eq_refl))) as (k & K & ->). destruct (line_at k K) as (imm & L & _ & _ & _ & M). unfold parts, some_immersed, pieces_of. change (gc_imm (at_ (3 * k + 2))) with (gc_imm (cellat (3 * k + 2))).
          rewrite (cellat_nth _ _ L). cbn [gc_imm]. destruct imm as [|m imm]; [reflexivity|]. apply mapM_cs'. intros j Hj. destruct (M j Hj) as (u & v & E & _). apply nth_error_Some. congruence. }
        rewrite Pi. cbn [bind]. rewrite IH by (intros; apply H; right; auto). reflexivity. }
      apply G. auto. }
    rewrite E2. cbn [bind]. assert (EC : concat (map (fun i => map at_ (pieces_of i)) ls) = map at_ D).
    { unfold D. clear. induction ls as [|i l IH]; [reflexivity|]. cbn [map concat flat_map]. rewrite map_app, IH. reflexivity. }
    rewrite EC. assert (HD : forall i, In i D -> drawn P net i).
    { intros i Hi. apply in_flat_map in Hi as (j & Hj & Hi). apply HL in Hj as (k & K & ->). apply (pieces_drawn k i K Hi). }
    assert (E3 : mapM (fun c => do b <- net_end cs' c 0; do e <- net_end cs' c 1; Ok (b, e, Z.of_nat (gc_id c))) (map at_ D) = Ok (map dline D)).
    { clearbody D. clear EC. induction D as [|i l IH]; [reflexivity|]. cbn [map mapM]. destruct (proj1 (drawn_cell i) (HD i (or_introl eq_refl))) as (u & v & tag & Hc & E & Vu & Vv).
      rewrite (get_end i 0 u); [|apply HD; left; auto|rewrite E; reflexivity|auto]. cbn [bind].
      rewrite (get_end i 1 v); [|apply HD; left; auto|rewrite E; reflexivity|auto]. cbn [bind].
      rewrite IH by (intros; apply HD; right; auto). cbn [bind]. f_equal. f_equal. unfold dline, at_. rewrite E. cbn [gc_bc nth moved gc_id]. unfold line_number. f_equal. f_equal. lia. }
    rewrite E3. cbn [bind].
    assert (E4 : mapM (fun v => match gc_pid v with Some p => Ok ((Z.of_nat p + 1)%Z, gc_tag v) | None => Err TypeError end) (map at_ vs) = Ok (map (fun v => (num v, gc_tag (cellat v))) vs)).
    { clear -HV C F near_refl Ids. assert (HV' : forall v, In v vs -> is_vertex cs v) by (intros; apply HV; auto). clearbody vs. clear HV. induction vs as [|v l IH]; [reflexivity|]. cbn [map mapM].
      destruct (vertex_cell v (HV' v (or_introl eq_refl))) as (t & tag & E & _ & En & _). unfold at_ at 1, moved. rewrite E. cbn [gc_pid option_map gc_tag bind]. rewrite IH by (intros; apply HV'; right; auto). cbn [bind].
      f_equal. f_equal. rewrite En. f_equal; [lia|unfold at_, moved; rewrite E; reflexivity]. }
    rewrite E4. cbn [bind]. f_equal. f_equal; [f_equal; [f_equal|]|].
    - f_equal. f_equal; [|f_equal].
      + unfold net_groups0. rewrite map_map. apply map_ext. intros i. f_equal. rewrite filter_map_comm, map_map. reflexivity.
      + unfold net_groupsx. rewrite filter_map_comm, map_map. reflexivity.
      + unfold net_groups1. assert (Z : forall l, map (fun cp : gcell * list gcell => @AddPhysicalGroup P 1 (map (fun c => Z.of_nat (gc_id c)) (snd cp)) (gc_tag (fst cp))) (combine (map at_ l) (map (fun i => map at_ (pieces_of i)) l)) =
            map (fun i => AddPhysicalGroup 1 (map (fun c => Z.of_nat (gc_id c)) (map at_ (pieces_of i))) (gc_tag (cellat i))) l).
        { induction l as [|i l IH]; [reflexivity|]. cbn [map combine fst snd]. rewrite IH. reflexivity. }
        rewrite Z. apply map_ext_in. intros i Hi. f_equal. rewrite map_map. apply map_ext_in. intros j Hj. apply HL in Hi as (k & K & ->).
        destruct (proj1 (drawn_cell j) (proj1 (pieces_drawn k j K Hj))) as (u & v & tag & _ & E & _). unfold at_, moved. rewrite E. cbn [gc_id]. unfold line_number. f_equal. lia.
    - clear. induction D as [|i l IH]; [reflexivity|]. cbn [map flat_map]. rewrite IH. unfold dline. reflexivity.
    - rewrite map_map. reflexivity.
  Qed.
End Net.
