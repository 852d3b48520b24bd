(** * Proofs about boxes: the groups of the network *)
From Coq Require Import List Arith ZArith Bool Lia Permutation.
From Verif Require Import Base BaseProof FracModel FracSpec FracProof FracProof2 NetProof MesherModel MesherSpec MesherProof MesherProof5 BuilderModel BuilderSpec BuilderProof BuilderProof2 BuilderProof3 BuilderProof4.
Import ListNotations.

Lemma flat_map_map {A B C} (f : A -> B) (h : B -> list C) l : flat_map h (map f l) = flat_map (fun x => h (f x)) l.
Proof. induction l; simpl; congruence. Qed.
Lemma flat_map_single {A B} (f : A -> B) l : flat_map (fun x => [f x]) l = map f l.
Proof. induction l; simpl; congruence. Qed.
Lemma flat_map_nothing {A B} (f : A -> list B) l : (forall x, In x l -> f x = []) -> flat_map f l = [].
Proof. induction l as [|x l IH]; intros H; [reflexivity|]. cbn. rewrite H, IH; auto; [intros; apply H; right; auto|left; auto]. Qed.
Lemma NoDup_map_on {A B} (f : A -> B) : forall l, NoDup l -> (forall x y, In x l -> In y l -> f x = f y -> x = y) -> NoDup (map f l).
Proof.
  induction l as [|x l IH]; intros N H; [constructor|]. inversion N; subst. cbn. constructor.
  - rewrite in_map_iff. intros (y & E & Hy). rewrite (H y x) in Hy; auto; [right; auto|left; auto].
  - apply IH; auto. intros y z Hy Hz. apply H; right; auto.
Qed.
Lemma NoDup_map_inj {A B} (f : A -> B) : forall l, NoDup (map f l) -> forall x y, In x l -> In y l -> f x = f y -> x = y.
Proof.
  induction l as [|a l IH]; intros N x y Hx Hy E; [destruct Hx|]. cbn in N. inversion N as [|? ? Na Nl]; subst. destruct Hx as [->|Hx], Hy as [->|Hy]; auto.
  - exfalso. apply Na. rewrite E. apply in_map. auto.
  - exfalso. apply Na. rewrite <- E. apply in_map. auto.
Qed.

Section Groups.
  Variable P : Type.
  Variable isect : P -> P -> P -> P -> option P.
  Variable near : P -> P -> bool.
  Hypothesis near_refl : forall x, near x x = true.
  Variables (tags : dict key Z) (pts : list P) (segs : list (P * P)) (shift : Z).
  Notation n := (length pts).
  Notation N := (length segs).
  Notation T := (in_effect tags default_2D).
  Hypothesis HT : all_tagged T n.
  Variable net : network P.
  Hypothesis OK : net_ok P isect near segs shift net.
  Variables (groups : list (call P)) (vs ls : list nat).
  Hypothesis Pg : Permutation groups (map (side_group n T) (seq 0 n)).
  Hypothesis NV : NoDup vs.
  Hypothesis NL : NoDup ls.
  Hypothesis HV : forall v, In v vs <-> is_vertex (n_cells P net) v.
  Hypothesis HL : forall i, In i ls <-> exists k, k < N /\ i = 3 * k + 2.
  Hypothesis Hs : (0 <= shift)%Z.
  Notation ftags := (ftags P segs shift).
  Notation r := (all_calls P tags pts segs shift net groups vs ls).
  Let C := no_cells _ _ _ _ _ net OK.

  Notation vtag v := (gc_tag (cellat P net v)).
  Notation others := (filter (fun v => negb (memb (vtag v) ftags)) vs).
  Lemma keys_are : Permutation (group_keys r)
    (map (fun i => (1, tag_z (dget T (KBc i)))) (seq 0 n) ++ [(2, tag_z (dget T KArea))] ++
     map (fun i => (0, vtag i)) ls ++ map (fun v => (0, vtag v)) others ++ map (fun i => (1, vtag i)) ls).
  Proof.
    unfold all_calls. rewrite !keys_app. cbn [group_keys flat_map app].
    assert (E1 : group_keys (point_calls (pts ++ n_points P net) 0) = []).
    { apply flat_map_nothing. intros c Hc. unfold point_calls in Hc. apply in_map_iff in Hc as (x & <- & _). reflexivity. }
    assert (E2 : group_keys (polygon_drawn (P:=P) n) = []).
    { unfold polygon_drawn. rewrite keys_app. cbn [group_keys flat_map app]. rewrite app_nil_r. apply flat_map_nothing. intros c Hc. apply in_map_iff in Hc as (x & <- & Hx). apply in_map_iff in Hx as (i & <- & _). reflexivity. }
    assert (E3 : group_keys (map (line_call (P:=P)) (map (dline P net n) (net_lines P net ls))) = []).
    { apply flat_map_nothing. intros c Hc. apply in_map_iff in Hc as ([[b e] t] & <- & _). reflexivity. }
    assert (E4 : group_keys (map (fun t => @SetTransfiniteCurve P t 10) (map (line_number n) (net_lines P net ls))) = []).
    { apply flat_map_nothing. intros c Hc. apply in_map_iff in Hc as (t & <- & _). reflexivity. }
    assert (E5 : group_keys (net_groups0 P net n vs ls) = map (fun i => (0, vtag i)) ls).
    { unfold net_groups0, group_keys. rewrite flat_map_map. apply flat_map_single. }
    assert (E6 : group_keys (net_groupsx P net n ftags vs) = map (fun v => (0, vtag v)) others).
    { unfold net_groupsx, group_keys. rewrite flat_map_map. apply flat_map_single. }
    assert (E7 : group_keys (net_groups1 P net n ls) = map (fun i => (1, vtag i)) ls).
    { unfold net_groups1, group_keys. rewrite flat_map_map. apply flat_map_single. }
    unfold group_keys in *. rewrite E1, E2, E3, E4, E5, E6, E7. cbn [app]. rewrite app_nil_r, <- app_assoc. cbn [app]. apply Permutation_app_tail.
    rewrite (Permutation_flat_map _ Pg). rewrite flat_map_map. rewrite <- flat_map_single. reflexivity.
  Qed.

  Lemma vertex_tag v : In v vs -> exists t, nth_error (n_cells P net) v = Some (mk_gcell 0 v (vtag v) (Some t) [] []) /\ num P net n v = Z.of_nat (n + t + 1) /\
    (t < 2 * N -> v = 3 * (t / 2) + t mod 2 /\ vtag v = (Z.of_nat (t / 2) + shift)%Z) /\
    (2 * N <= t -> v = N + t /\ exists k l a b p q x, k < l /\ nth_error segs k = Some (a, b) /\ nth_error segs l = Some (p, q) /\
       isect a b p q = Some x /\ nth_error (n_points P net) t = Some x /\ vtag v = pair_integers (Z.of_nat k + shift) (Z.of_nat l + shift) /\
       forall t' p', t' < t -> nth_error (n_points P net) t' = Some p' -> near p' x = false).
  Proof.
    intros Hv. apply HV in Hv as (c & Hc & D). destruct (C _ _ Hc) as [(t & tag & Q & H1 & H2)|[(k' & im & _ & Q & _)|(k' & u & w & _ & _ & _ & Q & _)]]; [|subst; discriminate|subst; discriminate].
    assert (E : vtag v = tag) by (rewrite (cellat_nth P net _ _ Hc), Q; reflexivity). exists t. rewrite E. split; [congruence|]. split; [|split; auto].
    unfold num. rewrite (cellat_nth P net _ _ Hc), Q. reflexivity.
  Qed.
  Lemma ltag k : k < N -> vtag (3 * k + 2) = (Z.of_nat k + shift)%Z.
  Proof. apply (line_tag P isect near segs shift net OK). Qed.
  Lemma own_tags v w : In v vs -> In w vs -> ~ fracture_tag N shift (vtag v) -> vtag v = vtag w -> v = w.
  Proof.
    intros Hv Hw Nf E. destruct (vertex_tag v Hv) as (t & _ & _ & A1 & A2). destruct (vertex_tag w Hw) as (t' & _ & _ & B1 & B2).
    assert (Lt : 2 * N <= t). { destruct (Nat.lt_ge_cases t (2 * N)) as [L|L]; auto. exfalso. apply Nf. destruct (A1 L) as [_ Q]. exists (t / 2). split; auto. apply Nat.div_lt_upper_bound; lia. }
    assert (Lt' : 2 * N <= t'). { destruct (Nat.lt_ge_cases t' (2 * N)) as [L|L]; auto. exfalso. apply Nf. rewrite E. destruct (B1 L) as [_ Q]. exists (t' / 2). split; auto. apply Nat.div_lt_upper_bound; lia. }
    destruct (A2 Lt) as (-> & k & l & a & b & p & q & x & Kl & Sk & Sl & I & X & Q & F1). destruct (B2 Lt') as (-> & k' & l' & a' & b' & p' & q' & x' & Kl' & Sk' & Sl' & I' & X' & Q' & F2).
    rewrite Q, Q' in E. apply pair_injective in E; try lia. destruct E as [E1 E2]. assert (k = k') by lia. assert (l = l') by lia. subst k' l'.
    assert (x = x') by congruence. subst x'. destruct (Nat.lt_trichotomy t t') as [L|[L|L]]; [|lia|].
    - specialize (F2 t x L X). rewrite near_refl in F2. discriminate.
    - specialize (F1 t' x L X'). rewrite near_refl in F1. discriminate.
  Qed.
  Lemma keys_distinct : NoDup (group_keys r) <-> tags_apart T n N shift.
  Proof.
    assert (Tz : forall i, i < n -> dget T (KBc i) = Some (tag_z (dget T (KBc i)))). { intros i I. destruct HT as [_ H]. specialize (H i I). destruct (dget T (KBc i)); [reflexivity|congruence]. }
    split.
    - intros H. apply (Permutation_NoDup keys_are) in H. apply NoDup_parts in H as (H1 & H2 & H3). split.
      + intros i j I J E. apply (NoDup_map_inj _ _ H1 i j); [apply in_seq; lia|apply in_seq; lia|]. rewrite E. reflexivity.
      + intros i k I K E. apply (H3 (1, (Z.of_nat k + shift)%Z)).
        * apply in_map_iff. exists i. rewrite E. split; [reflexivity|apply in_seq; lia].
        * rewrite !in_app_iff. do 3 right. apply in_map_iff. exists (3 * k + 2). rewrite ltag by auto. split; auto. apply HL. eauto.
    - intros [H1 H2]. apply (Permutation_NoDup (Permutation_sym keys_are)).
      assert (L : forall x y, In x ls -> In y ls -> vtag x = vtag y -> x = y). { intros x y Hx Hy E. apply HL in Hx as (k & K & ->). apply HL in Hy as (k' & K' & ->). rewrite !ltag in E by auto. lia. }
      apply NoDup_join; [|cbn [app]; constructor; [|apply NoDup_join; [|apply NoDup_join|]]|].
      + apply NoDup_map_on; [apply seq_NoDup|]. intros i j I J E. apply in_seq in I, J. apply H1; [lia|lia|]. injection E as E. rewrite (Tz i), (Tz j) by lia. f_equal. auto.
      + rewrite !in_app_iff, !in_map_iff. intros [(? & E & _)|[(? & E & _)|(? & E & _)]]; discriminate E.
      + apply NoDup_map_on; auto. intros x y Hx Hy E. injection E as E. auto.
      + apply NoDup_map_on; [apply NoDup_filter; auto|]. intros x y Hx Hy E. injection E as E. apply filter_In in Hx as [Hx Q], Hy as [Hy _]. apply own_tags; auto. rewrite <- In_ftags. apply memb_notIn, negb_true_iff. auto.
      + apply NoDup_map_on; auto. intros x y Hx Hy E. injection E as E. auto.
      + intros x Hx Hy. apply in_map_iff in Hx as (? & <- & _). apply in_map_iff in Hy as (? & E & _). discriminate E.
      + intros x Hx Hy. apply in_map_iff in Hx as (i & <- & Hi). apply in_app_iff in Hy as [Hy|Hy]; apply in_map_iff in Hy as (v & E & Hv); [|discriminate E]. injection E as E. apply filter_In in Hv as [_ Q].
        apply negb_true_iff, memb_notIn in Q. apply Q. rewrite E, In_ftags. apply HL in Hi as (k & K & ->). rewrite ltag by auto. exists k. auto.
      + intros x Hx Hy. apply in_map_iff in Hx as (i & <- & Hi). apply in_seq in Hi. rewrite !in_app_iff, !in_map_iff in Hy. destruct Hy as [[E|[]]|[(? & E & _)|[(? & E & _)|(y & E & Hy)]]]; [discriminate E|discriminate E|discriminate E|].
        injection E as E. apply HL in Hy as (k & K & ->). rewrite ltag in E by auto. apply (H2 i k); [lia|auto|]. rewrite Tz by lia. f_equal. auto.
  Qed.

  (** the vertices with the tag of a fracture are its two ends *)
  Lemma vertex_at k j : k < N -> j < 2 -> In (3 * k + j) vs /\ vtag (3 * k + j) = (Z.of_nat k + shift)%Z /\ num P net n (3 * k + j) = Z.of_nat (n + (2 * k + j) + 1).
  Proof.
    intros K J. destruct (line_at P isect near segs shift net C (no_split _ _ _ _ _ net OK) k K) as (imm & _ & _ & V0 & V1 & _).
    assert (Hv : In (3 * k + j) vs) by (apply HV; destruct j as [|[|j]]; [rewrite Nat.add_0_r; auto|auto|lia]). split; auto.
    destruct (vertex_tag _ Hv) as (t & _ & En & A1 & A2). destruct (Nat.lt_ge_cases t (2 * N)) as [L|L]; [|destruct (A2 L) as [Q _]; lia].
    destruct (A1 L) as [Q E]. pose proof (Nat.div_mod_eq t 2). pose proof (Nat.mod_upper_bound t 2). assert (t = 2 * k + j) by lia. assert (t / 2 = k) by lia. rewrite E, En. split; [congruence|]. f_equal. lia.
  Qed.
  Lemma ends_only k : k < N -> (Z.of_nat N <= (shift + 1) * (shift + 1))%Z ->
    forall z, tagged P n net (Z.of_nat k + shift) z <-> z = Z.of_nat (n + 2 * k + 1) \/ z = Z.of_nat (n + 2 * k + 2).
  Proof.
    intros K B z. rewrite (tagged_spec P isect near pts segs shift net OK vs HV). split.
    - intros (v & Hv & E & ->). destruct (vertex_tag v Hv) as (t & _ & -> & A1 & A2). destruct (Nat.lt_ge_cases t (2 * N)) as [L|L].
      + destruct (A1 L) as [_ E']. pose proof (Nat.div_mod_eq t 2). pose proof (Nat.mod_upper_bound t 2). assert (t / 2 = k) by lia. lia.
      + exfalso. destruct (A2 L) as (_ & i & j & ? & ? & ? & ? & ? & I & _ & _ & _ & _ & E' & _). rewrite E' in E. unfold pair_integers in E. rewrite Z.pow_2_r in E. destruct (Z.ltb_spec (Z.of_nat i + shift) (Z.of_nat j + shift)); [|lia]. nia.
    - intros H. destruct (vertex_at k 0 K) as (V0 & E0 & N0); [lia|]. destruct (vertex_at k 1 K) as (V1 & E1 & N1); [lia|]. destruct H as [->| ->]; [exists (3 * k + 0)|exists (3 * k + 1)]; (split; [assumption|]; split; [assumption|]); [rewrite N0|rewrite N1]; f_equal; lia.
  Qed.
End Groups.

(** ** The theorems *)
Section Main.
  Variable P : Type.
  Variable isect : P -> P -> P -> P -> option P.
  Variable near : P -> P -> bool.
  Variable argsort : list P -> P -> list nat.
  Lemma fractured_lemma fuel tags pts segs shift :
    (forall x, near x x = true) -> (forall xs o, Permutation (argsort xs o) (seq 0 (length xs))) -> pts <> [] -> segs <> [] -> 2 <= fuel ->
    all_tagged (in_effect tags default_2D) (length pts) ->
    exists net r, mesh_fractured P isect near argsort fuel tags pts (map (fun s => [fst s; snd s]) segs) shift true = Ok (net, r) /\
      intersect_1D_fractures P isect near argsort (map (fun s => [fst s; snd s]) segs) shift = Ok net /\
      accepted nothing r /\ fractured_polygon P (in_effect tags default_2D) pts (length segs) shift net r /\
      ((0 <= shift)%Z -> NoDup (group_keys r) <-> tags_apart (in_effect tags default_2D) (length pts) (length segs) shift) /\
      ((0 <= shift)%Z -> (Z.of_nat (length segs) <= (shift + 1) * (shift + 1))%Z -> forall k, k < length segs ->
         forall z, tagged P (length pts) net (Z.of_nat k + shift) z <-> z = Z.of_nat (length pts + 2 * k + 1) \/ z = Z.of_nat (length pts + 2 * k + 2)).
  Proof.
    intros R A Hp Hs Hf HT. destruct fuel as [|[|f]]; [lia|lia|].
    destruct (mesh_spec P isect near argsort R A f tags pts segs shift Hp Hs HT) as (net & groups & vs & ls & OK & Pg & NV & NL & HV & HL & En & E).
    exists net. eexists. split; [exact E|]. split; [exact En|]. split; [|split; [|split]].
    - eapply fractured_accepted; eauto.
    - eapply fractured_described; eauto.
    - intros S. eapply keys_distinct; eauto.
    - intros S B k K. eapply ends_only; eauto.
  Qed.
End Main.
