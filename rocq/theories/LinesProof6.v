(** * Lemmas: the wire of a box with lines *)
From Coq Require Import List Arith ZArith Bool Reals Lia Lra Permutation Sorted.
From Verif Require Import Base BaseProof VecBase GeoModel GeoSpec GeoProof2 ShapeModel ShapeSpec ShapeProof BoxProof VertexModel VertexSpec TagModel EmbedModel EmbedSpec EmbedProof EmbedProof2 EmbedProof3 IntersectModel IntersectSpec IntersectProof2 IntersectProof3 IntersectProof4 QueryModel QuerySpec QueryProof LinesModel LinesSpec LinesProof LinesProof2 LinesProof3 LinesProof4 LinesProof5.
Import ListNotations.

(** A path: every edge with the vertex it leads to *)
Fixpoint npath (h : heap) (x : nat) (p : list (list nat * nat)) : Prop :=
  match p with
  | [] => True
  | (ends, y) :: p => x < length h /\ y < length h /\ x <> y /\ (ends = [x; y] \/ ends = [y; x]) /\ npath h y p
  end.
Definition fin (x : nat) (p : list (list nat * nat)) : nat := last (map snd p) x.

Lemma fin_cons x e y p : fin x ((e, y) :: p) = fin y p.
Proof.
  unfold fin. cbn [map snd]. destruct (map snd p) as [|z q] eqn:E; [reflexivity|]. clear E. change (last (z :: q) x = last (z :: q) y). revert z. induction q as [|w q IH]; intros z; auto. change (last (w :: q) x = last (w :: q) y). auto.
Qed.
Lemma fin_app x p q : fin x (p ++ q) = fin (fin x p) q.
Proof. revert x. induction p as [|[e y] p IH]; intros x; [reflexivity|]. cbn [app]. rewrite !fin_cons. auto. Qed.
Lemma npath_app h p q : forall x, npath h x p -> npath h (fin x p) q -> npath h x (p ++ q).
Proof. induction p as [|[e y] p IH]; intros x H Q; auto. rewrite fin_cons in Q. cbn [app npath] in *. destruct H as (A & B & C & D & E). repeat split; auto. Qed.
Lemma perm_two (l : list nat) a b : Permutation l [a; b] -> l = [a; b] \/ l = [b; a].
Proof. intros P. apply Permutation_sym, Permutation_length_2_inv in P as [->| ->]; auto. Qed.

Lemma joined_path h : forall l shift es x, joined h shift (x :: l) es -> live h (x :: l) -> (forall k u v, nth_error (x :: l) k = Some u -> nth_error (x :: l) (S k) = Some v -> u <> v) ->
  exists p, map fst p = map snd es /\ npath h x p /\ fin x p = last l x.
Proof.
  induction l as [|y l IH]; intros shift es x (Len & J) Lv D.
  - destruct es; [|discriminate]. exists []. cbn. auto.
  - destruct (J 0 x y eq_refl eq_refl) as (ends & E & Pm & _). destruct es as [|e es]; [discriminate|]. injection E as ->.
    destruct (IH (shift + 1)%Z es y) as (p & Mp & Np & Fp).
    + split; [cbn in *; lia|]. intros k u v Hu Hv. destruct (J (S k) u v Hu Hv) as (ends' & E' & Pm' & S'). exists ends'. split; auto. replace (Z.of_nat k + (shift + 1))%Z with (Z.of_nat (S k) + shift)%Z by lia. exact E'.
    + intros v Hv. apply Lv. right. auto.
    + intros k u v Hu Hv. apply (D (S k)); auto.
    + exists ((ends, y) :: p). cbn [map fst snd npath]. rewrite Mp, fin_cons, Fp. split; auto. split.
      * split; [apply Lv; left; auto|]. split; [apply Lv; right; left; auto|]. split; [apply (D 0); auto|]. split; [apply perm_two; auto|auto].
      * destruct l as [|z l]; auto. change (last (z :: l) y = last (z :: l) x). clear. revert z. induction l as [|w q IH]; intros z; auto. change (last (w :: q) y = last (w :: q) x). auto.
Qed.

Lemma forall2_len {A B} (R : A -> B -> Prop) l l' : Forall2 R l l' -> length l = length l'.
Proof. induction 1; cbn; auto. Qed.

Section Ring.
  Variables (h0 new : heap) (n m : nat) (hosts : list (option host)) (eps : R).
  Notation edges := (network n m).
  Hypothesis clear : clear_network h0 edges eps 2.
  Notation h := (h0 ++ new).
  Notation L := (length h0).
  Hypothesis sorted : StronglySorted lex (map snd new).
  Hypothesis cuts : forall i a b, edge_at edges i a b -> exists a' b' es, nth_error hosts i = Some (Some (mk_host [a'; b'] es)) /\ cut h L (cut_point h0 edges i) a b a' b' es.

  Hypothesis big : 2 <= n.
  Lemma side_at i a b : i < n -> side n i = [a; b] -> edge_at edges i a b.
  Proof. intros H E. unfold edge_at. rewrite nth_network, <- E. destruct (Nat.ltb_spec i n); [auto|lia]. Qed.
  Lemma at_side i a b : i < n -> edge_at edges i a b -> side n i = [a; b].
  Proof. intros H E. unfold edge_at in E. rewrite nth_network in E. destruct (Nat.ltb_spec i n); [congruence|lia]. Qed.
  Lemma side_in i c : i < n -> In c (side n i) -> exists a b, edge_at edges i a b /\ In c [a; b].
  Proof. intros H I. unfold side in I. destruct (S i =? n) eqn:E; [exists 0, i|exists i, (S i)]; (split; [apply side_at; auto; unfold side; rewrite E; auto|auto]). Qed.
  Lemma apart i a b : i < n -> edge_at edges i a b -> pt h0 a <> pt h0 b.
  Proof.
    intros Hi E Q. pose proof (net_eps _ _ _ _ clear) as Pe.
    assert (Z1 : forall w, area2 2 (vsub (pt h0 b) (pt h0 a)) w = 0%R) by (intros w; unfold area2, cross, vsub; rewrite Q; cbn; ring).
    assert (Z2 : forall w, area2 2 w (vsub (pt h0 b) (pt h0 a)) = 0%R) by (intros w; unfold area2, cross, vsub; rewrite Q; cbn; ring).
    destruct (Nat.eq_dec (S i) n) as [Si|Si].
    - assert (E0 : edge_at edges 0 0 (if 1 =? n then 0 else 1)) by (apply side_at; [lia|]; unfold side; destruct (Nat.eqb_spec 1 n); [lia|auto]). destruct (Nat.eqb_spec 1 n); [lia|].
      assert (a = 0). { apply at_side in E; auto. unfold side in E. rewrite (proj2 (Nat.eqb_eq _ _) Si) in E. congruence. } subst a.
      destruct (net_definite _ _ _ _ clear 0 i 0 1 0 b ltac:(lia) E0 E) as [D|(_ & D)]; [rewrite Z2, Rabs_R0 in D; lra|].
      replace (area2 2 (vsub (pt h0 1) (pt h0 0)) (vsub (pt h0 0) (pt h0 0))) with 0%R in D by (unfold area2, cross, vsub; cbn; ring). rewrite Rabs_R0 in D. lra.
    - assert (El : edge_at edges (n - 1) 0 (n - 1)) by (apply side_at; [lia|]; unfold side; destruct (Nat.eqb_spec (S (n - 1)) n); [auto|lia]).
      destruct (net_definite _ _ _ _ clear i (n - 1) a b 0 (n - 1) ltac:(lia) E El) as [D|(_ & D)]; rewrite Z1, Rabs_R0 in D; lra.
  Qed.
  Lemma seg_end (a b p : vec) : In p [a; b] -> on_segment a b p.
  Proof.
    intros [<-|[<-|[]]]; [exists 0%R|exists 1%R]; (split; [lra|]); [destruct a as [x y z], b as [x' y' z']|destruct a as [x y z], b as [x' y' z']]; unfold between, vadd, vscale, vsub; cbn; f_equal; ring.
  Qed.
  (** A corner is a cut point of both of its sides or of none *)
  Lemma corner_cut i k c : i < n -> k < n -> i <> k -> In c (side n i) -> In c (side n k) -> cut_point h0 edges i (pt h0 c) -> cut_point h0 edges k (pt h0 c).
  Proof.
    intros Hi Hk Ne Ii Ik (j & M & X). destruct (side_in i c Hi Ii) as (a & b & Ei & Ca), (side_in k c Hk Ik) as (a' & b' & Ek & Ca').
    assert (Nj : j <> k) by (intros ->; apply (X c a b a' b' Ei Ek Ca Ca'); auto).
    destruct M as (_ & a1 & b1 & p & q & _ & Ej & _ & On). exists j. split.
    - split; [auto|]. exists a', b', p, q. split; [auto|]. split; [auto|]. split; [|auto]. apply seg_end. apply in_map with (f := pt h0) in Ca'. auto.
    - intros v a2 b2 p2 q2 E2 E2' V1 V2 Q. assert (v = c).
      { assert (A := apart k a' b' Hk Ek). assert (a2 = a' /\ b2 = b') as (-> & ->) by (unfold edge_at in *; split; congruence).
        destruct V1 as [<-|[<-|[]]], Ca' as [<-|[<-|[]]]; auto; exfalso; apply A; congruence. }
      subst v. apply (X c a b p2 q2 Ei E2' Ca V2). auto.
  Qed.
  (** so both have the same vertex there *)
  Lemma corner_same i k c c1 c2 : i < n -> k < n -> i <> k -> In c (side n i) -> In c (side n k) -> c < L ->
    end_taken h L (cut_point h0 edges i) c c1 -> end_taken h L (cut_point h0 edges k) c c2 -> c1 = c2.
  Proof.
    intros Hi Hk Ne Ii Ik Lc (P1 & T1) (P2 & T2). rewrite (old_pt h0 new c Lc) in *.
    destruct T1 as [(C1 & L1)|(C1 & ->)], T2 as [(C2 & L2)|(C2 & ->)]; auto.
    - apply (new_unique h0 new sorted); auto. congruence.
    - destruct C2. apply (corner_cut i k c); auto.
    - destruct C1. apply (corner_cut k i c); auto.
  Qed.

  (** One side *)
  Lemma side_path i a b a' b' es : i < n -> edge_at edges i a b -> cut h L (cut_point h0 edges i) a b a' b' es ->
    exists p, map fst p = match es with [] => [[a'; b']] | _ => map snd es end /\ p <> [] /\ npath h a' p /\ fin a' p = b'.
  Proof.
    intros Hi E (Ta & Tb & C). destruct (edge_live' h0 edges eps clear i a b E) as (La & Lb). assert (A := apart i a b Hi E). rewrite <- !(old_pt h0 new) in A by auto.
    assert (Pa : pt h a' = pt h a) by apply Ta. assert (Pb : pt h b' = pt h b) by apply Tb.
    assert (La' : a' < length h) by (apply (end_live h0 new (cut_point h0 edges i) a); auto). assert (Lb' : b' < length h) by (apply (end_live h0 new (cut_point h0 edges i) b); auto).
    destruct C as [(-> & _)|(mid & shift & Ne & Pm & Lm & S & J & _)].
    - exists [([a'; b'], b')]. cbn. repeat split; auto; [discriminate|]. intros ->. congruence.
    - destruct (joined_path h (mid ++ [b']) shift es a' J) as (p & Mp & Np & Fp).
      + intros v [<-|V]; auto. apply in_app_iff in V as [V|[<-|[]]]; auto. apply Lm. auto.
      + assert (Q : forall v, In v mid -> pt h v <> pt h a' /\ pt h v <> pt h b'). { intros v Hv. rewrite Pa, Pb. apply (in_map (pt h)), Pm in Hv. tauto. }
        intros k u v Hu Hv E'. subst v. destruct k as [|k].
        * cbn [nth_error] in Hu, Hv. injection Hu as <-. destruct mid as [|w mid]; [congruence|]. injection Hv as Hv. destruct (Q w) as (Q1 & _); [left; auto|]. congruence.
        * change (nth_error (mid ++ [b']) k = Some u) in Hu. change (nth_error (mid ++ [b']) (Datatypes.S k) = Some u) in Hv. destruct (Nat.lt_ge_cases (Datatypes.S k) (length mid)) as [Lk|Lk].
          -- rewrite nth_error_app1 in Hu by lia. rewrite nth_error_app1 in Hv by lia. clear - S Hu Hv. revert k Hu Hv. induction S as [|x l S IH F]; intros [|k] Hu Hv; try discriminate.
             ++ injection Hu as ->. change (nth_error l 0 = Some u) in Hv. apply nth_error_In in Hv. rewrite Forall_forall in F. apply F in Hv. lra.
             ++ apply (IH k); auto.
          -- assert (Datatypes.S k < length (mid ++ [b'])) by (apply nth_error_Some; congruence). rewrite app_length in H. cbn in H. rewrite nth_error_app1 in Hu by lia. rewrite nth_error_app2 in Hv by lia. replace (Datatypes.S k - length mid) with 0 in Hv by lia. injection Hv as Hv.
             apply nth_error_In in Hu. destruct (Q u Hu) as (_ & Q2). congruence.
      + exists p. rewrite last_last in Fp. destruct es as [|e es]; [destruct J as (Q & _); cbn in Q; rewrite app_length in Q; cbn in Q; lia|]. split; auto. split; auto. intros ->. discriminate.
  Qed.

  (** All sides but the last *)
  Definition parts (l : list (option host)) : list (list nat) :=
    flat_map (fun e => match e with Some e => match h_immersed e with [] => [h_ends e] | es => map snd es end | None => [] end) l.
  Lemma firstn_snoc {A} (l : list A) k x : nth_error l k = Some x -> firstn (S k) l = firstn k l ++ [x].
  Proof. revert k. induction l as [|y l IH]; intros [|k] H; try discriminate; cbn in *; [congruence|]. f_equal. auto. Qed.
  Hypothesis free : ~ cut_point h0 edges 0 (pt h0 0).
  Lemma parts_path k : S k < n -> exists p, map fst p = parts (firstn (S k) hosts) /\ p <> [] /\ npath h 0 p /\ end_taken h L (cut_point h0 edges k) (S k) (fin 0 p).
  Proof.
    induction k as [|k IH]; intros Hk.
    - assert (E : edge_at edges 0 0 1) by (apply side_at; [lia|]; unfold side; destruct (Nat.eqb_spec 1 n); [lia|auto]).
      destruct (cuts 0 0 1 E) as (a' & b' & es & Eh & C). destruct (side_path 0 0 1 a' b' es ltac:(lia) E C) as (p & Mp & Np & Pp & Fp).
      destruct (edge_live' h0 edges eps clear 0 0 1 E) as (L0 & _). assert (a' = 0) as ->. { destruct C as (Ta & _). destruct Ta as (_ & [(K & _)|(_ & K)]); auto. rewrite old_pt in K by auto. contradiction. }
      exists p. split; [|split; [auto|split; [auto|]]].
      + rewrite (firstn_snoc _ _ _ Eh). unfold parts. cbn [firstn app flat_map h_immersed h_ends]. rewrite app_nil_r, Mp. destruct es; auto.
      + rewrite Fp. apply C.
    - destruct (IH ltac:(lia)) as (p & Mp & Np & Pp & Tp). assert (E : edge_at edges (S k) (S k) (S (S k))) by (apply side_at; [lia|]; unfold side; destruct (Nat.eqb_spec (S (S k)) n); [lia|auto]).
      destruct (cuts _ _ _ E) as (a' & b' & es & Eh & C). destruct (side_path (S k) _ _ a' b' es ltac:(lia) E C) as (q & Mq & Nq & Pq & Fq). destruct (edge_live' h0 edges eps clear _ _ _ E) as (L0 & _).
      assert (fin 0 p = a') as Fa.
      { apply (corner_same k (S k) (S k)); auto; try lia; try apply C; unfold side; [destruct (Nat.eqb_spec (S k) n); [lia|cbn; auto]|destruct (Nat.eqb_spec (S (S k)) n); [lia|cbn; auto]]. }
      exists (p ++ q). split; [|split; [|split]].
      + rewrite (firstn_snoc _ _ _ Eh), map_app, Mp, Mq. unfold parts. rewrite flat_map_app. f_equal. cbn [flat_map h_immersed h_ends]. rewrite app_nil_r. destruct es; auto.
      + destruct p; [congruence|discriminate].
      + apply npath_app; auto. rewrite Fa. auto.
      + rewrite fin_app, Fa, Fq. apply C.
  Qed.
  Hypothesis whole_side : forall x, cut_point h0 edges (n - 1) x -> x = pt h0 0 \/ x = pt h0 (n - 1).
  Lemma ring_path : exists p, map fst p = ring n hosts /\ p <> [] /\ npath h 0 p /\ fin 0 p = 0.
  Proof.
    assert (El : edge_at edges (n - 1) 0 (n - 1)) by (apply side_at; [lia|]; unfold side; destruct (Nat.eqb_spec (S (n - 1)) n); [auto|lia]).
    assert (E0 : edge_at edges 0 0 1) by (apply side_at; [lia|]; unfold side; destruct (Nat.eqb_spec 1 n); [lia|auto]).
    destruct (cuts _ _ _ El) as (a' & b' & es & Eh & C). destruct (edge_live' h0 edges eps clear _ _ _ El) as (L0 & Ll).
    destruct (cuts _ _ _ E0) as (a0 & b0 & es0 & Eh0 & C0).
    destruct (parts_path (n - 2) ltac:(lia)) as (p & Mp & Np & Pp & Tp). replace (S (n - 2)) with (n - 1) in * by lia.
    assert (I0 : In 0 (side n 0) /\ In 0 (side n (n - 1)) /\ In (n - 1) (side n (n - 2)) /\ In (n - 1) (side n (n - 1))).
    { unfold side. destruct (Nat.eqb_spec 1 n); [lia|]. destruct (Nat.eqb_spec (S (n - 1)) n); [|lia]. destruct (Nat.eqb_spec (S (n - 2)) n); [lia|]. cbn. repeat split; auto. right. left. lia. }
    destruct I0 as (I0 & I1 & I2 & I3).
    assert (a' = 0) as ->.
    { assert (a0 = 0) as ->. { destruct C0 as (Ta & _). destruct Ta as (_ & [(K & _)|(_ & K)]); auto. rewrite old_pt in K by auto. contradiction. }
      symmetry. apply (corner_same 0 (n - 1) 0); auto; try lia; [apply C0|apply C]. }
    assert (fin 0 p = b') as Fb by (apply (corner_same (n - 2) (n - 1) (n - 1)); auto; try lia; apply C).
    assert (es = []) as ->.
    { destruct C as (_ & _ & [(-> & _)|(mid & shift & Nm & Pm & _)]); auto. destruct mid as [|v mid]; [congruence|]. assert (Q : In (pt h v) (map (pt h) (v :: mid))) by (left; auto). apply Pm in Q as (Q & Q1 & Q2).
      rewrite (old_pt h0 new 0 L0) in Q1. rewrite (old_pt h0 new (n - 1) Ll) in Q2. apply whole_side in Q as [Q|Q]; contradiction. }
    destruct (side_path (n - 1) _ _ 0 b' [] ltac:(lia) El C) as (q & Mq & _ & Pq & Fq).
    assert (B : b' < length h /\ 0 < length h /\ b' <> 0).
    { destruct q as [|[ends y] q]; [discriminate|]. destruct q; [|discriminate]. cbn in Fq. unfold fin in Fq. cbn in Fq. subst y. destruct Pq as (A1 & A2 & A3 & _). auto. }
    exists (p ++ [([0; b'], 0)]). split; [|split; [destruct p; discriminate|split]].
    - unfold ring. replace n with (S (n - 1)) by lia. rewrite (firstn_snoc _ _ _ Eh), map_app, Mp. unfold parts. rewrite flat_map_app. reflexivity.
    - apply npath_app; auto. rewrite Fb. cbn. repeat split; tauto.
    - rewrite fin_app. reflexivity.
  Qed.
End Ring.

Section Trees.
  Variables (n m : nat) (h : heap) (vphys : list (option Z)) (area : option Z) (hosts : list (option host)) (phys : list (option Z)) (es : list (Z * list nat)).
  Hypothesis len : length hosts = n + 1 + m.
  Hypothesis at_wire : nth_error hosts n = Some None.
  Hypothesis at_edge : forall k, k < n + 1 + m -> k <> n -> exists e, nth_error hosts k = Some (Some e) /\ sound h e.
  Hypothesis all_subs : es = concat (map immersed_in hosts).
  Notation N := (mk_net h vphys n [0; 0] area hosts phys es).
  Variable t : nat -> Z.
  Hypothesis tags : forall x, x < length h -> t x = Z.of_nat x.
  Notation vt := (vertex_tree N t).
  Definition made (c : shape vec) (ends : list nat) : Prop := s_boundary c = map vt ends.

  Lemma made_ring : Forall2 made (immersed (wire_tree N t)) (ring n hosts).
  Proof.
    rewrite immersed_wire. unfold ring.
    assert (G : forall l s, (forall k x, nth_error l k = Some x -> s + k < n /\ nth_error hosts (s + k) = Some x) ->
      Forall2 made (flat_map (fun k => match subs_of N k with [] => [edge_tree N t k] | l => map (sub_tree N t) l end) (seq s (length l)))
        (flat_map (fun e => match e with Some e => match h_immersed e with [] => [h_ends e] | es => map snd es end | None => [] end) l)).
    { induction l as [|x l IH]; intros s H; cbn [length seq flat_map]; [constructor|]. apply Forall2_app.
      - destruct (H 0 x eq_refl) as (Ls & Hs). rewrite Nat.add_0_r in Ls, Hs. destruct (at_edge s ltac:(lia) ltac:(lia)) as (e & E & _). assert (x = Some e) as -> by congruence.
        pose proof (subs_block n h vphys area hosts phys es all_subs s _ E) as B. cbn [immersed_in] in B. rewrite <- B. destruct (subs_of N s) as [|j0 q].
        + constructor; [|constructor]. unfold made, edge_tree. cbn [s_boundary n_hosts]. rewrite (nth_error_nth _ _ None E). reflexivity.
        + change (Forall2 made (map (sub_tree N t) (j0 :: q)) (map snd (map (fun j => nth j es (0%Z, [])) (j0 :: q)))). generalize (j0 :: q). clear. intros l. induction l as [|j l IH]; cbn; constructor; auto. reflexivity.
      - apply IH. intros k y Hy. replace (S s + k) with (s + S k) by lia. apply H. auto. }
    specialize (G (firstn n hosts) 0). rewrite firstn_length_le in G by lia. apply G. intros k x Hx. assert (k < n) by (assert (Q : k < length (firstn n hosts)) by (apply nth_error_Some; congruence); rewrite firstn_length in Q; lia). cbn [plus]. split; auto.
    rewrite <- Hx. clear - H. revert k n H. induction hosts as [|e l IH]; intros [|k] [|n] H; try lia; auto. cbn. apply IH. lia.
  Qed.
  Lemma vt_vertex x : x < length h -> is_vertex (vt x).
  Proof. intros H. split; [reflexivity|]. rewrite (vertex_live n h vphys area hosts phys es t x H). discriminate. Qed.
  Lemma vt_inj x y : x < length h -> y < length h -> vt x = vt y -> x = y.
  Proof. intros Hx Hy E. apply (f_equal s_tag) in E. cbn in E. rewrite !tags in E by auto. lia. Qed.
  Lemma walk_of : forall (p : list (list nat * nat)) trees x, Forall2 made trees (map fst p) -> npath h x p -> walk (vt x) (combine trees (map (fun e => vt (snd e)) p)).
  Proof.
    induction p as [|[ends y] p IH]; intros trees x F P; inversion F as [|c e cs es' Hc Hcs]; subst; [exact I|]. destruct P as (Lx & Ly & Ne & En & P). cbn [map combine snd walk].
    split; [apply vt_vertex; auto|]. split; [apply vt_vertex; auto|]. split; [cbn; rewrite !tags by auto; lia|]. split; [|apply IH; auto].
    unfold made in Hc. cbn in Hc. rewrite Hc. destruct En as [->| ->]; cbn; auto.
  Qed.
  Lemma starts_of : forall (p : list (list nat * nat)) (trees : list (shape vec)) x, length trees = length p -> forall i, i < length p ->
    nth_error (starts (vt x) (combine trees (map (fun e => vt (snd e)) p))) i = option_map vt (nth_error (x :: map snd p) i).
  Proof.
    induction p as [|[e y] p IH]; intros trees x Le i Hi; [cbn in Hi; lia|]. destruct trees as [|c trees]; [discriminate|]. cbn [map combine starts snd]. destruct i as [|i]; [reflexivity|]. cbn [nth_error]. apply IH; [cbn in Le; lia|cbn in Hi; lia].
  Qed.
  Lemma npath_live : forall p x, npath h x p -> forall i e y z, nth_error p i = Some (e, y) -> nth_error (x :: map snd p) i = Some z -> z < length h /\ y < length h /\ (e = [z; y] \/ e = [y; z]) /\ z <> y.
  Proof.
    induction p as [|[e y] p IH]; intros x P [|i] e' y' z H Hz; try discriminate; cbn in P.
    - injection H as <- <-. injection Hz as <-. tauto.
    - apply (IH y) with (i := i); [tauto|auto|auto].
  Qed.
  Lemma wire_round p fuel o : p <> [] -> map fst p = ring n hosts -> npath h 0 p -> fin 0 p = 0 ->
    orient_immersed_edges allclose_default (S fuel) (wire_tree N t) = Ok o -> round (ring n hosts) o (0 :: map snd p).
  Proof.
    intros Np Mp P Fp EO. pose proof made_ring as F. rewrite <- Mp in F. pose proof (walk_of p _ 0 F P) as W. pose proof (forall2_len _ _ _ F) as Le. rewrite map_length in Le.
    destruct p as [|[e1 v1] p']; [congruence|]. remember ((e1, v1) :: p') as p eqn:Ep. destruct (immersed (wire_tree N t)) as [|c1 cs] eqn:Ei; [rewrite Ep in Le; discriminate|].
    assert (Ec : combine (c1 :: cs) (map (fun e => vt (snd e)) p) = (c1, vt v1) :: combine cs (map (fun e => vt (snd e)) p')) by (rewrite Ep; reflexivity).
    assert (P0 : 0 < length h /\ v1 < length h /\ 0 <> v1) by (rewrite Ep in P; cbn in P; tauto).
    destruct (wire_lemma allclose_default fuel (wire_tree N t) (vt 0) c1 (vt v1) (combine cs (map (fun e => vt (snd e)) p')) default_refl) as (o' & EO' & Lo & Le' & _).
    { rewrite <- Ec, Ei. symmetry. assert (Q : length (c1 :: cs) = length (map (fun e => vt (snd e)) p)) by (rewrite map_length; auto). clear - Q. revert Q. generalize (map (fun e : list nat * nat => vt (snd e)) p) as b, (c1 :: cs) as a. intros b a. revert b. induction a as [|x a IH]; intros [|y b] Q; try discriminate; auto. cbn. f_equal. auto. }
    { rewrite <- Ec. exact W. }
    { cbn. rewrite !tags by tauto. lia. }
    assert (o' = o) as -> by congruence. rewrite <- Ec in Le'.
    assert (Lr : length (ring n hosts) = length p) by (rewrite <- Mp, map_length; auto).
    split; [cbn; rewrite map_length; auto|]. split.
    { rewrite Lo, Lr, combine_length, map_length. rewrite Ep in Le |- *. cbn in Le |- *. lia. }
    split.
    { rewrite Lr. cbn [hd_error]. transitivity (Some (fin 0 p)); [congruence|]. unfold fin. clear - Np. destruct p as [|[e y] p]; [congruence|]. cbn [length map snd nth_error].
      clear Np. revert y. induction p as [|[e' y'] p IH]; intros y; [reflexivity|]. cbn [length map snd nth_error]. rewrite <- IH. reflexivity. }
    intros k e x y He Hx Hy. rewrite <- Mp in He. rewrite nth_error_map in He. destruct (nth_error p k) as [[e' y']|] eqn:Ek; [|discriminate]. injection He as ->.
    assert (Hk : k < length p) by (apply nth_error_Some; congruence). assert (y' = y) as -> by (cbn [nth_error] in Hy; rewrite nth_error_map, Ek in Hy; cbn in Hy; congruence).
    destruct (npath_live p 0 P k e y x Ek Hx) as (Lx & Ly & En & Ne). destruct (nth_error (c1 :: cs) k) as [c|] eqn:Ec'; [|apply nth_error_None in Ec'; lia].
    assert (Hc : made c e). { clear - F Ek Ec'. revert k Ek Ec'. remember (map fst p) as q. revert p Heqq. induction F as [|a b la lb Hab F IH]; intros p Hq k Ek Ec; [destruct k; discriminate|]. destruct p as [|[e0 y0] p]; [discriminate|]. injection Hq as -> Hq. destruct k as [|k]; cbn in *; [congruence|]. eapply IH; eauto. }
    destruct (Le' k c (vt x) (vt y)) as (s & Hs & Ld).
    { clear - Ek Ec' Hk. revert k Ek Ec' Hk. generalize (c1 :: cs) as l. induction p as [|[e0 y0] p IH]; intros l [|k] Ek Ec Hk; try discriminate; destruct l; try discriminate; cbn in *; [congruence|]. apply IH; auto. lia. }
    { rewrite starts_of by auto. rewrite Hx. reflexivity. }
    unfold made in Hc. rewrite Hs. destruct Ld as [(-> & B)|(-> & B)]; rewrite Hc in B; [left|right]; (split; [reflexivity|]); destruct En as [->| ->]; auto; exfalso; cbn [map] in B; assert (B1 := f_equal (fun l => hd (vt 0) l) B); cbn [hd] in B1; apply vt_inj in B1; auto.
  Qed.
End Trees.

Theorem wire_theorem argsort_R argsort eps fuel box lines area bc : is_argsort_R argsort_R -> is_argsort argsort ->
  2 <= length box -> 5 <= fuel -> area <> None \/ (exists i, i < length box /\ bc i <> None) ->
  clear_network (given box lines) (network (length box) (length lines)) eps 2 ->
  ~ cut_point (given box lines) (network (length box) (length lines)) 0 (pt (given box lines) 0) ->
  (forall x, cut_point (given box lines) (network (length box) (length lines)) (length box - 1) x ->
     x = pt (given box lines) 0 \/ x = pt (given box lines) (length box - 1)) ->
  exists N kept t o D g l, build_box_2D_with_lines argsort_R argsort eps fuel box lines area bc = Ok (N, kept, t, [o], (D, g)) /\
    round (ring (length box) (n_hosts N)) o l /\ hd_error l = Some 0.
Proof.
  intros AR AZ big Hf tagged clear free ws.
  destruct (whole argsort_R argsort AR AZ eps fuel box lines area bc big Hf tagged clear) as (top & new & hosts & es & kept & t & o & g & _ & EB & (t0 & T0 & EO) & SO & _ & AS & LN & AW & CU & AE & _).
  destruct (ring_path (given box lines) new (length box) (length lines) hosts eps clear SO CU big free ws) as (p & Mp & Np & P & F).
  destruct fuel as [|f]; [lia|]. do 3 eexists. exists o. do 2 eexists. exists (0 :: map snd p). split; [exact EB|]. split; [|reflexivity]. cbn [n_hosts].
  eapply (wire_round (length box) (length lines)); eauto.
Qed.

Theorem untagged argsort_R argsort eps fuel box lines bc : is_argsort argsort -> 2 <= length box -> 4 <= fuel -> (forall i, i < length box -> bc i = None) ->
  build_box_2D_with_lines argsort_R argsort eps fuel box lines None bc = Err ValueError.
Proof.
  intros AZ big Hf Hn. destruct (box_2D_gen allclose_default argsort AZ box None bc vzero big fuel default_refl Hf) as (ob & gb & EB & _).
  unfold build_box_2D_with_lines. rewrite EB. cbn [bind get_at nth_error]. rewrite corners_lemma. cbn [bind].
  match goal with |- context [max_physical_tag ?D] => set (D0 := D) end.
  pose proof (max_physical_lemma D0) as M. destruct (max_physical_tag D0) as [p|e].
  - exfalso. destruct M as ((s & Hs & E) & _). assert (K : In s (concat D0)) by (destruct Hs as (d & l & H1 & H2); apply nth_error_In in H1; apply in_concat; eauto).
    unfold D0 in K. cbn [concat] in K. rewrite app_nil_r in K. rewrite !in_app_iff in K. destruct K as [K|[[K|[<-|[]]]|[<-|[]]]]; try apply in_map_iff in K as (i & <- & K); cbn in E; try discriminate E. apply in_seq in K. rewrite Hn in E by lia. discriminate.
  - destruct M as (-> & _). reflexivity.
Qed.
