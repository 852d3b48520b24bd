(** * Lemmas about planes: C105 *)
From Coq Require Import List Arith ZArith Bool Lia Sorted.
From Verif Require Import Base BaseProof ShapeModel ShapeSpec ShapeProof DomProof BoxProof Box3Proof IntersectSpec QueryModel QuerySpec QueryProof PlanesModel PlanesSpec.
Import ListNotations.

Section PlanesProof.
  Context {P : Type}.
  Variable pclose : P -> P -> bool.
  Variable argsort : list Z -> list nat.
  Hypothesis argsort_ok : is_argsort argsort.
  Hypothesis refl : forall x, pclose x x = true.
  Notation shape := (shape P).
  Notation plane := (P * P * P * P)%type.

  (** The shapes of one plane *)
  Definition pv (v : Z) (q : plane) (i : nat) : shape := new_vertex (v + Z.of_nat i) (nth i (corners q) (let '(a, _, _, _) := q in a)).
  Definition pe (v e : Z) (q : plane) (i : nat) : shape :=
    mk_shape Edge (e + Z.of_nat i) None None (if i =? 3 then [pv v q 0; pv v q 3] else [pv v q i; pv v q (S i)]) [].
  Definition pw (v e : Z) (q : plane) : shape := mk_shape Wire (e + 4) None None [pv v q 0] (map (pe v e q) (seq 0 4)).
  Definition pf (v e f p : Z) (q : plane) : shape := mk_shape Face f (Some p) None [pw v e q] [].
  Definition po : list Z := [1; 1; 1; -1]%Z.

  Lemma vertex_eq fuel v q i j : shape_eq pclose (S fuel) (pv v q i) (pv v q j) = Ok (i =? j).
  Proof.
    cbn [shape_eq]. unfold pv at 1 2 3, new_vertex, new_shape. cbn [s_kind s_point]. unfold pv, new_vertex, new_shape. cbn [s_point s_dim s_kind kind_dim Nat.eqb s_tag andb].
    destruct (Nat.eqb_spec i j) as [->|N]; [rewrite Z.eqb_refl, refl; reflexivity|]. rewrite (proj2 (Z.eqb_neq _ _)) by lia. reflexivity.
  Qed.
  Lemma plane_wire fuel v e q : 1 <= fuel -> new_wire pclose argsort fuel (e + 4) (map (pe v e q) (seq 0 4)) [pv v q 0] = Ok (pw v e q, po).
  Proof.
    intros L. destruct fuel as [|fuel]; [lia|]. unfold new_wire, set_immersed.
    change (forallb (fun c => memb (s_dim c) (admissible_dimensions (s_kind (new_shape Wire (e + 4) (@None P))))) (map (pe v e q) (seq 0 4))) with true. cbv iota. cbn [bind].
    rewrite boundary_id; auto; [|constructor; [unfold admissible; cbn; lia|constructor]|repeat constructor]. cbn [bind s_kind s_tag s_phys s_point s_embedded new_shape]. fold (pw v e q).
    unfold orient_immersed_edges. change (immersed (pw v e q)) with (map (pe v e q) (seq 0 4)). cbn [seq map].
    assert (B0 : forall i, i < 4 -> get_at (s_boundary (pe v e q i)) 0 = Ok (pv v q (if i =? 3 then 0 else i))) by (intros i H; do 4 (destruct i as [|i]; [reflexivity|]); lia).
    assert (B1 : forall i, i < 4 -> get_at (s_boundary (pe v e q i)) 1 = Ok (pv v q (if i =? 3 then 3 else S i))) by (intros i H; do 4 (destruct i as [|i]; [reflexivity|]); lia).
    unfold seed_vertex. change (get_at [pe v e q 0; pe v e q 1; pe v e q 2; pe v e q 3] 0) with (Ok (pe v e q 0)). cbn [bind]. rewrite B0, B1 by lia. cbn [bind Nat.eqb].
    assert (G : (s_tag (pv v q 0) >? s_tag (pv v q 1))%Z = false) by (rewrite Z.gtb_ltb; apply Z.ltb_ge; cbn; lia). rewrite G.
    cbn [orient_loop]. rewrite !B0, !B1 by lia. cbn [bind Nat.eqb].
    repeat (rewrite ?vertex_eq; cbn [bind Nat.eqb]). reflexivity.
  Qed.
  Lemma plane_lemma fuel V E F ws v e f q p : 1 <= fuel ->
    plane_step pclose argsort fuel ([V; E; F; []], ws, (v, e, f)) (q, p) =
    Ok ([V ++ map (pv v q) (seq 0 4); E ++ map (pe v e q) (seq 0 4) ++ [pw v e q]; F ++ [pf v e f p q]; []], ws ++ [(pw v e q, po)], (v + 4, e + 5, f + 1)%Z).
  Proof.
    intros L. destruct q as [[[p0 p1] p2] p3] eqn:Eq. unfold plane_step.
    assert (V0 : new_vertex v p0 = pv v q 0) by (unfold pv; subst q; cbn [Z.of_nat]; rewrite Z.add_0_r; reflexivity).
    assert (V1 : new_vertex (v + 1) p1 = pv v q 1) by (subst q; reflexivity).
    assert (V2 : new_vertex (v + 2) p2 = pv v q 2) by (subst q; reflexivity).
    assert (V3 : new_vertex (v + 3) p3 = pv v q 3) by (subst q; reflexivity).
    rewrite V0, V1, V2, V3, <- Eq. clear V0 V1 V2 V3 Eq.
    assert (T : forall i j, i < j -> (s_tag (pv v q i) < s_tag (pv v q j))%Z) by (intros i j H; unfold pv, new_vertex, new_shape; cbn [s_tag]; lia).
    destruct (edge_low argsort argsort_ok e (pv v q 0) (pv v q 1) eq_refl eq_refl (T 0 1 ltac:(lia))) as (-> & _).
    destruct (edge_low argsort argsort_ok (e + 1) (pv v q 1) (pv v q 2) eq_refl eq_refl (T 1 2 ltac:(lia))) as (-> & _).
    destruct (edge_low argsort argsort_ok (e + 2) (pv v q 2) (pv v q 3) eq_refl eq_refl (T 2 3 ltac:(lia))) as (-> & _).
    destruct (edge_low argsort argsort_ok (e + 3) (pv v q 0) (pv v q 3) eq_refl eq_refl (T 0 3 ltac:(lia))) as (_ & ->). cbn [bind].
    assert (E0 : mk_shape Edge e None None [pv v q 0; pv v q 1] [] = pe v e q 0) by (unfold pe; cbn [Z.of_nat]; rewrite Z.add_0_r; reflexivity).
    rewrite E0. change (mk_shape Edge (e + 1) None None [pv v q 1; pv v q 2] []) with (pe v e q 1). change (mk_shape Edge (e + 2) None None [pv v q 2; pv v q 3] []) with (pe v e q 2).
    change (mk_shape Edge (e + 3) None None [pv v q 0; pv v q 3] []) with (pe v e q 3). change [pe v e q 0; pe v e q 1; pe v e q 2; pe v e q 3] with (map (pe v e q) (seq 0 4)).
    rewrite plane_wire by auto. cbn [bind fst]. unfold new_face.
    rewrite (boundary_id argsort argsort_ok (new_shape Face f None) [pw v e q]); [|constructor; [unfold admissible; vm_compute; auto|constructor]|repeat constructor].
    cbn [bind s_kind s_tag s_phys s_point s_embedded new_shape set_physical s_boundary]. 
    rewrite (append_ok _ [pv v q 0; pv v q 1; pv v q 2; pv v q 3] 0); [|repeat constructor|simpl; lia]. cbn [bind set_at nth].
    rewrite (append_ok _ [pe v e q 0; pe v e q 1; pe v e q 2; pe v e q 3; pw v e q] 1); [|repeat constructor|simpl; lia]. cbn [bind set_at nth].
    rewrite (append_ok _ [_] 2); [|repeat constructor|simpl; lia]. cbn [bind set_at nth]. reflexivity.
  Qed.

  (** The shapes of all planes *)
  Fixpoint all {A} (f : Z -> Z -> Z -> Z -> plane -> list A) (v e t p : Z) (qs : list plane) : list A :=
    match qs with [] => [] | q :: qs => f v e t p q ++ all f (v + 4) (e + 5) (t + 1) (p + 1) qs end.
  Definition aV := all (fun v _ _ _ q => map (pv v q) (seq 0 4)).
  Definition aE := all (fun v e _ _ q => map (pe v e q) (seq 0 4) ++ [pw v e q]).
  Definition aF := all (fun v e f p q => [pf v e f p q]).
  Definition aW := all (fun v e _ _ q => [(pw v e q, po)]).
  Lemma fold_planes fuel qs : 1 <= fuel -> forall k V E F ws v e f p,
    foldM (plane_step pclose argsort fuel) (combine qs (map (fun i => (Z.of_nat i + p)%Z) (seq k (length qs)))) ([V; E; F; []], ws, (v, e, f)) =
    Ok ([V ++ aV v e f (Z.of_nat k + p) qs; E ++ aE v e f (Z.of_nat k + p) qs; F ++ aF v e f (Z.of_nat k + p) qs; []], ws ++ aW v e f (Z.of_nat k + p) qs,
        (v + 4 * Z.of_nat (length qs), e + 5 * Z.of_nat (length qs), f + Z.of_nat (length qs))%Z).
  Proof.
    intros L. induction qs as [|q qs IH]; intros k V E F ws v e f p.
    - unfold aV, aE, aF, aW. cbn [all length seq map combine foldM]. rewrite !app_nil_r. repeat f_equal; cbn; lia.
    - cbn [length seq map combine foldM]. rewrite plane_lemma by auto. cbn [bind]. rewrite IH. unfold aV, aE, aF, aW. cbn [all]. rewrite <- !app_assoc.
      replace (Z.of_nat k + p + 1)%Z with (Z.of_nat (S k) + p)%Z by lia. f_equal. f_equal. f_equal; [f_equal|]; lia.
  Qed.
  Lemma planes_gen fuel qs f e v p : 1 <= fuel -> build_disjoint_planes pclose argsort fuel qs f e v p = Ok ([aV v e f p qs; aE v e f p qs; aF v e f p qs; []], aW v e f p qs).
  Proof. intros L. unfold build_disjoint_planes. change (empty_domain 3) with [@nil shape; []; []; []]. rewrite fold_planes by auto. reflexivity. Qed.

  Lemma consecutive_app z a b : consecutive z (a + b) = consecutive z a ++ consecutive (z + Z.of_nat a) b.
  Proof.
    unfold consecutive. rewrite seq_app, map_app. f_equal.
    assert (K : forall n, map (fun k => (z + Z.of_nat k)%Z) (seq (n + a) b) = map (fun k => (z + Z.of_nat a + Z.of_nat k)%Z) (seq n b)).
    { induction b as [|b IH]; intros n; auto. cbn [seq map]. f_equal; [lia|]. exact (IH (S n)). }
    exact (K 0).
  Qed.
  Lemma all_at {A} (g : Z -> Z -> Z -> Z -> plane -> list A) n : (forall v e f p q, length (g v e f p q) = n) -> forall qs k q v e f p i, nth_error qs k = Some q -> i < n ->
    nth_error (all g v e f p qs) (n * k + i) = nth_error (g (v + 4 * Z.of_nat k) (e + 5 * Z.of_nat k) (f + Z.of_nat k) (p + Z.of_nat k) q)%Z i.
  Proof.
    intros Lg. induction qs as [|q' qs IH]; intros k q v e f p i Hk Hi; [destruct k; discriminate|]. cbn [all]. destruct k as [|k].
    - injection Hk as <-. rewrite nth_error_app1 by (rewrite Lg; lia). rewrite Nat.mul_0_r. cbn [Nat.add Z.of_nat]. rewrite !Z.mul_0_r, !Z.add_0_r. reflexivity.
    - cbn in Hk. rewrite nth_error_app2 by (rewrite Lg; lia). rewrite Lg. replace (n * S k + i - n) with (n * k + i) by lia. rewrite (IH k q) by auto.
      replace (v + 4 + 4 * Z.of_nat k)%Z with (v + 4 * Z.of_nat (S k))%Z by lia. replace (e + 5 + 5 * Z.of_nat k)%Z with (e + 5 * Z.of_nat (S k))%Z by lia.
      replace (f + 1 + Z.of_nat k)%Z with (f + Z.of_nat (S k))%Z by lia. replace (p + 1 + Z.of_nat k)%Z with (p + Z.of_nat (S k))%Z by lia. reflexivity.
  Qed.
  Lemma all_map {A B} (h : A -> B) g v e f p qs : map h (all g v e f p qs) = all (fun v e f p q => map h (g v e f p q)) v e f p qs.
  Proof. revert v e f p. induction qs as [|q qs IH]; intros; cbn [all map]; auto. rewrite map_app, IH. reflexivity. Qed.
  Lemma all_length {A} (g : Z -> Z -> Z -> Z -> plane -> list A) n : (forall v e f p q, length (g v e f p q) = n) -> forall qs v e f p, length (all g v e f p qs) = n * length qs.
  Proof. intros Lg. induction qs as [|q qs IH]; intros; cbn [all length]; [lia|]. rewrite app_length, IH, Lg. lia. Qed.
  Lemma all_forall {A} (Q : A -> Prop) g qs : (forall v e f p q, Forall Q (g v e f p q)) -> forall v e f p, Forall Q (all g v e f p qs).
  Proof. intros H. induction qs as [|q qs IH]; intros; cbn [all]; [constructor|]. apply Forall_app. auto. Qed.

  Theorem planes_theorem fuel qs f e v p : 1 <= fuel -> let m := length qs in
    exists V E F ws, build_disjoint_planes pclose argsort fuel qs f e v p = Ok ([V; E; F; []], ws) /\
      (Forall is_vertex V /\ map s_tag V = consecutive v (4 * m) /\ map s_point V = map Some (flat_map corners qs) /\ Forall (fun x => s_phys x = None) V) /\
      (map s_tag E = consecutive e (5 * m) /\ Forall (fun x => s_phys x = None) E) /\
      (map s_tag F = consecutive f m /\ map s_phys F = map Some (consecutive p m)) /\
      length ws = m /\
      forall k, k < m -> exists w o face, nth_error ws k = Some (w, o) /\ nth_error E (5 * k + 4) = Some w /\ frame V E k w o /\
        nth_error F k = Some face /\ s_kind face = Face /\ s_boundary face = [w] /\ immersed face = [].
  Proof.
    intros L m. exists (aV v e f p qs), (aE v e f p qs), (aF v e f p qs), (aW v e f p qs). split; [apply planes_gen; auto|].
    split; [split; [|split; [|split]]|split; [split|split; [split|split]]].
    - apply all_forall. intros. repeat constructor; discriminate.
    - unfold aV. rewrite all_map. unfold m. clear m L. revert v e f p. induction qs as [|q l IH]; intros; auto. cbn [all length]. rewrite IH. replace (4 * S (length l)) with (4 + 4 * length l) by lia. rewrite consecutive_app. reflexivity.
    - unfold aV. rewrite all_map. clear m L. revert v e f p. induction qs as [|q l IH]; intros; auto. cbn [all flat_map]. rewrite IH, map_app. destruct q as [[[? ?] ?] ?]. reflexivity.
    - apply all_forall. intros. repeat constructor.
    - unfold aE. rewrite all_map. unfold m. clear m L. revert v e f p. induction qs as [|q l IH]; intros; auto. cbn [all length]. rewrite IH. replace (5 * S (length l)) with (5 + 5 * length l) by lia. rewrite consecutive_app. reflexivity.
    - apply all_forall. intros. repeat constructor.
    - unfold aF. rewrite all_map. unfold m. clear m L. revert v e f p. induction qs as [|q l IH]; intros; auto. cbn [all length]. rewrite IH. replace (S (length l)) with (1 + length l) by lia. rewrite consecutive_app. unfold consecutive at 2. cbn. rewrite Z.add_0_r. reflexivity.
    - unfold aF. rewrite all_map. unfold m. clear m L. revert v e f p. induction qs as [|q l IH]; intros; auto. cbn [all length]. rewrite IH. replace (S (length l)) with (1 + length l) by lia. rewrite consecutive_app, map_app. unfold consecutive at 2. cbn. rewrite Z.add_0_r. reflexivity.
    - unfold aW. rewrite (all_length _ 1) by reflexivity. unfold m. lia.
    - intros k Hk. destruct (nth_error qs k) as [q|] eqn:Ek; [|apply nth_error_None in Ek; unfold m in Hk; lia].
      assert (NV : forall i, i < 4 -> nth_error (aV v e f p qs) (4 * k + i) = Some (pv (v + 4 * Z.of_nat k) q i)).
      { intros i Hi. unfold aV. rewrite (all_at (fun v _ _ _ q => map (pv v q) (seq 0 4)) 4 (fun _ _ _ _ _ => eq_refl) qs k q) by auto. do 4 (destruct i as [|i]; [reflexivity|]). lia. }
      assert (NE : forall i, i < 4 -> nth_error (aE v e f p qs) (5 * k + i) = Some (pe (v + 4 * Z.of_nat k) (e + 5 * Z.of_nat k) q i)).
      { intros i Hi. unfold aE. rewrite (all_at (fun v e _ _ q => map (pe v e q) (seq 0 4) ++ [pw v e q]) 5 (fun _ _ _ _ _ => eq_refl) qs k q) by (auto; lia). do 4 (destruct i as [|i]; [reflexivity|]). lia. }
      exists (pw (v + 4 * Z.of_nat k) (e + 5 * Z.of_nat k) q), po, (pf (v + 4 * Z.of_nat k) (e + 5 * Z.of_nat k) (f + Z.of_nat k) (p + Z.of_nat k) q).
      split; [|split; [|split; [|split; [|auto]]]].
      + unfold aW. replace k with (1 * k + 0) at 1 by lia. rewrite (all_at (fun v e _ _ q => [(pw v e q, po)]) 1 (fun _ _ _ _ _ => eq_refl) qs k q) by auto. reflexivity.
      + unfold aE. rewrite (all_at (fun v e _ _ q => map (pe v e q) (seq 0 4) ++ [pw v e q]) 5 (fun _ _ _ _ _ => eq_refl) qs k q) by (auto; lia). reflexivity.
      + split; [reflexivity|]. split; [reflexivity|]. split; [reflexivity|]. split.
        * exists (pv (v + 4 * Z.of_nat k) q 0). split; [replace (4 * k) with (4 * k + 0) by lia; apply NV; lia|]. split; reflexivity.
        * intros i Hi. exists (nth i po 0%Z), (pe (v + 4 * Z.of_nat k) (e + 5 * Z.of_nat k) q i), (pv (v + 4 * Z.of_nat k) q i), (pv (v + 4 * Z.of_nat k) q (S i mod 4)). 
          rewrite (NE i Hi), (NV i Hi), (NV (S i mod 4)) by (apply Nat.mod_upper_bound; lia).
          repeat split; try (do 4 (destruct i as [|i]; [reflexivity|]); lia).
          do 4 (destruct i as [|i]; [first [left; split; reflexivity|right; split; reflexivity]|]). lia.
      + unfold aF. replace k with (1 * k + 0) at 1 by lia. rewrite (all_at (fun v e f p q => [pf v e f p q]) 1 (fun _ _ _ _ _ => eq_refl) qs k q) by auto. reflexivity.
  Qed.

  (** ** Boxes *)
  Variable intersect_faces : list shape -> Z -> Z -> Z -> Z -> res (list shape * list shape).
  Lemma planes_never fuel points qs solid bc : exists e, build_box_3D_with_planes pclose argsort intersect_faces fuel points qs solid bc = Err e.
  Proof.
    unfold build_box_3D_with_planes. change (global _ intersect_faces) with (Err (A := list shape -> Z -> Z -> Z -> Z -> res (list shape * list shape)) NameError).
    repeat match goal with |- exists e, bind ?x _ = Err e => destruct x; cbn [bind]; [|eexists; reflexivity] | |- context [let '(_, _) := ?x in _] => destruct x end.
    eexists. reflexivity.
  Qed.
  Lemma planes_name fuel points qs solid bc : 8 <= length points -> 6 <= fuel -> solid <> None \/ (exists i, i < 6 /\ bc i <> None) ->
    build_box_3D_with_planes pclose argsort intersect_faces fuel points qs solid bc = Err NameError.
  Proof.
    intros Lp Lf T. destruct points as [|p0 [|p1 [|p2 [|p3 [|p4 [|p5 [|p6 [|p7 rest]]]]]]]]; cbn in Lp; try lia. clear Lp.
    destruct (box_3D_gen pclose argsort argsort_ok p0 p1 p2 p3 p4 p5 p6 p7 rest solid bc fuel refl Lf) as (os & g & E & _). unfold points in E. cbn [app] in E.
    unfold build_box_3D_with_planes. rewrite E. cbn [bind]. change (global _ intersect_faces) with (Err (A := list shape -> Z -> Z -> Z -> Z -> res (list shape * list shape)) NameError).
    set (V := vertices _ _ _ _ _ _ _ _ _). set (Ed := edges _ _ _ _ _ _ _ _ ++ wires _ _ _ _ _ _ _ _). set (F := faces _ _ _ _ _ _ _ _ _ ++ _). set (b := body _ _ _ _ _ _ _ _ _ _).
    cbn [get_at nth_error bind].
    assert (Q : forall D : domain P, (forall s, In s (F ++ [b]) -> exists s', In s' (concat D) /\ s_phys s' = s_phys s) -> exists m, max_physical_tag D = Ok m).
    { intros D H. pose proof (max_physical_lemma D) as M. destruct (max_physical_tag D) as [m|err]; [eauto|]. destruct M as (_ & M). exfalso.
      assert (K : forall s, In s (F ++ [b]) -> s_phys s = None). { intros s I. destruct (H s I) as (s' & I' & <-). apply M. apply in_domain_concat. auto. }
      destruct T as [T|(i & Hi & T)].
      - apply T. apply (K b). apply in_or_app. right. left. auto.
      - apply T. apply (K (Box3Proof.F p0 p1 p2 p3 p4 p5 p6 p7 bc i)). apply in_or_app. left. apply in_or_app. left. apply in_map. apply in_seq. lia. }
    destruct (Q [V; Ed; F; [b]]) as (m1 & ->). { intros s I. exists s. split; auto. cbn [concat]. rewrite app_nil_r. apply in_or_app. right. apply in_or_app. right. apply I. }
    cbn [bind]. rewrite planes_gen by lia. cbn [bind get_at nth_error].
    set (v := Z.of_nat _). set (e := Z.of_nat (length Ed)). set (f := Z.of_nat (length F)).
    assert (DV : Forall (fun s => s_dim s = 0) (aV v e f (m1 + 1) qs)) by (apply all_forall; intros; repeat constructor).
    assert (DE : Forall (fun s => s_dim s = 1) (aE v e f (m1 + 1) qs)) by (apply all_forall; intros; repeat constructor).
    assert (DF : Forall (fun s => s_dim s = 2) (aF v e f (m1 + 1) qs)) by (apply all_forall; intros; repeat constructor).
    unfold set_immersed. change (immersed b) with (@nil shape). cbn [app].
    assert (Fb : forallb (fun c => memb (s_dim c) (admissible_dimensions (s_kind b))) (aF v e f (m1 + 1) qs) = true).
    { apply forallb_forall. intros s I. rewrite Forall_forall in DF. rewrite (DF s I). reflexivity. }
    rewrite Fb. cbn [bind set_at].
    set (b' := mk_shape _ _ _ _ _ _).
    rewrite (append_ok _ _ 0 DV) by (cbn; lia). cbn [bind set_at nth]. rewrite (append_ok _ _ 1 DE) by (cbn; lia). cbn [bind set_at nth]. rewrite (append_ok _ _ 2 DF) by (cbn; lia). cbn [bind set_at nth get_at nth_error].
    match goal with |- context [max_physical_tag ?D] => destruct (Q D) as (m2 & ->) end.
    { intros s I. apply in_app_or in I as [I|[<-|[]]].
      - exists s. split; auto. cbn [concat]. apply in_or_app. right. apply in_or_app. right. apply in_or_app. left. apply in_or_app. auto.
      - exists b'. split; auto. cbn [concat]. apply in_or_app. right. apply in_or_app. right. apply in_or_app. right. left. auto. }
    reflexivity.
  Qed.
  Lemma planes_untagged fuel points qs : 8 <= length points -> 6 <= fuel ->
    build_box_3D_with_planes pclose argsort intersect_faces fuel points qs None (fun _ => None) = Err ValueError.
  Proof.
    intros Lp Lf. destruct points as [|p0 [|p1 [|p2 [|p3 [|p4 [|p5 [|p6 [|p7 rest]]]]]]]]; cbn in Lp; try lia. clear Lp.
    destruct (box_3D_gen pclose argsort argsort_ok p0 p1 p2 p3 p4 p5 p6 p7 rest None (fun _ => None) fuel refl Lf) as (os & g & E & _). unfold points in E. cbn [app] in E.
    unfold build_box_3D_with_planes. rewrite E. cbn [bind get_at nth_error].
    match goal with |- context [max_physical_tag ?D] => pose proof (max_physical_lemma D) as M; destruct (max_physical_tag D) as [m|err] end.
    - exfalso. destruct M as ((s & I & Q) & _). apply in_domain_concat in I. cbn [concat] in I. rewrite !in_app_iff in I.
      destruct I as [I|[[I|I]|[[I|I]|[I|[]]]]].
      + unfold vertices in I. apply in_app_or in I as [I|I]; [|unfold more in I]; apply in_map_iff in I as (? & <- & _); discriminate.
      + cbn in I. repeat (destruct I as [<-|I]; [discriminate|]). destruct I.
      + cbn in I. repeat (destruct I as [<-|I]; [discriminate|]). destruct I.
      + apply in_map_iff in I as (? & <- & _). discriminate.
      + destruct I as [<-|[]]. discriminate.
      + destruct I as [<-|[]]. discriminate.
    - destruct M as (-> & _). reflexivity.
  Qed.
End PlanesProof.
