(** * Forward differentiation of linear forms; loops *)
From Coq Require Import String List Arith Bool Lia Ring Field.
From Verif Require Import Base BaseProof FormModel FormSpec FormProof FormProof2 AdModel AdSpec.
Import ListNotations.
Open Scope list_scope.

Lemma foldM_app_res {A B} (f : A -> B -> res A) l l' a : foldM f (l ++ l') a = do b <- foldM f l a; foldM f l' b.
Proof. revert a. induction l; intros; simpl; [reflexivity|]. destruct (f a0 a); simpl; [apply IHl|reflexivity]. Qed.
Lemma foldM_ext {A B} (f g : A -> B -> res A) l a : (forall a b, f a b = g a b) -> foldM f l a = foldM g l a.
Proof. intros H. revert a. induction l; intros; simpl; [reflexivity|]. rewrite H. destruct (g a0 a); simpl; [apply IHl|reflexivity]. Qed.

Section Lin.
  Context {F : scalar} (HF : is_ring F).
  Let HR : ring_theory (@k0 F) k1 kadd kmul ksub kopp eq := HF.
  Add Ring KringA : HR.
  Local Open Scope num_scope.

  (** [D] is a linear function [L] of the state, with its derivatives *)
  Definition lin (n : nat) (alpha : nat -> F) (D : dual F) (L : (nat -> F) -> F) : Prop :=
    du_v D = L alpha /\ (forall b, b < n -> du_d D b = L (unit_at b)) /\
    (forall x, L x = ksum n (fun b => L (unit_at b) * x b)).

  Lemma lin_zero : forall n alpha, lin n alpha dzero (fun _ => k0).
  Proof. intros. split; [reflexivity|]. split; [reflexivity|]. intros. symmetry. apply (ksum_zero HF). intros; ring. Qed.
  Lemma lin_var : forall n alpha b, b < n -> lin n alpha (dvar alpha b) (fun x => x b).
  Proof.
    intros n alpha b Hb. split; [reflexivity|]. split; [reflexivity|]. intros x. rewrite (ksum_single HF n b); [|exact Hb|].
    - unfold unit_at. rewrite Nat.eqb_refl. ring.
    - intros j Hj Hn. unfold unit_at. replace (b =? j) with false by (symmetry; apply Nat.eqb_neq; congruence). ring.
  Qed.
  Lemma lin_add : forall n alpha D E L M, lin n alpha D L -> lin n alpha E M -> lin n alpha (dadd D E) (fun x => L x + M x).
  Proof.
    intros n alpha D E L M (A & B & C) (A' & B' & C'). split; [simpl; congruence|]. split.
    - intros b Hb. simpl. rewrite B, B' by assumption. reflexivity.
    - intros x. rewrite C, C', <- (ksum_add HF). apply ksum_ext. intros. ring.
  Qed.
  Lemma lin_sub : forall n alpha D E L M, lin n alpha D L -> lin n alpha E M -> lin n alpha (dsub D E) (fun x => L x - M x).
  Proof.
    intros n alpha D E L M (A & B & C) (A' & B' & C'). split; [simpl; congruence|]. split.
    - intros b Hb. simpl. rewrite B, B' by assumption. reflexivity.
    - intros x. rewrite C, C', <- (ksum_sub HF). apply ksum_ext. intros. ring.
  Qed.
  Lemma lin_scale : forall n alpha c D L, lin n alpha D L -> lin n alpha (dscale c D) (fun x => c * L x).
  Proof.
    intros n alpha c D L (A & B & C). split; [simpl; congruence|]. split.
    - intros b Hb. simpl. rewrite B by assumption. reflexivity.
    - intros x. rewrite C, <- (ksum_mul_l HF). apply ksum_ext. intros. ring.
  Qed.
  Lemma lin_sum : forall n alpha m (f : nat -> dual F) (L : nat -> (nat -> F) -> F),
    (forall i, i < m -> lin n alpha (f i) (L i)) -> lin n alpha (dsum m f) (fun x => ksum m (fun i => L i x)).
  Proof.
    intros n alpha m f L. induction m; intros H; [apply lin_zero|]. simpl.
    apply lin_add; [apply IHm; intros; apply H; lia|apply H; lia].
  Qed.
  Lemma lin_eq : forall n alpha D L M, lin n alpha D L -> (forall x, L x = M x) -> lin n alpha D M.
  Proof.
    intros n alpha D L M (A & B & C) H. split; [congruence|]. split.
    - intros. rewrite B, H by assumption. reflexivity.
    - intros x. rewrite <- H, C. apply ksum_ext. intros. rewrite H. reflexivity.
  Qed.

  Lemma dsum_v : forall n (f : nat -> dual F), du_v (dsum n f) = ksum n (fun i => du_v (f i)).
  Proof. induction n; intros; simpl; [reflexivity|]. rewrite IHn. reflexivity. Qed.
  Lemma dsum_d : forall n (f : nat -> dual F) b, du_d (dsum n f) b = ksum n (fun i => du_d (f i) b).
  Proof. induction n; intros; simpl; [reflexivity|]. rewrite IHn. reflexivity. Qed.

  (** a constant plus a linear part *)
  Definition affine (n : nat) (alpha : nat -> F) (D : dual F) (c : F) (L : (nat -> F) -> F) : Prop :=
    exists E, lin n alpha E L /\ du_v D = c + du_v E /\ forall b, b < n -> du_d D b = du_d E b.

  Lemma affine_system : forall n (r : nat -> dual F) c B (alpha : nat -> F) l,
    (forall a, a < n -> affine n alpha (r a) (c a) (B a)) ->
    (forall a, a < n -> c a = l (unit_at a)) ->
    forall form, (forall a x, a < n -> form x (unit_at a) = B a x) ->
    system_of n form l alpha (of_duals n r).
  Proof.
    intros n r c B alpha l H Hc form Hf. split; [reflexivity|]. split.
    - intros a Ha. simpl. destruct (H a Ha) as (E & (E1 & E2 & E3) & V & D). rewrite V, E1, Hc, Hf by assumption. reflexivity.
    - intros a b Ha Hb. simpl. destruct (H a Ha) as (E & (E1 & E2 & E3) & V & D). rewrite D, E2, Hf by assumption. reflexivity.
  Qed.

  (** ** Loops *)

  (** the loop over the points *)
  Lemma point_loop : forall (ok : bool) n (step : nat -> nat -> dual F) r,
    (ok || (n =? 0) = true ->
     exists r', foldM (fun r i => if ok then Ok (fun a => dadd (r a) (step i a)) else Err ValueError) (seq 0 n) r = Ok r' /\
       forall a, du_v (r' a) = du_v (r a) + ksum n (fun i => du_v (step i a)) /\
                 forall b, du_d (r' a) b = du_d (r a) b + ksum n (fun i => du_d (step i a) b)) /\
    (ok || (n =? 0) = false ->
     foldM (fun r i => if ok then Ok (fun a => dadd (r a) (step i a)) else Err ValueError) (seq 0 n) r = Err ValueError).
  Proof.
    intros ok n step r. split.
    - intros Hok. destruct n as [|n0].
      + exists r. split; [reflexivity|]. intros a. split; [simpl; ring|intros; simpl; ring].
      + rewrite orb_false_r in Hok. subst ok. generalize (S n0) as n. clear n0. intros n.
        induction n.
        * exists r. split; [reflexivity|]. intros a. split; [simpl; ring|intros; simpl; ring].
        * destruct IHn as (r1 & H1 & H2). rewrite seq_S, foldM_app_res, H1. simpl. eexists. split; [reflexivity|].
          intros a. destruct (H2 a) as [V D]. split; simpl; [rewrite V; ring|]. intros b. rewrite D. ring.
    - intros H. apply orb_false_iff in H as [-> H]. destruct n; [discriminate|]. reflexivity.
  Qed.

  Lemma in_slice_shift : forall b c N m a, in_slice (c + b) (c + b + N) m (b + a)%nat = in_slice c (c + N) m a.
  Proof.
    intros. unfold in_slice. replace (b + a - (c + b))%nat with (a - c)%nat by lia.
    replace (c + b <=? b + a) with (c <=? a) by (destruct (Nat.leb_spec c a); symmetry; [apply Nat.leb_le|apply Nat.leb_gt]; lia).
    replace (b + a <? c + b + N) with (a <? c + N) by (destruct (Nat.ltb_spec a (c + N)); symmetry; [apply Nat.ltb_lt|apply Nat.ltb_ge]; lia).
    reflexivity.
  Qed.
  Lemma in_slice_below : forall b c N m a, a < b -> in_slice (c + b) (c + b + N) m a = None.
  Proof. intros. unfold in_slice. replace (c + b <=? a) with false by (symmetry; apply Nat.leb_gt; lia). reflexivity. Qed.

  (** the loop over the components of a source term *)
  Lemma source_loop : forall (neg : bool) (base n m : nat) (f : list (nat -> F)) (v : (nat -> F) -> nat -> F),
    (m <= length f ->
     exists r, foldM (fun r c => do fc <- get_at f c;
         Ok ((if neg then dsub_slice else dadd_slice) (c + base)%nat (c + base + n * m)%nat m (fun k => dconst (v fc k)) r)) (seq 0 m) (fun _ => dzero) = Ok r /\
       (forall a, a < base -> du_v (r a) = k0) /\
       (forall k c, k < n -> c < m ->
          du_v (r (base + (k * m + c))%nat) = (if neg then - v (nth c f (fun _ => k0)) k else v (nth c f (fun _ => k0)) k)) /\
       (forall a b, du_d (r a) b = k0)) /\
    (length f < m ->
     foldM (fun r c => do fc <- get_at f c;
         Ok ((if neg then dsub_slice else dadd_slice) (c + base)%nat (c + base + n * m)%nat m (fun k => dconst (v fc k)) r)) (seq 0 m) (fun _ => dzero) = Err IndexError).
  Proof.
    intros neg base n m f v.
    assert (G : forall j, j <= m -> j <= length f -> exists r, foldM (fun r c => do fc <- get_at f c;
         Ok ((if neg then dsub_slice else dadd_slice) (c + base)%nat (c + base + n * m)%nat m (fun k => dconst (v fc k)) r)) (seq 0 j) (fun _ => dzero) = Ok r /\
       (forall a, a < base -> du_v (r a) = k0) /\
       (forall k c, k < n -> c < m ->
          du_v (r (base + (k * m + c))%nat) = if c <? j then (if neg then - v (nth c f (fun _ => k0)) k else v (nth c f (fun _ => k0)) k) else k0) /\
       (forall a b, du_d (r a) b = k0)).
    { induction j; intros Hj Hl.
      - exists (fun _ => dzero). split; [reflexivity|]. split; [reflexivity|]. split; [|reflexivity].
        intros k c Hk Hc. reflexivity.
      - destruct IHj as (r & R1 & R2 & R3 & R4); [lia|lia|]. rewrite seq_S, foldM_app_res, R1. simpl.
        unfold get_at. destruct (nth_error f j) as [fj|] eqn:E; [|apply nth_error_None in E; lia]. simpl.
        eexists. split; [reflexivity|]. split; [|split].
        + intros a Ha. destruct neg; unfold dsub_slice, dadd_slice; rewrite in_slice_below by exact Ha; apply R2; exact Ha.
        + intros k c Hk Hc. assert (Hc' : j < m) by lia.
          assert (NJ : nth j f (fun _ => k0) = fj) by (apply nth_error_nth; exact E).
          destruct neg; unfold dsub_slice, dadd_slice; rewrite in_slice_shift, (in_slice_grid n m j k c Hk Hc' Hc);
            (destruct (Nat.eqb_spec c j) as [->|N];
             [simpl; rewrite R3 by assumption; rewrite Nat.ltb_irrefl; replace (j <? S j) with true by (symmetry; apply Nat.ltb_lt; lia); rewrite NJ; ring
             |rewrite R3 by assumption; replace (c <? S j) with (c <? j) by (destruct (Nat.ltb_spec c j); symmetry; [apply Nat.ltb_lt|apply Nat.ltb_ge]; lia); reflexivity]).
        + intros a b. destruct neg; unfold dsub_slice, dadd_slice; destruct (in_slice _ _ _ a); simpl; rewrite ?R4; try ring; reflexivity. }
    split.
    - intros Hl. destruct (G m (le_n m) Hl) as (r & R1 & R2 & R3 & R4). exists r. split; [exact R1|]. split; [exact R2|]. split; [|exact R4].
      intros k c Hk Hc. rewrite R3 by assumption. replace (c <? m) with true by (symmetry; apply Nat.ltb_lt; lia). reflexivity.
    - intros Hl. destruct (G (length f)) as (r & R1 & _); [lia|lia|].
      match goal with |- foldM ?g _ _ = _ => set (h := g) in * end.
      replace (seq 0 m) with (seq 0 (length f + S (m - length f - 1))) by (f_equal; lia).
      rewrite seq_app, foldM_app_res, R1. simpl. unfold h at 1. unfold get_at.
      replace (nth_error f (length f)) with (@None (nat -> F)) by (symmetry; apply nth_error_None; lia). reflexivity.
  Qed.
End Lin.
