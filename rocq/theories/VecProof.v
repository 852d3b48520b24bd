(** * Lemmas about points of R^3 *)
From Coq Require Import List Reals Lra.
From Verif Require Import VecBase.
Import ListNotations.
Local Open Scope R_scope.

Lemma vec_ext u v : vx u = vx v -> vy u = vy v -> vz u = vz v -> u = v.
Proof. destruct u, v; simpl; congruence. Qed.
Ltac vec := unfold vadd, vsub, vscale, vdiv, dot, cross, vzero in *; simpl in *.
Ltac vring := vec; try (apply vec_ext; simpl); ring.

Lemma dot_sym u v : dot u v = dot v u.
Proof. vring. Qed.
Lemma dot_self_nonneg v : 0 <= dot v v.
Proof. vec. nra. Qed.
Lemma dot_self_zero v : dot v v = 0 -> v = vzero.
Proof. intros H. apply vec_ext; vec; nra. Qed.
Lemma norm_nonneg v : 0 <= norm v.
Proof. apply sqrt_pos. Qed.
Lemma norm_sq v : norm v * norm v = dot v v.
Proof. unfold norm. apply sqrt_sqrt, dot_self_nonneg. Qed.
Lemma norm_zero v : norm v = 0 -> v = vzero.
Proof. intros H. apply dot_self_zero. rewrite <- norm_sq, H. ring. Qed.
Lemma norm_vzero : norm vzero = 0.
Proof. unfold norm. replace (dot vzero vzero) with 0 by vring. apply sqrt_0. Qed.
Lemma norm_pos v : v <> vzero -> 0 < norm v.
Proof. intros H. destruct (norm_nonneg v) as [|E]; auto. exfalso. apply H, norm_zero. auto. Qed.
Lemma norm_scale k v : norm (vscale k v) = Rabs k * norm v.
Proof.
  unfold norm. replace (dot (vscale k v) (vscale k v)) with ((k * k) * dot v v) by vring.
  rewrite sqrt_mult; [|nra|apply dot_self_nonneg]. rewrite <- (sqrt_Rsqr_abs k). reflexivity.
Qed.
Lemma vdiv_scale v k : vdiv v k = vscale (/ k) v.
Proof. unfold Rdiv, vdiv, vscale. apply vec_ext; simpl; unfold Rdiv; ring. Qed.
Lemma norm_unit v : v <> vzero -> norm (vdiv v (norm v)) = 1.
Proof.
  intros H. pose proof (norm_pos v H). rewrite vdiv_scale, norm_scale, Rabs_right; [field; lra|].
  apply Rle_ge, Rlt_le, Rinv_0_lt_compat; auto.
Qed.
Lemma norm_1 v : dot v v = 1 -> norm v = 1.
Proof. intros H. unfold norm. rewrite H. apply sqrt_1. Qed.
Lemma dot_1 v : norm v = 1 -> dot v v = 1.
Proof. intros H. rewrite <- norm_sq, H. ring. Qed.
Lemma dot_scale_l k u v : dot (vscale k u) v = k * dot u v.
Proof. vring. Qed.
Lemma dot_scale_r k u v : dot u (vscale k v) = k * dot u v.
Proof. vring. Qed.
Lemma dot_add_l u v w : dot (vadd u v) w = dot u w + dot v w.
Proof. vring. Qed.
Lemma cross_self u : cross u u = vzero.
Proof. vring. Qed.
Lemma cross_l u v : dot (cross u v) u = 0.
Proof. vring. Qed.
Lemma cross_r u v : dot (cross u v) v = 0.
Proof. vring. Qed.
Lemma lagrange u v : dot (cross u v) (cross u v) = dot u u * dot v v - dot u v * dot u v.
Proof. vring. Qed.
Lemma norm_sub_sym u v : norm (vsub u v) = norm (vsub v u).
Proof. unfold norm. f_equal. vring. Qed.
Lemma norm_le_sq u v : dot u u <= dot v v -> norm u <= norm v.
Proof. intros H. apply sqrt_le_1_alt. auto. Qed.
Lemma norm_lt_sq u v : dot u u < dot v v -> norm u < norm v.
Proof. intros H. apply sqrt_lt_1_alt. split; auto. apply dot_self_nonneg. Qed.
Lemma vsub_zero u v : vsub u v = vzero -> u = v.
Proof. intros H. inversion H. apply vec_ext; lra. Qed.
