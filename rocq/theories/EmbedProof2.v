(** * Proofs about embed_vertex_in_edge: the chain of sub-edges *)
From Coq Require Import List Arith ZArith Bool Reals Lra Lia Permutation Sorted.
From Verif Require Import Base BaseProof VecBase VecProof GeoModel GeoSpec GeoProof VertexModel ShapeSpec VertexSpec EmbedModel EmbedSpec EmbedProof.
Import ListNotations.
Local Open Scope nat_scope.

(** ** Selecting by a permutation *)
Lemma take_perm {A} (l : list A) perm : Permutation perm (seq 0 (length l)) -> exists r, mapM (get_at l) perm = Ok r /\ Permutation r l /\
  (forall d, r = map (fun i => nth i l d) perm).
Proof.
  intros P. assert (B : forall i, In i perm -> i < length l) by (intros i Hi; apply (Permutation_in _ P), in_seq in Hi; lia).
  destruct l as [|d l].
  - apply Permutation_sym, Permutation_nil in P as ->. exists []. repeat split; auto.
  - exists (map (fun i => nth i (d :: l) d) perm). repeat split.
    + apply mapM_Ok_map. intros i Hi. unfold get_at. rewrite (nth_error_nth' _ d) by auto. reflexivity.
    + transitivity (map (fun i => nth i (d :: l) d) (seq 0 (length (d :: l)))); [apply Permutation_map; auto|].
      match goal with |- Permutation ?x ?y => replace x with y; auto end. apply nth_ext with (d := d) (d' := nth 0 (d :: l) d); [rewrite map_length, seq_length; auto|].
      intros n Hn. rewrite (map_nth (fun i => nth i (d :: l) d)), seq_nth; auto.
    + intros d'. apply map_ext_in. intros i Hi. apply nth_indep. auto.
Qed.
Lemma sorted_by {A} (key : A -> R) (l : list A) perm r : StronglySorted Rle (map (fun i => nth i (map key l) 0%R) perm) ->
  Permutation perm (seq 0 (length l)) -> mapM (get_at l) perm = Ok r -> StronglySorted (fun x y => (key x <= key y)%R) r.
Proof.
  intros S P M. destruct (take_perm l perm P) as (r' & M' & _ & E). rewrite M in M'. injection M' as <-.
  destruct l as [|d l]; [apply Permutation_sym, Permutation_nil in P as ->; simpl in M; injection M as <-; constructor|].
  assert (B : forall i, In i perm -> i < length (d :: l)) by (intros i Hi; apply (Permutation_in _ P), in_seq in Hi; lia).
  rewrite (E d). assert (S2 : StronglySorted Rle (map key (map (fun i => nth i (d :: l) d) perm))).
  { rewrite map_map. erewrite map_ext_in; [exact S|]. intros i Hi. cbv beta. rewrite (nth_indep (map key (d :: l)) 0%R (key d)) by (rewrite map_length; auto). rewrite map_nth. auto. }
  clear - S2. induction (map (fun i => nth i (d :: l) d) perm) as [|x q IH]; [constructor|]. inversion S2 as [|? ? S' F]; subst. constructor; auto.
  rewrite Forall_forall in F |- *. intros y Hy. apply F. apply in_map. auto.
Qed.
Lemma sorted_frame {A} (key : A -> R) a b m l : Permutation l (a :: b :: m) -> StronglySorted (fun x y => (key x <= key y)%R) l ->
  (forall u, In u m -> (key a < key u < key b)%R) -> (key a < key b)%R ->
  exists m', l = a :: m' ++ [b] /\ Permutation m' m /\ StronglySorted (fun x y => (key x <= key y)%R) m'.
Proof.
  intros P S K L. destruct l as [|x l]; [apply Permutation_nil in P; discriminate|]. inversion S as [|? ? S' F]; subst. rewrite Forall_forall in F.
  assert (x = a) as ->.
  { assert (Ha : In a (x :: l)) by (apply (Permutation_in _ (Permutation_sym P)); left; auto). destruct Ha as [|Ha]; auto. apply F in Ha.
    assert (Hx : In x (a :: b :: m)) by (apply (Permutation_in _ P); left; auto). destruct Hx as [|[<-|Hx]]; auto; [lra|]. apply K in Hx. lra. }
  apply Permutation_cons_inv in P. destruct (exists_last (l := l)) as (m' & y & ->); [intros ->; apply Permutation_nil in P; discriminate|].
  assert (Sm : StronglySorted (fun x y => (key x <= key y)%R) m' /\ forall u, In u m' -> (key u <= key y)%R).
  { clear - S'. induction m' as [|z m' IH]; [split; [constructor|intros ? []]|]. inversion S' as [|? ? S1 F1]; subst. rewrite Forall_forall in F1. destruct (IH S1) as (I1 & I2). split.
    - constructor; auto. apply Forall_forall. intros u Hu. apply F1. apply in_or_app. auto.
    - intros u [<-|Hu]; auto. apply F1. apply in_or_app. right. left. auto. }
  destruct Sm as (Sm & Mx). assert (y = b) as ->.
  { assert (Hb : In b (m' ++ [y])) by (apply (Permutation_in _ (Permutation_sym P)); left; auto). apply in_app_or in Hb as [Hb|[|[]]]; auto. apply Mx in Hb.
    assert (Hy : In y (b :: m)) by (apply (Permutation_in _ P); apply in_or_app; right; left; auto). destruct Hy as [|Hy]; auto. apply K in Hy. lra. }
  exists m'. repeat split; auto. apply (Permutation_cons_inv (a := b)). etransitivity; [|exact P]. apply Permutation_cons_append.
Qed.

Section Run.
  Variable argsort_R : list R -> list nat.
  Variable argsort : list Z -> list nat.
  Hypothesis AR : is_argsort_R argsort_R.
  Hypothesis AZ : is_argsort argsort.

  Lemma sub_edge_spec h tag x y : x < length h -> y < length h -> exists ends, sub_edge argsort h tag x y = Ok (tag, ends) /\ Permutation ends [x; y] /\ StronglySorted Z.le (map (tg h) ends).
  Proof.
    intros Lx Ly. unfold sub_edge. rewrite !vtag_live by auto. cbn [bind]. destruct (AZ [tg h x; tg h y]) as (P & S). cbn [length] in P.
    destruct (take_perm [x; y] _ P) as (r & M & Pr & E). rewrite M. cbn [bind]. exists r. repeat split; auto.
    rewrite (E 0), map_map. match goal with S : StronglySorted _ ?u |- StronglySorted _ ?v => replace v with u; auto end.
    apply map_ext_in. intros i Hi. apply (Permutation_in _ P) in Hi. destruct Hi as [<-|[<-|[]]]; reflexivity.
  Qed.
  Lemma joins h shift l : (forall x, In x l -> x < length h) -> 0 < length l ->
    exists es, mapM (fun i => do x <- get_at l i; do y <- get_at l (i + 1); sub_edge argsort h (Z.of_nat i + shift) x y) (seq 0 (length l - 1)) = Ok es /\ joined h shift l es.
  Proof.
    intros L N.
    assert (G : forall n s, s + n = length l - 1 -> exists es, mapM (fun i => do x <- get_at l i; do y <- get_at l (i + 1); sub_edge argsort h (Z.of_nat i + shift) x y) (seq s n) = Ok es /\
      length es = n /\ forall k x y, nth_error l (s + k) = Some x -> nth_error l (S (s + k)) = Some y -> exists ends,
        nth_error es k = Some ((Z.of_nat (s + k) + shift)%Z, ends) /\ Permutation ends [x; y] /\ StronglySorted Z.le (map (tg h) ends)).
    { induction n as [|n IH]; intros s Hs; cbn [seq mapM].
      - exists []. repeat split; auto. intros k x y _ H. apply (f_equal (fun o => match o with Some _ => true | None => false end)) in H. exfalso.
        assert (S (s + k) < length l) by (apply nth_error_Some; destruct (nth_error l (S (s + k))); discriminate). lia.
      - destruct (nth_error l s) as [x|] eqn:Ex; [|apply nth_error_None in Ex; lia]. destruct (nth_error l (s + 1)) as [y|] eqn:Ey; [|apply nth_error_None in Ey; lia].
        destruct (sub_edge_spec h (Z.of_nat s + shift) x y) as (ends & E & Pe & Se); [apply L; eapply nth_error_In; eauto|apply L; eapply nth_error_In; eauto|].
        destruct (IH (S s)) as (es & M & Le & J); [lia|]. unfold get_at at 1 2. rewrite Ex. cbn [bind]. rewrite Ey. cbn [bind]. rewrite E. cbn [bind]. rewrite M. cbn [bind].
        exists ((Z.of_nat s + shift, ends)%Z :: es). repeat split; [simpl; lia|]. intros [|k] x' y' Hx Hy.
        + rewrite Nat.add_0_r in *. rewrite Ex in Hx. replace (S s) with (s + 1) in Hy by lia. rewrite Ey in Hy. injection Hx as <-. injection Hy as <-. exists ends. auto.
        + replace (s + S k) with (S s + k) in * by lia. destruct (J k x' y' Hx Hy) as (en & H). exists en. auto. }
    destruct (G (length l - 1) 0) as (es & M & Le & J); [lia|]. exists es. split; auto. split; [lia|]. exact J.
  Qed.

  (** What a call does, for any vertices: *)
  Lemma run h vs e shift a b : live h (a :: b :: vs) -> h_ends e = [a; b] -> exists us a' b' on es,
    first_of_each h vs us /\ (forall u, In u us -> In u vs) /\
    foldM (bc_step h) (combine (seq 0 (length us)) us) ([a; b], []) = Ok ([a'; b'], on) /\ a' < length h /\ b' < length h /\
    let h2 := shifted h a' b' in
    let ra := norm (pt h2 a') in let rb := norm (pt h2 b') in
    let kept := filter (accepts h2 (pt h a') ra rb on) (combine (seq 0 (length us)) us) in
    embed_vertex_in_edge argsort_R argsort h vs e shift = Ok (h, mk_host [a'; b'] (h_immersed e ++ es), map snd kept) /\
    (kept = [] -> es = []) /\
    (kept <> [] -> exists l, mapM (get_at (a' :: b' :: map snd kept)) (argsort_R (ra :: rb :: map (fun iv => norm (vsub (pt h2 (snd iv)) (pt h a'))) kept)) = Ok l /\
       joined h shift l es).
  Proof.
    intros L He. assert (Lv : forall u, In u vs -> u < length h) by (intros; apply L; right; right; auto).
    set (pts := map (pt h) vs). set (q := fold_left (fun l p => insert_point (snd p) (fst p) l) (combine (seq 0 (length pts)) pts) []).
    destruct (firsts_all pts) as (Sq & Fq). fold q in Sq, Fq.
    set (us := map (fun p => nth (snd p) vs 0) q).
    assert (Q : forall p i, In (p, i) q -> exists u, nth_error vs i = Some u /\ nth i vs 0 = u /\ pt h u = p).
    { intros p i H. apply Fq in H as (H & _). unfold pts in H. rewrite nth_error_map in H. destruct (nth_error vs i) as [u|] eqn:E; [|discriminate]. injection H as H. exists u. repeat split; auto. apply nth_error_nth. auto. }
    assert (U : mapM (get_at vs) (unique_points_idx pts) = Ok us).
    { unfold unique_points_idx. fold q. unfold us. clear - Q. induction q as [|[p i] q IH]; auto. cbn [map snd mapM]. destruct (Q p i) as (u & E1 & E2 & _); [left; auto|].
      unfold get_at at 1. rewrite E1. cbn [bind]. rewrite IH by (intros; apply Q; right; auto). rewrite E2. reflexivity. }
    assert (Fu : first_of_each h vs us).
    { split.
      - replace (map (pt h) us) with (map fst q); auto. unfold us. rewrite map_map. apply map_ext_in. intros [p i] H. destruct (Q p i H) as (u & _ & E2 & E3). cbn [fst snd]. rewrite E2. auto.
      - intros u. split.
        + intros H. apply in_map_iff in H as ([p i] & Hu & H). destruct (Q p i H) as (u' & E1 & E2 & E3). cbn [snd] in Hu. rewrite E2 in Hu. subst u'. exists i. split; auto.
          intros j w Hj Hw. apply Fq in H as (_ & H). apply H. unfold pts. rewrite nth_error_map, Hj. simpl. congruence.
        + intros (i & Hi & M). apply in_map_iff. exists (pt h u, i). split; [simpl; apply nth_error_nth; auto|]. apply Fq. split; [unfold pts; rewrite nth_error_map, Hi; auto|].
          intros j Hj. unfold pts in Hj. rewrite nth_error_map in Hj. destruct (nth_error vs j) as [w|] eqn:Ew; [|discriminate]. injection Hj as Hj. eapply M; eauto. }
    assert (Sub : forall u, In u us -> In u vs). { intros u H. apply Fu in H as (i & H & _). eapply nth_error_In; eauto. }
    assert (Ln : forall iv, In iv (combine (seq 0 (length us)) us) -> snd iv < length h). { intros [i u] H. apply in_combine_r in H. apply Lv, Sub, H. }
    destruct (bc_total h (combine (seq 0 (length us)) us) a b []) as (a' & b' & on & B & La & Lb); [apply L; left; auto|apply L; right; left; auto|auto|].
    set (h2 := shifted h a' b'). set (ra := norm (pt h2 a')). set (rb := norm (pt h2 b')). set (kept := filter (accepts h2 (pt h a') ra rb on) (combine (seq 0 (length us)) us)).
    assert (Lh2 : length h2 = length h) by (unfold h2, shifted; rewrite !length_moved; auto).
    assert (Main : exists es, embed_vertex_in_edge argsort_R argsort h vs e shift = Ok (h, mk_host [a'; b'] (h_immersed e ++ es), map snd kept) /\ (kept = [] -> es = []) /\
      (kept <> [] -> exists l, mapM (get_at (a' :: b' :: map snd kept)) (argsort_R (ra :: rb :: map (fun iv => norm (vsub (pt h2 (snd iv)) (pt h a'))) kept)) = Ok l /\ joined h shift l es)).
    { unfold embed_vertex_in_edge. rewrite (mapM_Ok_map _ (pt h)) by (intros; apply vpoint_live; auto). cbn [bind]. fold pts. rewrite U. cbn [bind]. rewrite He, B. cbn [bind get_at nth_error].
      rewrite vpoint_live by auto. cbn [bind]. rewrite move_live by auto. cbn [bind]. rewrite move_live by (rewrite length_moved; auto). cbn [bind]. fold (shifted h a' b'). fold h2.
      rewrite !vpoint_live by (rewrite Lh2; auto). cbn [bind]. fold ra rb. rewrite norm_loop by (intros; rewrite Lh2; auto). cbn [bind app]. fold kept.
      rewrite move_live by (rewrite Lh2; auto). cbn [bind]. rewrite move_live by (rewrite length_moved, Lh2; auto). cbn [bind].
      rewrite (moved_back2 h a' b' (pt h a') La Lb : moved (moved h2 a' _) b' _ = h). unfold kept at 1. rewrite get_numbered. fold kept. cbn [bind].
      destruct (Nat.ltb_spec 2 (length (ra :: rb :: map (fun iv => norm (vsub (pt h2 (snd iv)) (pt h a'))) kept))) as [H|H]; cbn [length] in H; rewrite map_length in H.
      - destruct (AR (ra :: rb :: map (fun iv => norm (vsub (pt h2 (snd iv)) (pt h a'))) kept)) as (P & S).
        destruct (take_perm (a' :: b' :: map snd kept) (argsort_R (ra :: rb :: map (fun iv => norm (vsub (pt h2 (snd iv)) (pt h a'))) kept))) as (l & M & Pl & _); [cbn [length] in P |- *; rewrite map_length in *; auto|].
        rewrite M. cbn [bind]. destruct (joins h shift l) as (es & Me & J).
        + intros x Hx. apply (Permutation_in _ Pl) in Hx as [<-|[<-|Hx]]; auto. apply in_map_iff in Hx as (iv & <- & Hx). apply filter_In in Hx as (Hx & _). auto.
        + rewrite (Permutation_length Pl). simpl. lia.
        + rewrite Me. cbn [bind]. exists es. repeat split; auto; [|intros _; exists l; auto]. intros ->. simpl in H. lia.
      - cbn [bind]. exists []. rewrite app_nil_r. repeat split; auto. intros N. destruct kept; [congruence|simpl in H; lia]. }
    destruct Main as (es & M1 & M2 & M3). exists us, a', b', on, es. repeat split; auto; apply Fu.
  Qed.

  (** the call succeeds and moves nothing *)
  Lemma embed_total h vs e shift a b : live h (a :: b :: vs) -> h_ends e = [a; b] -> exists e' out, embed_vertex_in_edge argsort_R argsort h vs e shift = Ok (h, e', out) /\
    live h (h_ends e') /\ length (h_ends e') = 2 /\ incl out vs.
  Proof.
    intros L He. destruct (run h vs e shift a b L He) as (us & a' & b' & on & es & _ & Sub & _ & La & Lb & E & _). eexists _, _. split; [exact E|]. cbn [h_ends]. repeat split.
    - intros x [<-|[<-|[]]]; auto.
    - intros x Hx. apply in_map_iff in Hx as ([i u] & <- & Hx). apply filter_In in Hx as (Hx & _). apply in_combine_r in Hx. auto.
  Qed.
End Run.
