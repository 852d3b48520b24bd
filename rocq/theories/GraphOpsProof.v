(** * Lemmas: graph surgery, C35 *)
From Coq Require Import List Arith ZArith Bool Lia.
From Verif Require Import Base BaseProof GraphOpsModel GraphOpsSpec.
Import ListNotations.

Section Proof.
  Context {V : Type} {D : EqDec V}.
  Implicit Type g : digraph V.

  Lemma add_new_In {A} `{EqDec A} (l : list A) x y : In y (add_new l x) <-> In y l \/ y = x.
  Proof.
    unfold add_new. destruct (memb x l) eqn:E.
    - apply memb_In in E. split; [auto|]. intros [|]; subst; auto.
    - rewrite in_app_iff. simpl. intuition.
  Qed.
  Lemma add_new_NoDup {A} `{EqDec A} (l : list A) x : NoDup l -> NoDup (add_new l x).
  Proof.
    unfold add_new. intros. destruct (memb x l) eqn:E; auto.
    apply NoDup_app_single; auto. apply memb_notIn; auto.
  Qed.
  Lemma add_edges_spec l : forall g, wf_graph g ->
    wf_graph (add_edges_from g l) /\
    (forall e, In e (g_edges (add_edges_from g l)) <-> In e (g_edges g) \/ In e l) /\
    (forall x, In x (g_nodes (add_edges_from g l)) <-> In x (g_nodes g) \/ exists e, In e l /\ (x = fst e \/ x = snd e)).
  Proof.
    induction l as [|e l IH]; intros g W.
    - split; [exact W|]. split; simpl; intros; [tauto|]. split; auto. intros [|(e & [] & _)]; auto.
    - assert (W1 : wf_graph (add_edge g e)).
      { destruct W as (W1 & W2 & W3). split; [|split]; simpl.
        - apply add_new_NoDup, add_new_NoDup; auto.
        - apply add_new_NoDup; auto.
        - intros e' He. apply add_new_In in He. rewrite !add_new_In. destruct He as [He|He]; [|subst; auto].
          destruct (W3 _ He). auto. }
      destruct (IH _ W1) as (A & B & C). split; [exact A|]. split.
      + intros e'. unfold add_edges_from in *. simpl. rewrite B. simpl. rewrite add_new_In. intuition.
      + intros x. unfold add_edges_from in *. simpl. rewrite C. simpl. rewrite !add_new_In. split.
        * intros [[[|]|]|(e' & He & Hx)]; auto; right; [exists e|exists e|exists e']; auto.
        * intros [|(e' & [He|He] & Hx)]; auto; [subst e'; tauto|]. right. exists e'. auto.
  Qed.

  Lemma replace_node_lemma g old new : wf_graph g ->
    (~ In old (g_nodes g) -> replace_node_in_graph (old, new) g = Ok g) /\
    (In old (g_nodes g) -> exists g', replace_node_in_graph (old, new) g = Ok g' /\ wf_graph g' /\
       ~ In old (g_nodes g') /\
       (forall x, x <> old -> (In x (g_nodes g') <-> In x (g_nodes g) \/ (x = new /\ exists p, In (p, old) (g_edges g)))) /\
       (forall u v, u <> old -> v <> old ->
          (In (u, v) (g_edges g') <-> In (u, v) (g_edges g) \/ (v = new /\ In (u, old) (g_edges g))))).
  Proof.
    intros W. unfold replace_node_in_graph. split; intros H.
    - apply memb_notIn in H. rewrite H. reflexivity.
    - pose proof H as Hin. apply memb_In in H. rewrite H. simpl negb. cbn [bind].
      unfold predecessors. rewrite H. cbn [bind].
      set (ps := map fst _).
      assert (Hps : forall p, In p ps <-> In (p, old) (g_edges g)).
      { intros p. unfold ps. rewrite in_map_iff. split.
        - intros ((a & b) & Ha & Hb). apply filter_In in Hb as [Hb Hc]. rewrite eqb_true in Hc. simpl in Ha, Hc. rewrite Ha, Hc in Hb. exact Hb.
        - intros Hp. exists (p, old). split; auto. apply filter_In. split; auto. apply eqb_refl. }
      set (g1 := remove_edges_from g _).
      assert (W1 : wf_graph g1).
      { destruct W as (W1 & W2 & W3). split; [|split]; simpl; auto.
        - apply NoDup_filter; auto.
        - intros e He. apply filter_In in He as [He _]. auto. }
      assert (E1 : forall e, In e (g_edges g1) <-> In e (g_edges g) /\ snd e <> old).
      { intros (a & b). unfold g1. simpl. rewrite filter_In, negb_true_iff. rewrite memb_notIn, in_map_iff. simpl. split.
        - intros [A B]. split; auto. intros ->. apply B. exists a. split; auto. apply Hps. auto.
        - intros [A B]. split; auto. intros (p & Hp & _). congruence. }
      destruct (add_edges_spec (map (fun p => (p, new)) ps) g1 W1) as (W2 & E2 & N2).
      set (g2 := add_edges_from _ _) in *.
      assert (Hold : In old (g_nodes g2)) by (apply N2; left; exact Hin).
      unfold remove_node. apply memb_In in Hold. rewrite Hold. eexists. split; [reflexivity|].
      destruct W2 as (A & B & C). split; [split; [|split]|split; [|split]]; simpl.
      + apply NoDup_filter; auto.
      + apply NoDup_filter; auto.
      + intros e He. apply filter_In in He as [He Hq]. apply andb_prop in Hq as [Q1 Q2].
        destruct (C _ He). rewrite !filter_In. auto.
      + rewrite filter_In. rewrite eqb_refl. intros [_ ?]. discriminate.
      + intros x Hx. rewrite filter_In, negb_true_iff, eqb_false, N2. split.
        * intros [[Q|(e & He & Hxe)] _]; [left; exact Q|]. apply in_map_iff in He as (p & <- & Hp).
          apply Hps in Hp. simpl in Hxe. destruct Hxe; subst x; [|right; eauto].
          destruct W as (_ & _ & W3). left. exact (proj1 (W3 _ Hp)).
        * intros [Q|[-> [p Hp]]]; (split; [|auto]); [left; exact Q|]. right. exists (p, new). split; auto. apply in_map_iff.
          exists p. split; auto. apply Hps. auto.
      + intros u v Hu Hv. rewrite filter_In. simpl. rewrite E2, E1. simpl. split.
        * intros [[[Q _]|Q] _]; auto. apply in_map_iff in Q as (p & Q & Hp). inversion Q; subst. right. split; auto. apply Hps; auto.
        * intros Q. split; [destruct Q as [Q|[-> Q]]|].
          -- left. auto.
          -- right. apply in_map_iff. exists u. split; auto. apply Hps; auto.
          -- apply andb_true_intro. split; apply negb_true_iff, eqb_false; auto.
  Qed.

  (** *** many replacements *)
  Lemma replace_nodes_lemma pairs : forall g, wf_graph g -> NoDup (map fst pairs) ->
    (forall x, In x (map fst pairs) -> ~ In x (map snd pairs)) ->
    exists g', replace_nodes_in_graph pairs g = Ok g' /\ wf_graph g' /\
      (forall x, In x (map fst pairs) -> ~ In x (g_nodes g')) /\
      (forall u v, In (u, v) (g_edges g') <->
         ~ In u (map fst pairs) /\ exists w, In (u, w) (g_edges g) /\
           ((~ In w (map fst pairs) /\ v = w) \/ In (w, v) pairs)).
  Proof.
    induction pairs as [|(o, n) pairs IH]; intros g W ND Disj.
    - exists g. split; [reflexivity|]. split; auto. split; [intros x []|]. intros u v. simpl. split.
      + intros. split; auto. exists v. auto.
      + intros (_ & w & Hw & [[_ ->]|[]]); auto.
    - simpl in ND. apply NoDup_cons_iff in ND as [No ND].
      assert (on : o <> n) by (intros ->; apply (Disj n); simpl; auto).
      assert (Hn : ~ In n (map fst pairs)) by (intros Q; apply (Disj n); simpl; auto).
      assert (S : exists g1, replace_node_in_graph (o, n) g = Ok g1 /\ wf_graph g1 /\ ~ In o (g_nodes g1) /\
        forall u v, In (u, v) (g_edges g1) <-> u <> o /\ v <> o /\ (In (u, v) (g_edges g) \/ (v = n /\ In (u, o) (g_edges g)))).
      { destruct (replace_node_lemma g o n W) as [A B]. destruct (in_dec eq_dec o (g_nodes g)) as [Ho|Ho].
        - destruct (B Ho) as (g1 & E1 & W1 & N1 & _ & X). exists g1. split; [auto|split; [auto|split; [auto|]]].
          intros u v. split.
          + intros Q. destruct W1 as (_ & _ & W1). destruct (W1 _ Q) as [Q1 Q2]. simpl in *.
            assert (u <> o) by congruence. assert (v <> o) by congruence. repeat (split; auto). apply X; auto.
          + intros (? & ? & Q). apply X; auto.
        - exists g. split; [auto|split; [auto|split; [auto|]]]. intros u v.
          destruct W as (_ & _ & W3). split.
          + intros Q. destruct (W3 _ Q) as [Q1 Q2]. simpl in *. repeat split; auto; congruence.
          + intros (? & ? & [Q|[-> Q]]); auto. destruct (W3 _ Q). simpl in *. contradiction. }
      destruct S as (g1 & E1 & W1 & No1 & X1).
      destruct (IH g1 W1 ND) as (g' & E' & W' & N' & X').
      { intros x Hx Q. apply (Disj x); simpl; auto. }
      exists g'. split; [unfold replace_nodes_in_graph in *; cbn [foldM]; rewrite E1; cbn [bind]; exact E'|]. split; auto.
      assert (Keep : forall x, ~ In x (g_nodes g1) -> ~ In x (map snd pairs) -> ~ In x (g_nodes g')).
      { clear - E' W1. unfold replace_nodes_in_graph in E'. revert g1 E' W1.
        induction pairs as [|(a, b) pairs IH]; intros g1 E' W1 x Hx Hs.
        - simpl in E'. inversion E'. subst. auto.
        - cbn [foldM] in E'. apply bind_Ok in E' as (g2 & E2 & E').
          destruct (replace_node_lemma g1 a b W1) as [A B].
          destruct (in_dec eq_dec a (g_nodes g1)) as [Ha|Ha].
          + destruct (B Ha) as (g2' & E2' & W2 & N2 & Q & _). assert (g2' = g2) by congruence. subst g2'.
            apply (IH g2 E' W2); [|simpl in Hs; tauto]. destruct (eq_dec x a) as [->|Hxa]; auto.
            rewrite (Q x Hxa). simpl in Hs. intros [|[]]; auto. 
          + rewrite (A Ha) in E2. inversion E2. subst g2. apply (IH g1 E' W1); auto. simpl in Hs; tauto. }
      split.
      + intros x [<-|Hx]; [|apply N'; auto]. apply Keep; auto. intros Q. apply (Disj o); simpl; auto.
      + intros u v. rewrite X'. simpl. split.
        * intros (Hu & w & Hw & Q). apply X1 in Hw as (Hu1 & Hw1 & Hw).
          split; [intros [|]; auto|]. destruct Hw as [Hw|[-> Hw]].
          -- exists w. split; auto. destruct Q as [[Q1 Q2]|Q]; auto. left. split; auto. intros [|]; auto.
          -- exists o. split; auto. right. left. destruct Q as [[Q1 ->]|Q]; auto.
             exfalso. apply Hn. change n with (fst (n, v)). apply in_map. auto.
        * intros (Hu & w & Hw & Q). split; [tauto|]. destruct Q as [[Q1 ->]|[Q|Q]].
          -- exists w. split; [apply X1; repeat split; auto|left; auto]; tauto.
          -- inversion Q; subst w v. exists n. split; [apply X1; repeat split; auto|]; tauto.
          -- assert (w <> o). { intros ->. apply No. change o with (fst (o, v)). apply in_map; auto. }
             exists w. split; auto. apply X1. repeat split; auto; try tauto.
  Qed.

  Lemma replace_same_lemma g x : wf_graph g -> In x (g_nodes g) ->
    exists g', replace_node_in_graph (x, x) g = Ok g' /\ ~ In x (g_nodes g').
  Proof. intros W H. destruct (replace_node_lemma g x x W) as [_ B]. destruct (B H) as (g' & E & _ & N & _). eauto. Qed.
End Proof.

(** The graphs the library builds are well formed. *)
Lemma from_edgelist_wf {V} `{EqDec V} (l : list (V * V)) : wf_graph (from_edgelist l).
Proof.
  split; [apply NoDup_uniq|]. split; [apply NoDup_uniq|]. intros e He.
  rewrite In_edges_from_edgelist in He. split; apply In_nodes_from_edgelist; exists e; auto.
Qed.

Lemma replace_by_itself_lemma : exists (g : digraph nat) (x p : nat) (g' : digraph nat),
  wf_graph g /\ In (p, x) (g_edges g) /\ p <> x /\ replace_node_in_graph (x, x) g = Ok g' /\ ~ In (p, x) (g_edges g').
Proof.
  exists (from_edgelist [(1, 2)]), 2, 1. eexists. split; [apply from_edgelist_wf|]. split; [left; reflexivity|].
  split; [discriminate|]. split; [reflexivity|]. intros [].
Qed.
