(** * Export of solutions: files *)
From Coq Require Import String List Arith Bool ZArith Lia Ring Field.
From Verif Require Import Base BaseProof MeshModel MeshSpec GraphModel GraphProof CutModel FormModel FormSpec FormProof FormProof2 DualModel
  PostModel PostSpec PostProof ExportModel ExportSpec ExportProof ExportProof2 ExportProof3 ExportProof4.
Import ListNotations.
Open Scope list_scope.
Open Scope nat_scope.

Lemma ends_one : forall s : string, NoDup [s].
Proof. intros s. constructor; [intros []|constructor]. Qed.
Lemma apart_one : forall (s e e' a b : string), In e [s] -> In e' [s] -> String.append a e = String.append b e' -> e = e'.
Proof. intros s e e' a b [<-|[]] [<-|[]] _. reflexivity. Qed.
Lemma ends_two : NoDup ["_h"%string; "_e"%string].
Proof. constructor; [intros [H|[]]; discriminate|apply ends_one]. Qed.
Lemma apart_two : forall (e e' a b : string), In e ["_h"%string; "_e"%string] -> In e' ["_h"%string; "_e"%string] -> String.append a e = String.append b e' -> e = e'.
Proof.
  intros e e' a b [<-|[<-|[]]] [<-|[<-|[]]] H; try reflexivity; exfalso; [exact (append_h_e _ _ H)|exact (append_h_e _ _ (eq_sym H))].
Qed.

Lemma NoDup_app_l : forall {A} (l l' : list A), NoDup (l ++ l') -> NoDup l.
Proof.
  intros A l l' H. induction l as [|x l IH]; [constructor|]. inversion H as [|? ? N1 N2]; subst. constructor; [|apply IH; exact N2].
  intros K. apply N1. apply in_or_app. left. exact K.
Qed.
Lemma NoDup_app_r : forall {A} (l l' : list A), NoDup (l ++ l') -> NoDup l'.
Proof. intros A l l' H. induction l as [|x l IH]; [exact H|]. inversion H; subst. apply IH. assumption. Qed.

Section TheFiles.
  Context {F : scalar} (HF : is_ring F) {P : Type}.

  (** the cases of a field *)
  Lemma by_case : forall (centred : list string) name (X Y : Prop), (if in_dec string_dec name centred then X else Y) ->
    (memb name centred = true /\ X) \/ (memb name centred = false /\ Y).
  Proof.
    intros centred name X Y H. destruct (in_dec string_dec name centred) as [K|K].
    - left. split; [exact (proj2 (memb_In _ _) K)|exact H].
    - right. split; [exact (proj2 (memb_notIn _ _) K)|exact H].
  Qed.

  Lemma write_ok : forall (m : mesh P) dim (sp : vtk_space F) alpha centred,
    good_points m -> dim <= 3 -> NoDup (dkeys (vs_fields sp)) ->
    (forall name fld, In (name, fld) (vs_fields sp) ->
       if in_dec string_dec name centred then on_cells dim sp alpha fld (tops (m_cells P m) dim)
       else on_nodes m dim sp alpha name fld (tags_of sp name)) ->
    exists file, write_vtk_file m dim sp alpha centred = Ok file /\ nth_error type_names dim = Some (vk_type file) /\
      vk_cells file = map c_nodes (tops (m_cells P m) dim) /\
      holds ["_h"%string] (h_of m dim sp alpha false) (names_of centred false (vs_fields sp)) (vk_point file) /\
      holds ["_h"%string] (h_of m dim sp alpha true) (names_of centred true (vs_fields sp)) (vk_cell file).
  Proof.
    intros m dim sp alpha centred GP D3 ND H.
    set (body := fun (b : bool) (nf : string * vtk_field F) =>
      do d <- (if b then cell_h m dim sp alpha (fst nf) (snd nf) else point_h m dim sp alpha (fst nf) (snd nf)); Ok [d]).
    destruct (store_ok centred ["_h"%string] (h_of m dim sp alpha) (ends_one _) (apart_one _) body (vs_fields sp) ND) as (p & c & E & H1 & H2).
    - intros [name fld] I. cbn [fst snd]. specialize (H name fld I). apply by_case in H as [(E & H)|(E & H)]; rewrite E.
      + eexists. split; [unfold body; cbn [fst snd]; rewrite (cell_h_ok HF m dim sp alpha name fld ND I (proj1 GP) H); reflexivity|split; reflexivity].
      + destruct (point_h_ok HF m dim sp alpha name fld _ ND I GP H) as (d & Ed & Hd).
        exists [d]. split; [unfold body; cbn [fst snd]; rewrite Ed; reflexivity|]. split; [reflexivity|]. exists d. split; [reflexivity|exact Hd].
    - destruct (cell_type_ok dim D3) as (ty & T1 & T2). exists (mk_file ty (map c_nodes (tops (m_cells P m) dim)) p c).
      split; [|split; [exact T2|split; [reflexivity|split; [exact H1|exact H2]]]].
      unfold write_vtk_file. rewrite (foldM_ext_in _ (store centred ["_h"%string] body)).
      + rewrite E. cbn [bind]. rewrite (top_cells_ok m dim (proj1 GP)). cbn [bind]. rewrite T1. reflexivity.
      + intros s x _. unfold store, body. destruct (memb (fst x) centred); [destruct (cell_h m dim sp alpha (fst x) (snd x))|destruct (point_h m dim sp alpha (fst x) (snd x))]; reflexivity.
  Qed.

  Context (centroid : list P -> P).
  Lemma tagged_ok : forall (m : mesh P) (sp : vtk_space F) name tags, closed_mesh (m_cells P m) -> dget (vs_tags sp) name = Some tags ->
    tagged_cells m sp name = Ok (with_tags (m_cells P m) tags).
  Proof.
    intros m sp name tags CL T. destruct (all_cells_closed _ CL) as (l & _ & M). unfold tagged_cells, with_tags. rewrite <- M. clear M.
    assert (X : mapM (fun s : option cell => match s with None => Err AttributeError | Some c => do tags <- dindex (vs_tags sp) name; Ok (c, memb (c_mat c) tags) end) (map Some l)
      = Ok (map (fun c => (c, memb (c_mat c) tags)) l)).
    { unfold dindex. rewrite T. induction l as [|c l IH]; [reflexivity|]. cbn [map mapM bind]. cbn [bind] in IH. rewrite IH. reflexivity. }
    rewrite X. cbn [bind]. f_equal. clear X. induction l as [|c l IH]; [reflexivity|]. cbn [map filter snd flat_map is_cell app].
    destruct (in_dec eq_dec (c_mat c) tags) as [K|K]; [rewrite (proj2 (memb_In _ _) K)|rewrite (proj2 (memb_notIn _ _) K)]; cbn [map fst]; rewrite IH; reflexivity.
  Qed.
  Lemma write_exact_ok : forall (m : mesh P) dim (sp : vtk_space F) functions alpha centred front last fld,
    good_points m -> NoDup (dkeys (vs_fields sp)) -> vs_fields sp = front ++ [(last, fld)] -> dget (vs_tags sp) last <> None ->
    (forall name fld, In (name, fld) (vs_fields sp) -> vf_dim fld <= 3 /\ (exists f, dget functions name = Some f /\ fits dim fld f) /\
       if in_dec string_dec name centred then on_cells dim sp alpha fld (tops (m_cells P m) dim)
       else on_nodes m dim sp alpha name fld (tags_of sp name)) ->
    exists file d, write_vtk_file_with_exact_solution centroid m dim sp functions alpha centred = Ok file /\
      (exists nf, In nf (vs_fields sp) /\ vf_dim (snd nf) = d) /\ (forall nf, In nf (vs_fields sp) -> vf_dim (snd nf) <= d) /\ nth_error type_names d = Some (vk_type file) /\
      vk_cells file = map c_nodes (with_tags (m_cells P m) (tags_of sp last)) /\
      holds ["_h"%string; "_e"%string] (he_of centroid m dim sp functions alpha false) (names_of centred false (vs_fields sp)) (vk_point file) /\
      holds ["_h"%string; "_e"%string] (he_of centroid m dim sp functions alpha true) (names_of centred true (vs_fields sp)) (vk_cell file).
  Proof.
    intros m dim sp functions alpha centred front last lfld GP ND LAST TG H.
    set (body := fun (b : bool) (nf : string * vtk_field F) => do exact <- dindex functions (fst nf);
      do d <- (if b then cell_he centroid m dim sp exact alpha (fst nf) (snd nf) else point_he m dim sp exact alpha (fst nf) (snd nf)); Ok [fst d; snd d]).
    destruct (store_ok centred ["_h"%string; "_e"%string] (he_of centroid m dim sp functions alpha) ends_two apart_two body (vs_fields sp) ND) as (p & c & E & H1 & H2).
    - intros [name fld] I. cbn [fst snd]. specialize (H name fld I). destruct H as (_ & (f & Ef & FT) & H). apply by_case in H as [(E & H)|(E & H)]; rewrite E.
      + eexists. split; [unfold body, dindex; cbn [fst snd]; rewrite Ef; cbn [bind]; rewrite (cell_he_ok HF centroid m dim sp f alpha name fld ND I GP H FT); reflexivity|].
        split; [reflexivity|]. exists f. split; [exact Ef|reflexivity].
      + destruct (point_he_ok HF m dim sp f alpha name fld _ ND I GP H FT) as (h & e & Ed & Hh & He).
        exists [h; e]. split; [unfold body, dindex; cbn [fst snd]; rewrite Ef; cbn [bind]; rewrite Ed; reflexivity|]. split; [reflexivity|].
        exists f. split; [exact Ef|]. exists h, e. split; [reflexivity|split; assumption].
    - assert (MX : exists d, space_dimension sp = Ok d /\ (exists nf, In nf (vs_fields sp) /\ vf_dim (snd nf) = d) /\ (forall nf, In nf (vs_fields sp) -> vf_dim (snd nf) <= d)).
      { unfold space_dimension. destruct (vs_fields sp) as [|nf0 l] eqn:EV; [destruct front; discriminate|]. cbn [map np_max]. eexists. split; [reflexivity|].
        clear. cut (forall l a, (fold_left Nat.max (map (fun nf : string * vtk_field F => vf_dim (snd nf)) l) a = a \/ exists nf, In nf l /\ vf_dim (snd nf) = fold_left Nat.max (map (fun nf => vf_dim (snd nf)) l) a) /\
           a <= fold_left Nat.max (map (fun nf => vf_dim (snd nf)) l) a /\ forall nf, In nf l -> vf_dim (snd nf) <= fold_left Nat.max (map (fun nf => vf_dim (snd nf)) l) a).
        { intros X. destruct (X l (vf_dim (snd nf0))) as (X1 & X2 & X3). split.
          - destruct X1 as [X1|(nf & X1 & X4)]; [exists nf0; split; [left; reflexivity|symmetry; exact X1]|exists nf; split; [right; exact X1|exact X4]].
          - intros nf [<-|Hn]; [exact X2|exact (X3 nf Hn)]. }
        induction l0 as [|nf l0 IH]; intros a; [simpl; split; [left; reflexivity|split; [lia|intros ? []]]|]. cbn [map fold_left].
        destruct (IH (Nat.max a (vf_dim (snd nf)))) as (X1 & X2 & X3). split; [|split].
        - destruct X1 as [X1|(nf' & X1 & X4)]; [|right; exists nf'; split; [right; exact X1|exact X4]].
          destruct (Nat.max_spec a (vf_dim (snd nf))) as [(Z1 & Z2)|(Z1 & Z2)]; [right; exists nf; split; [left; reflexivity|congruence]|left; congruence].
        - lia.
        - intros nf' [<-|Hn]; [lia|exact (X3 nf' Hn)]. }
      destruct MX as (d & MX & MX1 & MX2).
      assert (D3 : d <= 3) by (destruct MX1 as ([nm fl] & MI & <-); exact (proj1 (H nm fl MI))).
      destruct (cell_type_ok d D3) as (ty & T1 & T2). exists (mk_file ty (map c_nodes (with_tags (m_cells P m) (tags_of sp last))) p c), d.
      split; [|split; [exact MX1|split; [exact MX2|split; [exact T2|split; [reflexivity|split; [exact H1|exact H2]]]]]].
      unfold write_vtk_file_with_exact_solution. rewrite (foldM_ext_in _ (store centred ["_h"%string; "_e"%string] body)).
      + rewrite E. cbn [bind]. unfold last_name. rewrite LAST, rev_app_distr. cbn [rev app bind fst].
        destruct (dget (vs_tags sp) last) as [tags|] eqn:TL; [|contradiction]. rewrite (tagged_ok m sp last tags (proj1 GP) TL). cbn [bind]. rewrite MX. cbn [bind]. rewrite T1. cbn [bind].
        unfold tags_of. rewrite TL. reflexivity.
      + intros s x _. unfold store, body. destruct (dindex functions (fst x)) as [f|]; [|destruct (memb (fst x) centred); reflexivity]. cbn [bind].
        destruct (memb (fst x) centred); [destruct (cell_he centroid m dim sp f alpha (fst x) (snd x))|destruct (point_he m dim sp f alpha (fst x) (snd x))]; reflexivity.
  Qed.

  (** *** Several spaces *)
  Lemma foldM_app' : forall {A S} (f : S -> A -> res S) l l' s, foldM f (l ++ l') s = do s' <- foldM f l s; foldM f l' s'.
  Proof. intros A S f l. induction l as [|x l IH]; intros l' s; [reflexivity|]. simpl. destruct (f s x); [apply IH|reflexivity]. Qed.
  Lemma foldM_map' : forall {A B S} (f : S -> B -> res S) (g : A -> B) l s, foldM f (map g l) s = foldM (fun s x => f s (g x)) l s.
  Proof. intros A B S f g l. induction l as [|x l IH]; intros s; [reflexivity|]. simpl. destruct (f s (g x)); [apply IH|reflexivity]. Qed.
  Lemma write_spaces_ok : forall (m : mesh P) dim (sps : list (vtk_space F)) functions alpha centred,
    good_points m -> dim <= 3 -> NoDup (dkeys (all_fields sps)) ->
    (forall sp name fld, In sp sps -> In (name, fld) (vs_fields sp) -> (exists f, dget functions name = Some f /\ fits dim fld f) /\
       if in_dec string_dec name centred then on_cells dim sp alpha fld (with_tags_of sp name (tops (m_cells P m) dim))
       else on_nodes m dim sp alpha name fld (tags_of sp name)) ->
    exists file, write_fe_spaces centroid m dim sps functions alpha centred = Ok file /\ nth_error type_names dim = Some (vk_type file) /\
      vk_cells file = map c_nodes (tops (m_cells P m) dim) /\
      holds ["_h"%string; "_e"%string] (nan_of centroid m dim functions alpha false) (names_of centred false (all_fields sps)) (vk_point file) /\
      holds ["_h"%string; "_e"%string] (nan_of centroid m dim functions alpha true) (names_of centred true (all_fields sps)) (vk_cell file).
  Proof.
    intros m dim sps functions alpha centred GP D3 ND H.
    set (body := fun (b : bool) (nf : string * (vtk_space F * vtk_field F)) => do exact <- dindex functions (fst nf);
      do d <- (if b then cell_nan centroid m (tops (m_cells P m) dim) dim (fst (snd nf)) exact alpha (fst nf) (snd (snd nf))
               else point_nan m dim (fst (snd nf)) exact alpha (fst nf) (snd (snd nf))); Ok [fst d; snd d]).
    assert (NDS : forall sp, In sp sps -> NoDup (dkeys (vs_fields sp))).
    { clear -ND. induction sps as [|sp sps IH]; intros sp0 Hs; [destruct Hs|]. unfold all_fields in ND. cbn [flat_map] in ND. unfold dkeys in ND. rewrite map_app, map_map in ND. cbn [fst] in ND.
      destruct Hs as [<-|Hs].
      - exact (NoDup_app_l _ _ ND).
      - apply IH; [exact (NoDup_app_r _ _ ND)|exact Hs]. }
    destruct (store_ok centred ["_h"%string; "_e"%string] (nan_of centroid m dim functions alpha) ends_two apart_two body (all_fields sps) ND) as (p & c & E & H1 & H2).
    - intros [name [sp fld]] I. cbn [fst snd]. apply in_flat_map in I as (sp' & I1 & I2). apply in_map_iff in I2 as ([name' fld'] & X & I2). cbn [fst snd] in X. injection X as -> -> ->.
      specialize (H sp name fld I1 I2). destruct H as ((f & Ef & FT) & H). apply by_case in H as [(E & H)|(E & H)]; rewrite E.
      + eexists. split; [unfold body, dindex; cbn [fst snd]; rewrite Ef; cbn [bind]; rewrite (cell_nan_ok HF centroid m dim sp f alpha name fld (NDS sp I1) I2 GP H FT); reflexivity|].
        split; [reflexivity|]. exists f. split; [exact Ef|reflexivity].
      + destruct (point_nan_ok HF m dim sp f alpha name fld _ (NDS sp I1) I2 GP H FT) as (h & e & Ed & Hh & He).
        exists [h; e]. split; [unfold body, dindex; cbn [fst snd]; rewrite Ef; cbn [bind]; rewrite Ed; reflexivity|]. split; [reflexivity|].
        exists f. split; [exact Ef|]. exists h, e. split; [reflexivity|split; assumption].
    - destruct (cell_type_ok dim D3) as (ty & T1 & T2). exists (mk_file ty (map c_nodes (tops (m_cells P m) dim)) p c).
      split; [|split; [exact T2|split; [reflexivity|split; [exact H1|exact H2]]]].
      unfold write_fe_spaces. rewrite (top_cells_ok m dim (proj1 GP)). cbn [bind]. rewrite T1. cbn [bind].
      assert (X : forall pc, foldM (fun pc sp => foldM (fun pc nf => do exact <- dindex functions (fst nf);
         if memb (fst nf) centred then do he <- cell_nan centroid m (tops (m_cells P m) dim) dim sp exact alpha (fst nf) (snd nf); Ok (fst pc, set_two (snd pc) (fst nf) he)
         else do he <- point_nan m dim sp exact alpha (fst nf) (snd nf); Ok (set_two (fst pc) (fst nf) he, snd pc)) (vs_fields sp) pc) sps pc =
         foldM (store centred ["_h"%string; "_e"%string] body) (all_fields sps) pc).
      { clear. induction sps as [|sp sps IH]; intros pc; [reflexivity|]. cbn [foldM]. unfold all_fields. cbn [flat_map]. rewrite foldM_app', foldM_map'.
        rewrite (foldM_ext_in _ (fun s x => store centred ["_h"%string; "_e"%string] body s (fst x, (sp, snd x)))).
        - destruct (foldM _ (vs_fields sp) pc); [apply IH|reflexivity].
        - intros s x _. unfold store, body. cbn [fst snd]. destruct (dindex functions (fst x)) as [f|]; [|destruct (memb (fst x) centred); reflexivity]. cbn [bind].
          destruct (memb (fst x) centred);
            [destruct (cell_nan centroid m (tops (m_cells P m) dim) dim sp f alpha (fst x) (snd x))|destruct (point_nan m dim sp f alpha (fst x) (snd x))]; reflexivity. }
      rewrite X, E. reflexivity.
  Qed.

  (** *** The pointwise error *)
  Lemma write_error_gen : forall (ksqrt : F -> F) (m : mesh P) dim (sp : vtk_space F) functions D alpha centred,
    good_points m -> dim <= 3 -> NoDup (dkeys (vs_fields sp)) ->
    (forall name fld, In (name, fld) (vs_fields sp) -> (exists f, dget functions name = Some f /\ forall x v M, is_value dim fld v M -> norm_diff ksqrt (f x) M = Ok (D name fld x v)) /\
       if in_dec string_dec name centred then on_cells dim sp alpha fld (tops (m_cells P m) dim)
       else on_nodes m dim sp alpha name fld (tags_of sp name)) ->
    exists file, write_pointwise_l2_error centroid ksqrt m dim sp functions alpha centred = Ok file /\ nth_error type_names dim = Some (vk_type file) /\
      vk_cells file = map c_nodes (tops (m_cells P m) dim) /\
      holds ["_error"%string] (error_of centroid m dim sp D alpha false) (names_of centred false (vs_fields sp)) (vk_point file) /\
      holds ["_error"%string] (error_of centroid m dim sp D alpha true) (names_of centred true (vs_fields sp)) (vk_cell file).
  Proof.
    intros ksqrt m dim sp functions D alpha centred GP D3 ND H.
    set (body := fun (b : bool) (nf : string * vtk_field F) => do exact <- dindex functions (fst nf);
      do d <- (if b then cell_error centroid ksqrt m dim sp exact alpha (fst nf) (snd nf) else point_error ksqrt m dim sp exact alpha (fst nf) (snd nf)); Ok [d]).
    destruct (store_ok centred ["_error"%string] (error_of centroid m dim sp D alpha) (ends_one _) (apart_one _) body (vs_fields sp) ND) as (p & c & E & H1 & H2).
    - intros [name fld] I. cbn [fst snd]. specialize (H name fld I). destruct H as ((f & Ef & LO) & H). apply by_case in H as [(E & H)|(E & H)]; rewrite E.
      + eexists. split; [unfold body, dindex; cbn [fst snd]; rewrite Ef; cbn [bind]; rewrite (cell_error_ok HF centroid ksqrt m dim sp f (D name fld) alpha name fld ND I GP H LO); reflexivity|split; reflexivity].
      + destruct (point_error_ok HF ksqrt m dim sp f (D name fld) alpha name fld _ ND I GP H LO) as (d & Ed & Hd).
        exists [d]. split; [unfold body, dindex; cbn [fst snd]; rewrite Ef; cbn [bind]; rewrite Ed; reflexivity|]. split; [reflexivity|]. exists d. split; [reflexivity|exact Hd].
    - destruct (cell_type_ok dim D3) as (ty & T1 & T2). exists (mk_file ty (map c_nodes (tops (m_cells P m) dim)) p c).
      split; [|split; [exact T2|split; [reflexivity|split; [exact H1|exact H2]]]].
      unfold write_pointwise_l2_error. rewrite (foldM_ext_in _ (store centred ["_error"%string] body)).
      + rewrite E. cbn [bind]. rewrite (top_cells_ok m dim (proj1 GP)). cbn [bind]. rewrite T1. reflexivity.
      + intros s x _. unfold store, body. destruct (dindex functions (fst x)) as [f|]; [|destruct (memb (fst x) centred); reflexivity]. cbn [bind].
        destruct (memb (fst x) centred); [destruct (cell_error centroid ksqrt m dim sp f alpha (fst x) (snd x))|destruct (point_error ksqrt m dim sp f alpha (fst x) (snd x))]; reflexivity.
  Qed.

  Lemma write_error_ok : forall (ksqrt : F -> F) (m : mesh P) dim (sp : vtk_space F) functions (exacts : string -> P -> nat -> nat -> F) alpha centred,
    good_points m -> dim <= 3 -> NoDup (dkeys (vs_fields sp)) ->
    (forall name fld, In (name, fld) (vs_fields sp) -> (exists f, dget functions name = Some f /\ forall x, laid_out dim fld (f x) (exacts name x)) /\
       if in_dec string_dec name centred then on_cells dim sp alpha fld (tops (m_cells P m) dim)
       else on_nodes m dim sp alpha name fld (tags_of sp name)) ->
    let D name fld x v := ksqrt (distance2 (comp_of fld) (entries dim fld) (exacts name x) v) in
    exists file, write_pointwise_l2_error centroid ksqrt m dim sp functions alpha centred = Ok file /\ nth_error type_names dim = Some (vk_type file) /\
      vk_cells file = map c_nodes (tops (m_cells P m) dim) /\
      holds ["_error"%string] (error_of centroid m dim sp D alpha false) (names_of centred false (vs_fields sp)) (vk_point file) /\
      holds ["_error"%string] (error_of centroid m dim sp D alpha true) (names_of centred true (vs_fields sp)) (vk_cell file).
  Proof.
    intros ksqrt m dim sp functions exacts alpha centred GP D3 ND H. apply write_error_gen; try assumption.
    intros name fld I. destruct (H name fld I) as ((f & Ef & LO) & H'). split; [|exact H']. exists f. split; [exact Ef|]. intros x v M V. exact (norm_diff_ok HF ksqrt dim fld (f x) _ v M (LO x) V).
  Qed.
  (** Lagrange fields with functions that return arrays of one axis *)
  Lemma write_error_pairs : forall (ksqrt : F -> F) (m : mesh P) dim (sp : vtk_space F) functions (exacts : string -> P -> nat -> F) alpha centred,
    good_points m -> dim <= 3 -> NoDup (dkeys (vs_fields sp)) ->
    (forall name fld, In (name, fld) (vs_fields sp) -> lagrange (vf_post fld) = true /\ comp_of fld <> 1 /\
       dget functions name = Some (fun x => Axis1 (comp_of fld) (exacts name x)) /\
       if in_dec string_dec name centred then on_cells dim sp alpha fld (tops (m_cells P m) dim)
       else on_nodes m dim sp alpha name fld (tags_of sp name)) ->
    let D name fld x v := ksqrt (pairs2 (comp_of fld) (comp_of fld) (exacts name x) v) in
    exists file, write_pointwise_l2_error centroid ksqrt m dim sp functions alpha centred = Ok file /\ nth_error type_names dim = Some (vk_type file) /\
      vk_cells file = map c_nodes (tops (m_cells P m) dim) /\
      holds ["_error"%string] (error_of centroid m dim sp D alpha false) (names_of centred false (vs_fields sp)) (vk_point file) /\
      holds ["_error"%string] (error_of centroid m dim sp D alpha true) (names_of centred true (vs_fields sp)) (vk_cell file).
  Proof.
    intros ksqrt m dim sp functions exacts alpha centred GP D3 ND H. apply write_error_gen; try assumption.
    intros name fld I. destruct (H name fld I) as (L & C1 & Ef & H'). split; [|exact H']. eexists. split; [exact Ef|]. intros x v M V. cbv beta.
    exact (norm_diff_pairs HF ksqrt dim fld _ _ v M L V C1 C1).
  Qed.

  (** *** The exact solution on its own *)
  Lemma write_exact_only_ok : forall (m : mesh P) dim (names : dict string nat) (functions : dict string (P -> arr F)),
    closed_mesh (m_cells P m) -> dim <= 3 -> NoDup (dkeys names) ->
    (forall name n, In (name, n) names -> exists f, dget functions name = Some f /\ forall x, In x (m_points P m) -> length (values_of (f x)) = n) ->
    exists file, write_exact_solution m dim names functions = Ok file /\ nth_error type_names dim = Some (vk_type file) /\
      vk_cells file = map c_nodes (tops (m_cells P m) dim) /\ holds ["_e"%string] (e_of m functions) names (vk_point file) /\ vk_cell file = [].
  Proof.
    intros m dim names functions CL D3 ND H.
    set (data := fun nf : string * nat => do exact <- dindex functions (fst nf);
      foldM (fun data ix => assign (snd nf) data (fst ix) (numbers (ravel_arr (exact (snd ix)))))
                (combine (seq 0 (length (m_points P m))) (m_points P m)) (filled (Some k0) (length (m_points P m)) (snd nf))).
    set (body := fun (b : bool) (nf : string * nat) => do d <- data nf; Ok [d]).
    destruct (store_ok [] ["_e"%string] (fun _ => e_of m functions) (ends_one _) (apart_one _) body names ND) as (p & c & E & H1 & H2).
    - intros [name n] I. cbn [fst snd]. destruct (H name n I) as (f & Ef & FT). eexists. split; [|split; [|exists f; split; [exact Ef|reflexivity]]]; [|reflexivity].
      unfold body, data, dindex. cbn [fst snd]. rewrite Ef. cbn [bind]. unfold filled. rewrite <- (map_as_fold (fun x => values_of (f x)) (m_points P m) (repeat (Some k0) n)).
      rewrite (foldM_upd (fun s : rows F => length s = length (m_points P m)) _ (fun s ic => set_at s (fst ic) (values_of (f (snd ic))))); [reflexivity| |apply repeat_length].
      intros s [i x] Hx Hs. cbn [fst snd]. pose proof (in_combine_l _ _ _ _ Hx) as X1. pose proof (in_combine_r _ _ _ _ Hx) as X2. apply in_seq in X1.
      split; [|rewrite set_at_length; exact Hs]. rewrite ravel_arr_values. apply assign_ok; [lia|apply FT; exact X2].
    - destruct (cell_type_ok dim D3) as (ty & T1 & T2). exists (mk_file ty (map c_nodes (tops (m_cells P m) dim)) p []).
      assert (NM : names_of [] false names = names).
      { unfold names_of. clear. induction names as [|x l IH]; [reflexivity|]. cbn [filter]. destruct (in_dec string_dec (fst x) []) as [[]|_]. change (x :: filter (fun nf : string * nat => if in_dec string_dec (fst nf) [] then false else negb false) l = x :: l). rewrite IH. reflexivity. }
      rewrite NM in H1. split; [|split; [exact T2|split; [reflexivity|split; [exact H1|reflexivity]]]].
      unfold write_exact_solution.
      assert (X : forall pd d, foldM (fun pd nf => do exact <- dindex functions (fst nf);
        do d <- foldM (fun data ix => assign (snd nf) data (fst ix) (numbers (ravel_arr (exact (snd ix)))))
                (combine (seq 0 (length (m_points P m))) (m_points P m)) (filled (Some k0) (length (m_points P m)) (snd nf));
        Ok (dset pd (suffix (fst nf) "_e") d)) names pd = do pc <- foldM (store [] ["_e"%string] body) names (pd, d); Ok (fst pc)).
      { clear. induction names as [|nf l IH]; intros pd d; [reflexivity|]. cbn [foldM]. 
        assert (B : body false nf = do d <- data nf; Ok [d]) by reflexivity. unfold store at 1. cbn [memb existsb fst snd]. rewrite B.
        assert (B' : data nf = do exact <- dindex functions (fst nf);
          foldM (fun data ix => assign (snd nf) data (fst ix) (numbers (ravel_arr (exact (snd ix)))))
                (combine (seq 0 (length (m_points P m))) (m_points P m)) (filled (Some k0) (length (m_points P m)) (snd nf))) by reflexivity.
        rewrite B'. clear B B'.
        destruct (dindex functions (fst nf)) as [f|]; [|reflexivity]. cbn [bind].
        destruct (foldM (fun data0 ix => assign (snd nf) data0 (fst ix) (numbers (ravel_arr (f (snd ix))))) (combine (seq 0 (length (m_points P m))) (m_points P m)) (filled (Some k0) (length (m_points P m)) (snd nf))); [|reflexivity].
        cbn [bind]. apply IH. }
      rewrite (X [] []).
      match goal with |- context [foldM ?a ?b ?z] => replace (foldM a b z) with (@Ok (dict string (rows F) * dict string (rows F)) (p, c)) by (symmetry; exact E) end. cbn [bind fst]. rewrite (top_cells_ok m dim CL). cbn [bind]. rewrite T1. reflexivity.
  Qed.
End TheFiles.
