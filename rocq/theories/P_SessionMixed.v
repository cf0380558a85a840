(** Estimator objects that are fitted in different ways. *)
From Coq Require Import List Arith Lia Bool ZArith.
From Verif Require Import Prelude Order Graph Size M_Linkage M_Condense M_Labels M_Estimator P_Estimator M_SemiFit M_Session S_Session M_SessionMixed S_SessionMixed.
Import ListNotations.
Local Open Scope nat_scope.

Lemma mparams_app {P Row Graph} (h1 h2 : list (mcall P Row Graph)) p : mparams_after p (h1 ++ h2) = mparams_after (mparams_after p h1) h2.
Proof. revert p. induction h1 as [|[q|X y w] h1 IH]; intro p; cbn; auto. Qed.

Section Session.
  Context {P : Type} {W V : WOrd} {Sz : SOrd} {Row Graph : Type}.
  Variable E : parts P W V Sz Row Graph.
  Notation mobject := (mobject P W V Sz Row Graph).

  (** ** Rows with missing values *)
  Lemma remap_refines zero n fi out (r : fitted W V Sz) :
    (let* T := remap_condensed_tree zero (f_condensed r) fi out in
     let* L := remap_single_linkage_tree (f_linkage r) fi out in
     let* labels := scatter n (-1)%Z fi (f_labels r) in
     let* probabilities := scatter n zero fi (f_probabilities r) in
     Ok {| f_labels := labels; f_probabilities := probabilities; f_linkage := L; f_condensed := T; f_mst := f_mst r |}) =
    match remap_results zero n fi out r with (r, None) => Ok r | (_, Some e) => Err e end.
  Proof.
    unfold remap_results. destruct (remap_condensed_tree _ _ _ _) as [T|e]; cbn [bind f_linkage f_labels f_probabilities f_condensed f_mst]; auto.
    destruct (remap_single_linkage_tree _ _ _) as [L|e]; cbn [bind f_linkage f_labels f_probabilities f_condensed f_mst]; auto.
    destruct (scatter _ (-1)%Z _ _) as [l|e]; cbn [bind f_linkage f_labels f_probabilities f_condensed f_mst]; auto.
    destruct (scatter _ zero _ _) as [q|e]; cbn [bind]; auto.
  Qed.

  Definition finished (o : mobject) (b : bool) (r : fitted W V Sz) : mobject :=
    {| m_params := m_params o; m_raw_data := m_raw_data o; m_raw_labels := m_raw_labels o; m_all_finite := Some b; m_results := Some r |}.

  Lemma rows_refine {Data} (ok : Data -> bool) run (o : mobject) rows :
    match fit (q_zero E) ok (q_set_list E) run rows with
    | Ok r => conclude_rows E ok run o rows = (finished o (forallb ok rows) r, None)
    | Err e => snd (conclude_rows E ok run o rows) = Some e /\ m_params (fst (conclude_rows E ok run o rows)) = m_params o /\
               m_raw_data (fst (conclude_rows E ok run o rows)) = m_raw_data o
    end.
  Proof.
    unfold fit, conclude_rows, conclude. destruct (forallb ok rows).
    - destruct (run rows); auto.
    - destruct (run (take_rows _ _)) as [r|e]; cbn [bind]; auto. rewrite remap_refines.
      destruct (remap_results _ _ _ _ r) as [r' [e|]]; auto.
  Qed.

  Lemma rows_keep {Data} (ok : Data -> bool) run (o : mobject) rows e :
    complete_run (P := unit) (fun _ => run) -> fit (q_zero E) ok (q_set_list E) run rows = Err e -> ~ lone_row ok rows ->
    m_results (fst (conclude_rows E ok run o rows)) = m_results o.
  Proof.
    intros HR HE HL. revert HE. unfold fit, conclude_rows, conclude. destruct (forallb ok rows) eqn:EF.
    - destruct (run rows) as [r|e']; [discriminate|auto].
    - rewrite take_index. destruct (run (filter ok rows)) as [r|e'] eqn:ER; cbn [bind]; [|auto]. rewrite remap_refines.
      destruct (HR tt _ _ ER) as (N & H1 & H2 & H3).
      assert (HI : length (finite_index_of ok rows) = length (filter ok rows)) by apply index_len.
      destruct H3 as [HT HS].
      { destruct (filter ok rows) as [|x [|y l]] eqn:EX; [congruence| |cbn; lia]. exfalso. apply HL. split; auto. now rewrite EX. }
      unfold remap_results, remap_condensed_tree, remap_single_linkage_tree, scatter. cbn [f_labels f_probabilities f_linkage f_condensed].
      destruct (f_condensed r) as [|c T] eqn:EC; [congruence|]. cbn [map].
      destruct (rev (map _ (f_linkage r))) as [|l L] eqn:EL.
      { exfalso. apply HS. apply (f_equal (@length _)) in EL. rewrite rev_length, map_length in EL. now destruct (f_linkage r). }
      cbn [f_labels f_probabilities f_linkage f_condensed]. rewrite HI, H1, H2, Nat.eqb_refl. discriminate.
  Qed.

  Lemma rows_params {Data} (ok : Data -> bool) run (o : mobject) rows :
    m_params (fst (conclude_rows E ok run o rows)) = m_params o /\ m_raw_data (fst (conclude_rows E ok run o rows)) = m_raw_data o.
  Proof. pose proof (rows_refine ok run o rows) as H. destruct (fit _ _ _ _ _); [rewrite H; auto|apply H]. Qed.

  Lemma combine_fst {A B} (xs : list A) (ys : list B) : length ys = length xs -> map fst (combine xs ys) = xs.
  Proof. revert ys. induction xs as [|x xs IH]; intros [|y ys] H; cbn in *; try discriminate; auto. f_equal. apply IH. lia. Qed.
  Lemma forallb_fst {A B} (ok : A -> bool) (xs : list A) (ys : list B) : length ys = length xs -> forallb (fun r => ok (fst r)) (combine xs ys) = forallb ok xs.
  Proof. revert ys. induction xs as [|x xs IH]; intros [|y ys] H; cbn in *; try discriminate; auto. f_equal. apply IH. lia. Qed.
  Lemma filter_fst {A B} (ok : A -> bool) (xs : list A) (ys : list B) : length ys = length xs -> length (filter (fun r => ok (fst r)) (combine xs ys)) = length (filter ok xs).
  Proof. revert ys. induction xs as [|x xs IH]; intros [|y ys] H; cbn in *; try discriminate; auto. destruct (ok x); cbn; rewrite IH; lia. Qed.

  (** ** One call *)
  Lemma mfit_refines (o : mobject) X y w :
    match moutcome E (m_params o) X y w with
    | Ok r => mfit E o X y w =
        ({| m_params := m_params o; m_raw_data := if q_precomputed E (m_params o) then None else Some X;
            m_raw_labels := if q_semi E (m_params o) then option_map (map clean_label) y else m_raw_labels o;
            m_all_finite := Some (match X with Features rows => forallb (q_isfinite E) rows | Distances _ => true end);
            m_results := Some r |}, None)
    | Err e => snd (mfit E o X y w) = Some e
    end.
  Proof.
    unfold moutcome, mfit. destruct (q_precomputed E (m_params o)).
    - unfold mfit_graph. destruct X as [rows|g]; [reflexivity|]. destruct (q_graph_ok E g); cbn [negb]; [|reflexivity]. destruct w; [reflexivity|]. cbn [m_params set_raw_data].
      destruct (q_semi E (m_params o)).
      + destruct y as [y|]; [|reflexivity]. rewrite map_length. destruct (q_labels_ok E y); cbn [andb negb]; [|reflexivity]. destruct (length y =? q_nodes E g); cbn [andb negb]; [|reflexivity].
        destruct (some_label _); cbn [negb]; [|reflexivity]. cbn [m_params set_raw_data set_raw_labels set_all_finite]. unfold conclude. destruct (q_run_graph E _ g _); reflexivity.
      + cbn [m_params set_raw_data set_raw_labels set_all_finite]. unfold conclude. destruct (q_run_graph E _ g _); reflexivity.
    - destruct (q_semi E (m_params o)).
      + unfold mfit_semi. destruct y as [y|]; [|reflexivity]. destruct X as [rows|g].
        * destruct (q_accepted E _); cbn [andb negb orb]; [|reflexivity]. destruct (q_y_ok E y); cbn [andb negb orb]; [|reflexivity].
          destruct (length y =? length rows) eqn:EL; cbn [andb negb orb]; [|reflexivity]. destruct (some_label _); cbn [andb negb]; [|reflexivity].
          replace (w && negb (q_weights_ok E rows)) with (negb (negb w || q_weights_ok E rows)) by (now destruct w, (q_weights_ok E rows)).
          destruct (negb w || q_weights_ok E rows); cbn [negb]; [|reflexivity]. cbn [m_params set_raw_data set_raw_labels].
          apply Nat.eqb_eq in EL.
          pose proof (rows_refine (fun row => q_isfinite E (fst row)) (q_run_semi E (m_params o) w) (set_raw_labels (set_raw_data o (Some (Features rows))) (map clean_label y)) (combine rows (map clean_label y))) as H.
          destruct (fit _ _ _ _ _); [|apply H]. rewrite H. unfold finished. cbn. rewrite forallb_fst by (now rewrite map_length). reflexivity.
        * destruct (q_accepted E _); cbn [andb negb orb]; [|reflexivity]. destruct (q_y_ok E y); cbn [andb negb orb]; [|reflexivity].
          destruct (length y =? q_nodes E g) eqn:EL; cbn [andb negb orb]; [|reflexivity]. destruct (some_label _); reflexivity.
      + unfold mfit_plain. destruct X as [rows|g].
        * destruct (q_accepted E _); cbn [andb negb]; [|reflexivity].
          replace (w && negb (q_weights_ok E rows)) with (negb (negb w || q_weights_ok E rows)) by (now destruct w, (q_weights_ok E rows)).
          destruct (negb w || q_weights_ok E rows); cbn [negb]; [|reflexivity]. cbn [m_params set_raw_data].
          pose proof (rows_refine (q_isfinite E) (q_run E (m_params o) w) (set_raw_data o (Some (Features rows))) rows) as H.
          destruct (fit _ _ _ _ _); [|apply H]. rewrite H. reflexivity.
        * destruct (q_accepted E _); reflexivity.
  Qed.

  Lemma mfit_params (o : mobject) X y w : m_params (fst (mfit E o X y w)) = m_params o.
  Proof.
    unfold mfit. destruct (q_precomputed E (m_params o)); [|destruct (q_semi E (m_params o))].
    - unfold mfit_graph. destruct X as [rows|g]; [reflexivity|]. destruct (negb _); [reflexivity|]. destruct w; [reflexivity|]. destruct (q_semi E _).
      + destruct y; [|reflexivity]. repeat (destruct (negb _); [reflexivity|]). unfold conclude. destruct (q_run_graph _ _ _ _); reflexivity.
      + unfold conclude. destruct (q_run_graph _ _ _ _); reflexivity.
    - unfold mfit_semi. destruct y; [|reflexivity]. destruct (_ || _); [reflexivity|]. destruct (negb _); [reflexivity|]. destruct X as [rows|g]; [|reflexivity].
      destruct (_ && _); [reflexivity|]. rewrite (proj1 (rows_params _ _ _ _)). reflexivity.
    - unfold mfit_plain. destruct (negb _); [reflexivity|]. destruct X as [rows|g]; [|reflexivity]. destruct (_ && _); [reflexivity|]. rewrite (proj1 (rows_params _ _ _ _)). reflexivity.
  Qed.

  Lemma mparams_play h (o : mobject) : m_params (mplay E o h) = mparams_after (m_params o) h.
  Proof. revert o. induction h as [|[q|X y w] h IH]; intro o; [reflexivity| |].
    - exact (IH (mperform E o (MSet q))).
    - rewrite (IH (mperform E o (MFit X y w)) : m_params (mplay E o (MFit X y w :: h)) = _). cbn [mperform mparams_after]. now rewrite mfit_params.
  Qed.

  Lemma mfit_data (o : mobject) X y w :
    (forall d, remembers E (m_params o) X y w d -> m_raw_data (fst (mfit E o X y w)) = d) /\
    ((forall d, ~ remembers E (m_params o) X y w d) -> m_raw_data (fst (mfit E o X y w)) = m_raw_data o).
  Proof.
    unfold remembers, mfit. destruct (q_precomputed E (m_params o)).
    - unfold mfit_graph. split.
      + intros d (-> & -> & g & -> & ->). cbn [negb]. destruct (q_semi E _).
        * destruct y; [|reflexivity]. repeat (destruct (negb _); [reflexivity|]). unfold conclude. destruct (q_run_graph _ _ _ _); reflexivity.
        * unfold conclude. destruct (q_run_graph _ _ _ _); reflexivity.
      + intro H. destruct X as [rows|g]; [reflexivity|]. destruct (q_graph_ok E g) eqn:EG; [|reflexivity]. destruct w; [reflexivity|]. exfalso. apply (H None). eauto.
    - destruct (q_semi E (m_params o)).
      + unfold mfit_semi. split.
        * intros d (-> & -> & HY). destruct (HY eq_refl) as (l & -> & -> & EL). cbn [negb orb]. rewrite <- EL, Nat.eqb_refl. cbn [negb].
          destruct (negb _); [reflexivity|]. destruct X as [rows|g]; [|reflexivity]. destruct (_ && _); [reflexivity|]. rewrite (proj2 (rows_params _ _ _ _)). reflexivity.
        * intro H. destruct y as [l|]; [|reflexivity]. destruct (q_accepted E X) eqn:EA; [|reflexivity]. destruct (q_y_ok E l) eqn:EY; [|reflexivity]. cbn [negb orb].
          destruct (_ =? _) eqn:EL; [|reflexivity]. exfalso. apply (H (Some X)). split; auto. split; auto. intros _. exists l. split; auto. split; auto. now apply Nat.eqb_eq.
      + unfold mfit_plain. split.
        * intros d (-> & -> & _). cbn [negb]. destruct X as [rows|g]; [|reflexivity]. destruct (_ && _); [reflexivity|]. rewrite (proj2 (rows_params _ _ _ _)). reflexivity.
        * intro H. destruct (q_accepted E X) eqn:EA; [|reflexivity]. exfalso. apply (H (Some X)). split; auto. split; auto. discriminate.
  Qed.

  Lemma remembers_dec p X y w : (exists d, remembers E p X y w d) \/ forall d, ~ remembers E p X y w d.
  Proof.
    unfold remembers. destruct (q_precomputed E p).
    - destruct w; [right; intros d (_ & H & _); discriminate|]. destruct X as [rows|g]; [right; intros d (_ & _ & g & H & _); discriminate|].
      destruct (q_graph_ok E g) eqn:EG; [left; exists None; repeat split; exists g; auto|]. right. intros d (_ & _ & g' & H & H'). injection H as ->. congruence.
    - destruct (q_accepted E X) eqn:EA; [|right; intros d (_ & H & _); discriminate]. destruct (q_semi E p).
      + destruct y as [l|]; [|right; intros d (_ & _ & H); destruct (H eq_refl) as (l & H' & _); discriminate].
        destruct (q_y_ok E l) eqn:EY; [|right; intros d (_ & _ & H); destruct (H eq_refl) as (l' & H' & H'' & _); congruence].
        destruct (Nat.eq_dec (length l) match X with Features rows => length rows | Distances g => q_nodes E g end) as [EL|EL].
        * left. exists (Some X). split; auto. split; auto. intros _. eauto.
        * right. intros d (_ & _ & H). destruct (H eq_refl) as (l' & H' & _ & H''). congruence.
      + left. exists (Some X). split; auto. split; auto. discriminate.
  Qed.

  (** ** Failing calls *)
  Hypothesis HC : complete_parts E.

  Lemma at_setting {Data} (run : P -> bool -> list Data -> res (fitted W V Sz)) p w :
    complete_run (P := P * bool) (fun q => run (fst q) (snd q)) -> complete_run (P := unit) (fun _ => run p w).
  Proof. intros H _ rows r Hr. exact (H (p, w) rows r Hr). Qed.

  Lemma mfailed_keeps (o : mobject) X y w e : moutcome E (m_params o) X y w = Err e -> ~ lone_input E X -> m_results (fst (mfit E o X y w)) = m_results o.
  Proof.
    intros HE HL. destruct HC as (C1 & C2 & C3). revert HE. unfold moutcome, mfit. destruct (q_precomputed E (m_params o)).
    - unfold mfit_graph. destruct X as [rows|g]; [reflexivity|]. destruct (negb _); [reflexivity|]. destruct w; [reflexivity|]. cbn [m_params set_raw_data].
      destruct (q_semi E (m_params o)).
      + destruct y as [y|]; [|reflexivity]. rewrite map_length. destruct (q_labels_ok E y); cbn [andb negb]; [|reflexivity]. destruct (length y =? q_nodes E g); cbn [andb negb]; [|reflexivity].
        destruct (some_label _); cbn [negb]; [|reflexivity]. cbn [m_params set_raw_data set_raw_labels set_all_finite]. unfold conclude. destruct (q_run_graph E _ g _); [discriminate|reflexivity].
      + cbn [m_params set_raw_data set_raw_labels set_all_finite]. unfold conclude. destruct (q_run_graph E _ g _); [discriminate|reflexivity].
    - destruct (q_semi E (m_params o)).
      + unfold mfit_semi. destruct y as [y|]; [|reflexivity]. destruct X as [rows|g].
        * destruct (q_accepted E _); cbn [andb negb orb]; [|reflexivity]. destruct (q_y_ok E y); cbn [andb negb orb]; [|reflexivity].
          destruct (length y =? length rows) eqn:EL; cbn [andb negb orb]; [|reflexivity]. destruct (some_label _); cbn [andb negb]; [|reflexivity].
          replace (w && negb (q_weights_ok E rows)) with (negb (negb w || q_weights_ok E rows)) by (now destruct w, (q_weights_ok E rows)).
          destruct (negb w || q_weights_ok E rows); cbn [negb]; [|reflexivity]. cbn [m_params set_raw_data set_raw_labels]. intro HE.
          apply Nat.eqb_eq in EL. erewrite rows_keep; [reflexivity|apply at_setting, C2|exact HE|]. intros [H1 H2]. apply HL. cbn. split.
          -- rewrite forallb_fst in H1; auto. now rewrite map_length.
          -- rewrite (filter_fst (q_isfinite E)) in H2; auto. now rewrite map_length.
        * destruct (_ || _); [reflexivity|]. destruct (negb _); reflexivity.
      + unfold mfit_plain. destruct X as [rows|g].
        * destruct (q_accepted E _); cbn [andb negb]; [|reflexivity].
          replace (w && negb (q_weights_ok E rows)) with (negb (negb w || q_weights_ok E rows)) by (now destruct w, (q_weights_ok E rows)).
          destruct (negb w || q_weights_ok E rows); cbn [negb]; [|reflexivity]. cbn [m_params set_raw_data]. intro HE.
          erewrite rows_keep; [reflexivity|apply at_setting, C1|exact HE|exact HL].
        * destruct (negb _); reflexivity.
  Qed.

  (** ** Histories *)
  Lemma mnever_keeps h (o : mobject) : mnever_fitted E (m_params o) h -> (forall X y w, In (MFit X y w) h -> ~ lone_input E X) -> m_results (mplay E o h) = m_results o.
  Proof.
    revert o. induction h as [|c h IH]; intros o HN HL; [reflexivity|]. change (m_results (mplay E (mperform E o c) h) = m_results o).
    rewrite IH.
    - destruct c as [q|X y w]; [reflexivity|]. destruct (HN [] X y w h eq_refl) as (e & He). cbn in He. eapply mfailed_keeps; eauto. eapply HL. left. reflexivity.
    - intros a X y w b ->. destruct (HN (c :: a) X y w b eq_refl) as (e & He). exists e. rewrite <- He. f_equal. destruct c as [q|X' y' w']; [reflexivity|]. cbn [mperform mparams_after]. now rewrite mfit_params.
    - intros X y w H. eapply HL. right. exact H.
  Qed.

  Lemma msplit_last h p : mnever_fitted E p h \/ exists q X r, mlast_success E p h q X r.
  Proof.
    revert p. induction h as [|c h IH]; intro p.
    - left. intros a X y w b H. now destruct a.
    - destruct (IH (mparams_after p [c])) as [HN|(q & X & r & h1 & y & w & h2 & -> & Hq & Ho & HF)].
      + destruct c as [q|X y w].
        * left. intros [|c a] X y w b H; [discriminate|]. injection H as <- ->. destruct (HN a X y w b eq_refl) as (e & He). exists e. exact He.
        * destruct (moutcome E p X y w) as [r|e] eqn:EO.
          -- right. exists p, X, r, [], y, w, h. split; [reflexivity|]. split; [reflexivity|]. split; [exact EO|]. exact HN.
          -- left. intros [|c a] X' y' w' b H; injection H.
             ++ intros <- <- <- <-. exists e. exact EO.
             ++ intros -> <-. destruct (HN a X' y' w' b eq_refl) as (e' & He). exists e'. exact He.
      + right. exists q, X, r, (c :: h1), y, w, h2. split; [reflexivity|].
        assert (Hp : mparams_after p (c :: h1) = mparams_after (mparams_after p [c]) h1) by (now destruct c). rewrite Hp. auto.
  Qed.

  Lemma mafter_history p h : (forall X y w, In (MFit X y w) h -> ~ lone_input E X) ->
    let o := mplay E (new_mobject p) h in
    m_params o = mparams_after p h /\
    (forall r, m_results o = Some r <-> exists q X, mlast_success E p h q X r) /\
    (m_results o = None <-> mnever_fitted E p h).
  Proof.
    intros HL o. split; [apply mparams_play|].
    assert (HY : forall r, (exists q X, mlast_success E p h q X r) -> m_results o = Some r).
    { intros r (q & X & h1 & y & w & h2 & -> & -> & Ho & HF). unfold o, mplay. rewrite fold_left_app. cbn [fold_left].
      change (m_results (mplay E (mperform E (mplay E (new_mobject p) h1) (MFit X y w)) h2) = Some r). cbn [mperform].
      pose proof (mfit_refines (mplay E (new_mobject p) h1) X y w) as H. rewrite mparams_play in H. cbn [new_mobject m_params] in H. rewrite Ho in H.
      rewrite mnever_keeps; [now rewrite H| |intros X' y' w' H'; eapply HL; apply in_or_app; right; right; exact H'].
      rewrite H. exact HF. }
    assert (HN : mnever_fitted E p h -> m_results o = None).
    { intro H. unfold o. rewrite mnever_keeps; auto. }
    split.
    - intro r. split; [|apply HY]. intro EO. destruct (msplit_last h p) as [H|(q & X & r' & H)].
      + rewrite (HN H) in EO. discriminate.
      + assert (E' : m_results o = Some r') by eauto. rewrite EO in E'. injection E' as ->. eauto.
    - split; [|apply HN]. intro EO. destruct (msplit_last h p) as [H|(q & X & r' & H)]; [exact H|]. assert (E' : m_results o = Some r') by eauto. congruence.
  Qed.

  Lemma mdata_kept h (o : mobject) : (forall a X y w b d, h = a ++ MFit X y w :: b -> ~ remembers E (mparams_after (m_params o) a) X y w d) -> m_raw_data (mplay E o h) = m_raw_data o.
  Proof.
    revert o. induction h as [|c h IH]; intros o HN; [reflexivity|]. change (m_raw_data (mplay E (mperform E o c) h) = m_raw_data o).
    rewrite IH.
    - destruct c as [q|X y w]; [reflexivity|]. apply (proj2 (mfit_data o X y w)). intro d. exact (HN [] X y w h d eq_refl).
    - intros a X y w b d ->. pose proof (HN (c :: a) X y w b d eq_refl) as H. destruct c as [q|X' y' w']; [exact H|]. cbn [mperform]. rewrite mfit_params. exact H.
  Qed.

  Lemma mdata_after p h d : mlast_data E p h d -> m_raw_data (mplay E (new_mobject p) h) = d.
  Proof.
    intros (h1 & X & y & w & h2 & -> & HR & HN). unfold mplay. rewrite fold_left_app. cbn [fold_left].
    change (m_raw_data (mplay E (mperform E (mplay E (new_mobject p) h1) (MFit X y w)) h2) = d). rewrite mdata_kept.
    - cbn [mperform]. apply (proj1 (mfit_data _ X y w)). now rewrite mparams_play.
    - cbn [mperform]. rewrite mfit_params, mparams_play. intros a X' y' w' b d' H. exact (HN a X' y' w' b d' H).
  Qed.

  Lemma success_remembers p X y w r : moutcome E p X y w = Ok r -> remembers E p X y w (if q_precomputed E p then None else Some X).
  Proof.
    unfold moutcome, remembers. destruct (q_precomputed E p).
    - destruct X as [rows|g]; [discriminate|]. destruct (q_graph_ok E g) eqn:EG; [|discriminate]. destruct w; [discriminate|]. intros _. eauto.
    - destruct (q_semi E p).
      + destruct y as [l|]; [|discriminate]. destruct X as [rows|g].
        * destruct (q_accepted E _) eqn:EA; [|discriminate]. destruct (q_y_ok E l) eqn:EY; [|discriminate]. destruct (_ =? _) eqn:EL; [|discriminate]. intros _.
          split; auto. split; auto. intros _. exists l. split; auto. split; auto. now apply Nat.eqb_eq.
        * destruct (_ && _); discriminate.
      + destruct X as [rows|g]; [|destruct (q_accepted E _); discriminate]. destruct (q_accepted E _); [|discriminate]. intros _. split; auto. split; auto. discriminate.
  Qed.

  Lemma last_data_exists p h q X r : mlast_success E p h q X r -> exists d, mlast_data E p h d.
  Proof.
    intros (h1 & y & w & h2 & -> & -> & Ho & _). apply success_remembers in Ho. revert h1 X y w Ho.
    induction h2 as [h2 IH] using (well_founded_induction (Wf_nat.well_founded_ltof _ (@length _))). intros h1 X y w Ho.
    set (later := fun h2 p' => exists a X' y' w' b d, h2 = a ++ MFit X' y' w' :: b /\ remembers E (mparams_after p' a) X' y' w' d).
    assert (D : forall h2 p', later h2 p' \/ forall a X' y' w' b d, h2 = a ++ MFit X' y' w' :: b -> ~ remembers E (mparams_after p' a) X' y' w' d).
    { clear. induction h2 as [|c h2 IH]; intro p'; [right; intros a X' y' w' b d H; now destruct a|].
      destruct (IH (mparams_after p' [c])) as [(a & X' & y' & w' & b & d & -> & H)|H].
      - left. exists (c :: a), X', y', w', b, d. split; [reflexivity|]. now destruct c.
      - destruct c as [q|X0 y0 w0].
        + right. intros [|c a] X' y' w' b d H'; [discriminate|]. injection H' as <- H'. exact (H a X' y' w' b d H').
        + destruct (remembers_dec p' X0 y0 w0) as [(d & Hd)|Hd]; [left; exists [], X0, y0, w0, h2, d; auto|].
          right. intros [|c a] X' y' w' b d H'; injection H'.
          * intros <- <- <- <-. apply Hd.
          * intros H0 <-. exact (H a X' y' w' b d H0). }
    destruct (D h2 (mparams_after p h1)) as [(a & X' & y' & w' & b & d & -> & H)|H].
    - destruct (IH b) with (h1 := h1 ++ MFit X y w :: a) (X := X') (y := y') (w := w') as (d' & Hd').
      + unfold Wf_nat.ltof. rewrite app_length. cbn. lia.
      + rewrite mparams_app. cbn [mparams_after]. revert H. unfold remembers.
      destruct (q_precomputed E (mparams_after (mparams_after p h1) a)); intros (_ & H); auto.
      + exists d'. rewrite <- app_assoc in Hd'. exact Hd'.
    - exists (if q_precomputed E (mparams_after p h1) then None else Some X), h1, X, y, w, h2. auto.
  Qed.

  Lemma moutcome_lengths p X y w r : moutcome E p X y w = Ok r -> length (f_labels r) = samples E X /\ length (f_probabilities r) = samples E X.
  Proof.
    destruct HC as (C1 & C2 & C3).
    assert (HF : forall Data (ok : Data -> bool) run rows, complete_run (P := unit) (fun _ => run) -> fit (q_zero E) ok (q_set_list E) run rows = Ok r ->
      length (f_labels r) = length rows /\ length (f_probabilities r) = length rows).
    { intros Data ok run rows HR. unfold fit. destruct (forallb ok rows).
      - intro H. destruct (HR tt _ _ H) as (_ & H1 & H2 & _). auto.
      - destruct (run _) as [r0|]; cbn [bind]; [|discriminate]. destruct (remap_condensed_tree _ _ _ _) as [T|]; cbn [bind]; [|discriminate].
        destruct (remap_single_linkage_tree _ _ _) as [L|]; cbn [bind]; [|discriminate]. unfold scatter.
        destruct (_ =? length (f_labels r0)); cbn [bind]; [|discriminate]. destruct (_ =? length (f_probabilities r0)); cbn [bind]; [|discriminate].
        intros [= <-]. cbn [f_labels f_probabilities]. now rewrite !map_length, seq_length. }
    unfold moutcome, samples. destruct (q_precomputed E p).
    - destruct X as [rows|g]; [discriminate|]. destruct (negb _); [discriminate|]. destruct w; [discriminate|]. destruct (q_semi E p).
      + destruct y as [y|]; [|discriminate]. destruct (_ && _); [|discriminate]. intro H. destruct (C3 _ _ _ _ H) as (H1 & H2 & _). auto.
      + intro H. destruct (C3 _ _ _ _ H) as (H1 & H2 & _). auto.
    - destruct (q_semi E p).
      + destruct y as [y|]; [|discriminate]. destruct X as [rows|g]; [|destruct (_ && _); discriminate].
        destruct (length y =? length rows) eqn:EL; [|now rewrite andb_false_r]. destruct (_ && _); [|discriminate]. intro H.
        apply HF in H; [|apply at_setting, C2]. rewrite combine_length, map_length in H. apply Nat.eqb_eq in EL. rewrite EL, Nat.min_id in H. exact H.
      + destruct X as [rows|g]; [|destruct (q_accepted E _); discriminate]. destruct (_ && _); [|discriminate]. apply HF, at_setting, C1.
  Qed.

  Lemma mquestions p h (cut_size : P -> nat) : (forall X y w, In (MFit X y w) h -> ~ lone_input E X) ->
    let o := mplay E (new_mobject p) h in
    (forall q X r, mlast_success E p h q X r ->
       length (f_labels r) = samples E X /\ length (f_probabilities r) = samples E X /\
       m_condensed_tree o = Ok (f_condensed r, f_labels r) /\ m_single_linkage_tree o = Ok (f_linkage r) /\
       (forall eps, m_dbscan cut_size o eps = dbscan_clustering r eps (cut_size (mparams_after p h))) /\
       exists d, mlast_data E p h d /\ m_spanning_tree o = Ok (option_map (fun X => (f_mst r, X)) d)) /\
    (mnever_fitted E p h ->
       m_condensed_tree o = Err ValueError /\ m_single_linkage_tree o = Err ValueError /\ m_spanning_tree o = Err ValueError /\ forall eps, m_dbscan cut_size o eps = Err ValueError).
  Proof.
    intros HL o. destruct (mafter_history p h HL) as (Hp & HS & HN). fold o in Hp, HS, HN. split.
    - intros q X r H. assert (EO : m_results o = Some r) by (apply HS; eauto). pose proof H as (h1 & y & w & h2 & _ & _ & Ho & _). destruct (moutcome_lengths _ _ _ _ _ Ho) as [H1 H2].
      split; auto. split; auto. unfold m_condensed_tree, m_single_linkage_tree, m_dbscan, m_spanning_tree. rewrite EO, Hp. split; auto. split; auto. split; auto.
      destruct (last_data_exists _ _ _ _ _ H) as (d & Hd). exists d. split; auto. unfold o. now rewrite (mdata_after _ _ _ Hd).
    - intro H. apply HN in H. unfold m_condensed_tree, m_single_linkage_tree, m_dbscan, m_spanning_tree. rewrite H. auto.
  Qed.

  (** A success makes the object forget its past, but for the labels. *)
  Lemma mforgets p h X y w r : moutcome E (mparams_after p h) X y w = Ok r ->
    let o := mplay E (new_mobject p) (h ++ [MFit X y w]) in
    let o' := mplay E (new_mobject (mparams_after p h)) [MFit X y w] in
    m_params o = m_params o' /\ m_raw_data o = m_raw_data o' /\ m_all_finite o = m_all_finite o' /\ m_results o = m_results o' /\
    (q_semi E (mparams_after p h) = true -> o = o').
  Proof.
    intros EO o o'. pose proof (mfit_refines (mplay E (new_mobject p) h) X y w) as H. rewrite mparams_play in H. cbn [new_mobject m_params] in H. rewrite EO in H.
    pose proof (mfit_refines (new_mobject (mparams_after p h)) X y w) as H'. cbn [new_mobject m_params] in H'. rewrite EO in H'.
    unfold o, o', mplay. rewrite fold_left_app. cbn [fold_left mperform]. change (fold_left (mperform E) h (new_mobject p)) with (mplay E (new_mobject p) h).
    cbn [new_mobject m_params]. rewrite H, H'. cbn. repeat (split; [reflexivity|]). intros ->. reflexivity.
  Qed.
End Session.
