(** Detector objects over time. *)
From Coq Require Import List Arith Lia Bool ZArith.
From Verif Require Import Prelude Order Graph Size M_Linkage M_Condense M_Estimator M_LayerTree M_SubClusters M_LensGraph M_Detector M_Session M_SessionDetector
  S_SessionDetector P_LayerTree P_Later.
Import ListNotations.
Local Open Scope nat_scope.

Section History.
  Context {A C Set_ : Type} {W V N : WOrd} {Sz : SOrd} {Row : Type}.
  Variables (round : W -> W) (sort_row : list (nat * W) -> list (nat * W)).
  Variables (average : V -> V -> V) (zero one : V) (no_lens : W).
  Variables (resolve : A -> C -> res Set_) (cluster_of : Set_ -> list (edge W) -> res (list Z * list V)) (lens_of_class : A -> lens_input W V Row).
  Variables (propagate_flag sides : A -> bool) (branch : bool).
  Variables (inv : W -> res N) (nadd : N -> N -> N) (nzero : N) (fuel : nat).
  Notation dobject := (dobject A W V Row).
  Notation arguments := (fit_arguments C W V Sz Row).
  Notation find_in := (find_in (Sz := Sz) round sort_row average zero one no_lens resolve cluster_of lens_of_class propagate_flag inv nadd nzero fuel).
  Notation dfit := (dfit (Sz := Sz) round sort_row average zero one no_lens resolve cluster_of lens_of_class propagate_flag sides branch inv nadd nzero fuel).
  Notation dperform := (dperform (Sz := Sz) round sort_row average zero one no_lens resolve cluster_of lens_of_class propagate_flag sides branch inv nadd nzero fuel).
  Notation dplay := (dplay (Sz := Sz) round sort_row average zero one no_lens resolve cluster_of lens_of_class propagate_flag sides branch inv nadd nzero fuel).
  Notation dpropagated := (dpropagated zero sides branch inv nadd nzero fuel).

  Notation single_fit := (single_fit (Sz := Sz) round sort_row average zero one no_lens resolve cluster_of lens_of_class propagate_flag sides branch inv nadd nzero fuel).

  (** *** Nothing found is in an empty cluster *)
  Lemma detect_nonempty cl flag (data : list Row) (T : list (crow V Sz)) labels probs neighbors mst lens d :
    detect round sort_row average zero one no_lens cl (propagated (V := V) inv nadd nzero fuel) flag data T labels probs neighbors mst lens = Ok d -> forall pts, In pts (d_points d) -> pts <> [].
  Proof.
    unfold detect. destruct (forallb _ labels); [discriminate|]. destruct (_ =? 0).
    - destruct (lens_of no_lens lens (length data) None data probs) as [ln|]; [|discriminate]. cbn [bind]. intro H. eapply rows_nonempty'; eauto.
    - set (F := all_but (length data) _).
      destruct (gather data F) as [d0|]; [|discriminate]. destruct (gather labels F) as [l0|]; [|discriminate]. destruct (gather probs F) as [p0|]; [|discriminate]. cbn [bind].
      destruct (lens_of no_lens lens (length data) (Some F) d0 p0) as [ln|]; [|discriminate]. cbn [bind].
      destruct (detect_rows _ _ _ _ _ _ _ _ _ _ _ _ _ _ _) as [r|] eqn:ED; [|discriminate]. cbn [bind].
      intros H. assert (Ep : d_points d = map (map (fun p => nth p F 0)) (d_points r)).
      { unfold remap_results in H. repeat match type of H with bind ?m _ = _ => destruct m; [cbn [bind] in H|discriminate H] end. now injection H as <-. }
      rewrite Ep. intros pts Hin. apply in_map_iff in Hin as (q & <- & Hq). assert (Hne : q <> []) by (eapply rows_nonempty'; eauto). destruct q; [congruence|discriminate].
  Qed.

  Lemma threshold_ok s (d : detected W V) : (forall pts, In pts (d_points d) -> pts <> []) -> exists b, branch_fit zero s d = Ok b.
  Proof.
    intro H. unfold branch_fit, apply_branch_threshold.
    destruct (branch_loop_same (if s then 1 else 2) (fun x => nth x (d_sub d) 0%Z) (fun x => nth x (d_cluster_probs d) zero) (fun x => nth x (d_cluster_probs d) zero)
                (combine (d_points d) (map sr_tree (d_parts d))) ltac:(intros [p t] Hc; apply in_combine_l in Hc; now apply H) 0%Z
                (fun x => nth x (d_labels d) (-1)%Z) (fun x => nth x (d_labels d) (-1)%Z) (fun x => nth x (d_probs d) zero) (fun x => nth x (d_probs d) zero))
      as (l1 & l1' & p1 & p1' & -> & _). cbn [bind]. eauto.
  Qed.

  Lemma find_nonempty a x d data : find_in a x = Ok (d, data) -> forall pts, In pts (d_points d) -> pts <> [].
  Proof.
    unfold M_SessionDetector.find_in. destruct (q_precomputed _); [discriminate|]. destruct (q_raw_data _) as [X|]; [|discriminate].
    destruct (q_fitted _) as [[r nb]|]; [|discriminate]. destruct (used_labels one r x) as [l p]. destruct (resolve _ _) as [s|]; [|discriminate]. cbn [bind].
    destruct (detect _ _ _ _ _ _ _ _ _ _ _ _ _ _ _ _) as [d'|] eqn:ED; [|discriminate]. cbn [bind]. intros [= <- <-]. eapply detect_nonempty; eauto.
  Qed.

  (** What is found always passes the threshold. *)
  Lemma single_total a x r : find_in a x = Ok r -> exists r', single_fit a x = Ok r'.
  Proof.
    intro E. unfold S_SessionDetector.single_fit. rewrite E. cbn [bind]. destruct branch; [|eauto]. destruct r as [d data]. cbn [fst snd].
    destruct (threshold_ok (sides a) d (find_nonempty _ _ _ _ E)) as (b & ->). cbn [bind]. eauto.
  Qed.

  Definition tells (o : dobject) : Prop := branch = false -> do_branch o = None.

  Lemma dfit_refines (o : dobject) x :
    match single_fit (do_params o) x with
    | Ok (d, data) => snd (dfit o x) = None /\ fst (dfit o x) = {| do_params := do_params o; do_found := Some d; do_raw_data := Some data;
                        do_branch := if branch then Some (d_sub d, d_sub_probs d, d_lens d) else do_branch o |}
    | Err e => dfit o x = (o, Some e)
    end.
  Proof.
    unfold M_SessionDetector.dfit, dfit_base. destruct (find_in (do_params o) x) as [[d data]|e] eqn:E.
    - destruct (single_total _ _ _ E) as ([d' data'] & ES). rewrite ES. unfold S_SessionDetector.single_fit in ES. rewrite E in ES. cbn [bind fst snd] in ES.
      destruct branch eqn:EB.
      + cbn [do_found set_data set_found do_params]. destruct (branch_fit zero (sides (do_params o)) d) as [b|] eqn:Eb; [|discriminate]. cbn [bind] in ES. injection ES as <- <-.
        cbn. auto.
      + injection ES as <- <-. cbn. auto.
    - unfold S_SessionDetector.single_fit. rewrite E. cbn [bind]. reflexivity.
  Qed.

  Lemma arguments_override a (x : arguments) : find_in a x = find_in a (plain (given (x_clusterer x)
      (fun r => match x_labels x with Some l => l | None => f_labels r end)
      (fun r => match x_probabilities x, x_labels x with Some p, _ => p | None, Some l => repeat one (length l) | None, None => f_probabilities r end))).
  Proof.
    unfold M_SessionDetector.find_in, used_labels, plain, given. cbn [x_clusterer x_labels x_probabilities q_precomputed q_raw_data q_params q_fitted].
    destruct (q_precomputed (x_clusterer x)); auto. destruct (q_raw_data (x_clusterer x)); auto. destruct (q_fitted (x_clusterer x)) as [[r nb]|]; auto.
    cbn [option_map fst snd f_labels f_probabilities f_condensed f_mst]. destruct (x_labels x), (x_probabilities x); reflexivity.
  Qed.

  Lemma refused a (x : arguments) :
    (q_precomputed (x_clusterer x) = true -> find_in a x = Err NotImplementedError) /\
    (q_precomputed (x_clusterer x) = false -> q_raw_data (x_clusterer x) = None \/ q_fitted (x_clusterer x) = None -> find_in a x = Err ValueError) /\
    (forall e, q_precomputed (x_clusterer x) = false -> q_raw_data (x_clusterer x) <> None -> q_fitted (x_clusterer x) <> None ->
     resolve a (q_params (x_clusterer x)) = Err e -> find_in a x = Err e) /\
    (forall r nb s, q_precomputed (x_clusterer x) = false -> q_raw_data (x_clusterer x) <> None -> q_fitted (x_clusterer x) = Some (r, nb) ->
     resolve a (q_params (x_clusterer x)) = Ok s ->
     (forall l, In l (match x_labels x with Some ls => ls | None => f_labels r end) -> l = (-1)%Z) -> find_in a x = Err ValueError).
  Proof.
    unfold M_SessionDetector.find_in. split; [now intros ->|]. split; [|split].
    - intros -> H. destruct (q_raw_data (x_clusterer x)); auto. destruct H as [H|H]; [discriminate|]. now rewrite H.
    - intros e -> H1 H2 E. destruct (q_raw_data (x_clusterer x)); [|congruence]. destruct (q_fitted (x_clusterer x)) as [[r nb]|]; [|congruence].
      destruct (used_labels one r x). rewrite E. reflexivity.
    - intros r nb s -> H1 -> E HA. destruct (q_raw_data (x_clusterer x)) as [data|]; [|congruence].
      assert (HU : fst (used_labels one r x) = match x_labels x with Some ls => ls | None => f_labels r end) by (unfold used_labels; destruct (x_labels x), (x_probabilities x); reflexivity).
      destruct (used_labels one r x) as [ls ps]. cbn [fst] in HU. rewrite <- HU in HA. rewrite E. cbn [bind]. unfold detect.
      replace (forallb (fun l => (l =? -1)%Z) ls) with true; [reflexivity|]. symmetry. apply forallb_forall. intros l Hl. rewrite (HA l Hl). reflexivity.
  Qed.

  Lemma failed_keeps (o : dobject) x : match find_in (do_params o) x with Ok _ => snd (dfit o x) = None | Err e => dfit o x = (o, Some e) end.
  Proof.
    pose proof (dfit_refines o x) as H. destruct (find_in (do_params o) x) as [r|e] eqn:E.
    - destruct (single_total _ _ _ E) as ([d data] & ES). rewrite ES in H. apply H.
    - unfold S_SessionDetector.single_fit in H. rewrite E in H. exact H.
  Qed.

  Lemma dparams_perform (o : dobject) c : do_params (dperform o c) = dparams_after (do_params o) [c].
  Proof.
    destruct c as [a|x]; [reflexivity|]. cbn. pose proof (dfit_refines o x) as H. destruct (single_fit (do_params o) x) as [[d data]|e]; [destruct H as [_ H]|]; rewrite H; reflexivity.
  Qed.
  Lemma dparams_cons a (c : dcall A arguments) h : dparams_after a (c :: h) = dparams_after (dparams_after a [c]) h.
  Proof. now destruct c. Qed.
  Lemma dparams_play h : forall o : dobject, do_params (dplay o h) = dparams_after (do_params o) h.
  Proof.
    induction h as [|c h IH]; intro o; [reflexivity|]. change (do_params (dplay (dperform o c) h) = dparams_after (do_params o) (c :: h)).
    rewrite IH, dparams_perform, <- dparams_cons. reflexivity.
  Qed.

  Lemma tells_play h : forall o, tells o -> tells (dplay o h).
  Proof.
    induction h as [|c h IH]; intros o H; [exact H|]. change (tells (dplay (dperform o c) h)). apply IH. intro EB. destruct c as [a|x]; [now apply H|]. cbn.
    pose proof (dfit_refines o x) as HF. destruct (single_fit (do_params o) x) as [[d data]|e]; [destruct HF as [_ HF]|]; rewrite HF; cbn; [rewrite EB|]; now apply H.
  Qed.

  Definition same_but_params (o o' : dobject) : Prop := do_found o = do_found o' /\ do_raw_data o = do_raw_data o' /\ do_branch o = do_branch o'.

  Lemma dnever_tail a c h : dnever single_fit a (c :: h) -> dnever single_fit (dparams_after a [c]) h.
  Proof. intros H h3 y h4 ->. destruct (H (c :: h3) y h4 eq_refl) as (e & He). exists e. now rewrite dparams_cons in He. Qed.

  Lemma dnever_keeps h : forall o : dobject, dnever single_fit (do_params o) h -> same_but_params (dplay o h) o.
  Proof.
    induction h as [|c h IH]; intros o HN; [repeat split|]. change (same_but_params (dplay (dperform o c) h) o).
    destruct (IH (dperform o c)) as (H1 & H2 & H3); [rewrite dparams_perform; now apply dnever_tail|]. unfold same_but_params. rewrite H1, H2, H3.
    destruct c as [a|x]; [repeat split|]. destruct (HN [] x h eq_refl) as (e & He). cbn in He. pose proof (dfit_refines o x) as H. rewrite He in H. cbn. rewrite H. repeat split.
  Qed.

  Lemma dsplit h : forall a, dnever single_fit a h \/ exists b x d data, dlast_success single_fit a h b x d data.
  Proof.
    induction h as [|c h IH]; intro a.
    - left. intros h3 y h4 H. now destruct h3.
    - destruct (IH (dparams_after a [c])) as [HN|(b & x & d & data & h1 & h2 & -> & Hb & Ho & HF)].
      + destruct c as [q|x].
        * left. intros [|c0 h3] y h4 H; [discriminate H|]. injection H as <- ->. exact (HN _ _ _ eq_refl).
        * cbn in HN. destruct (single_fit a x) as [[d data]|e] eqn:Eo.
          -- right. exists a, x, d, data, [], h. split; auto.
          -- left. intros [|c0 h3] y h4 H; [injection H as <- <-; eauto|]. injection H as <- ->. exact (HN _ _ _ eq_refl).
      + right. exists b, x, d, data, (c :: h1), h2. split; [reflexivity|]. rewrite dparams_cons. auto.
  Qed.

  Lemma dafter a h : let o := dplay (dnew a) h in
    do_params o = dparams_after a h /\
    (forall b x d data, dlast_success single_fit a h b x d data -> displays branch o d data) /\
    (dnever single_fit a h -> displays_nothing o) /\
    (dnever single_fit a h \/ exists b x d data, dlast_success single_fit a h b x d data).
  Proof.
    intro o. split; [apply dparams_play|]. split; [|split; [|apply dsplit]].
    - intros b x d data (h1 & h2 & -> & -> & Ho & HF). unfold o, M_SessionDetector.dplay. rewrite fold_left_app. cbn [fold_left].
      change (displays branch (dplay (dperform (dplay (dnew a) h1) (DFit x)) h2) d data). set (q := dplay (dnew a) h1).
      assert (Hq : do_params q = dparams_after a h1) by (unfold q; now rewrite dparams_play).
      assert (Ht : tells q) by (apply tells_play; intro; reflexivity).
      pose proof (dfit_refines q x) as H. rewrite Hq, Ho in H. destruct H as (_ & H). cbn [M_SessionDetector.dperform].
      destruct (dnever_keeps h2 (fst (dfit q x))) as (K1 & K2 & K3).
      { rewrite H. exact HF. }
      unfold displays. rewrite K1, K2, K3, H. cbn. split; auto. split; auto. destruct branch eqn:EB; auto.
    - intro HN. destruct (dnever_keeps h (dnew a) HN) as (K1 & K2 & K3). unfold displays_nothing, o. now rewrite K1, K2, K3.
  Qed.

  Lemma dforgets a h x d data : single_fit (dparams_after a h) x = Ok (d, data) -> dplay (dnew a) (h ++ [DFit x]) = dplay (dnew (dparams_after a h)) [DFit x].
  Proof.
    intro Ho. unfold M_SessionDetector.dplay at 1. rewrite fold_left_app. cbn [fold_left].
    change (dperform (dplay (dnew a) h) (DFit x) = dperform (dnew (dparams_after a h)) (DFit x)). cbn.
    assert (G : forall o : dobject, do_params o = dparams_after a h -> tells o -> fst (dfit o x) =
      {| do_params := dparams_after a h; do_found := Some d; do_raw_data := Some data; do_branch := if branch then Some (d_sub d, d_sub_probs d, d_lens d) else None |}).
    { intros o Hp Ht. pose proof (dfit_refines o x) as H. rewrite Hp, Ho in H. destruct H as [_ ->]. destruct branch eqn:EB; auto. now rewrite Ht. }
    rewrite !G; auto; [intro; reflexivity|rewrite dparams_play; reflexivity|apply tells_play; intro; reflexivity].
  Qed.

  Lemma dpropagated_after a h : (forall b x d data, dlast_success single_fit a h b x d data ->
      dpropagated (dplay (dnew a) h) = if branch then branch_propagated_labels zero inv nadd nzero fuel (sides (dparams_after a h)) d else propagated_labels inv nadd nzero fuel d) /\
    (dnever single_fit a h -> dpropagated (dplay (dnew a) h) = Err ValueError).
  Proof.
    destruct (dafter a h) as (Hp & H1 & H2 & _). split.
    - intros b x d data HL. destruct (H1 _ _ _ _ HL) as (E & _). unfold M_SessionDetector.dpropagated. now rewrite E, Hp.
    - intro HN. destruct (H2 HN) as (E & _). unfold M_SessionDetector.dpropagated. now rewrite E.
  Qed.

  (** Propagating later is the same as fitting again with propagate_labels=True. *)
  Lemma propagate_or_refit a a' h (x : arguments) d data r nb :
    propagate_flag (dparams_after a h) = false -> propagate_flag a' = true -> (forall c, resolve a' c = resolve (dparams_after a h) c) -> lens_of_class a' = lens_of_class (dparams_after a h) ->
    q_fitted (x_clusterer x) = Some (r, nb) -> length (fst (used_labels one r x)) = length data -> length (snd (used_labels one r x)) = length data ->
    single_fit (dparams_after a h) x = Ok (d, data) ->
    dpropagated (dplay (dnew a) (h ++ [DFit x; DSetParams a'])) = let* y := single_fit a' x in Ok (d_labels (fst y), d_sub (fst y)).
  Proof.
    set (b := dparams_after a h). intros Hf Hf' Hr Hl Hq L1 L2 Hs.
    assert (HL : dlast_success single_fit a (h ++ [DFit x; DSetParams a']) b x d data).
    { exists h, [DSetParams a']. split; auto. split; auto. split; auto. intros [|c [|c2 h3]] y h4 H; [discriminate|discriminate|discriminate]. }
    assert (HP : dparams_after a (h ++ [DFit x; DSetParams a']) = a').
    { clear. revert a. induction h as [|[c|y] h' IH]; intro a; cbn; auto. }
    rewrite (proj1 (dpropagated_after a _) _ _ _ _ HL), HP.
    unfold S_SessionDetector.single_fit, M_SessionDetector.find_in in *. destruct (q_precomputed (x_clusterer x)); [discriminate|].
    destruct (q_raw_data (x_clusterer x)) as [X|]; [|discriminate]. rewrite Hq in *. destruct (used_labels one r x) as [ls ps]. cbn [fst snd] in L1, L2.
    rewrite Hr. destruct (resolve b (q_params (x_clusterer x))) as [s|]; [|discriminate]. cbn [bind] in *. rewrite Hl, Hf' in *. rewrite Hf in Hs.
    assert (EX : X = data).
    { destruct (detect _ _ _ _ _ _ _ _ _ _ _ _ _ _ _ _) as [d0|] in Hs; [|discriminate]. cbn [bind fst snd] in Hs. destruct branch; [|congruence].
      destruct (branch_fit zero (sides b) d0); [|discriminate]. cbn [bind] in Hs. congruence. }
    subst X.
    pose proof (later_ok (N := N) round sort_row average zero one no_lens (cluster_of s) inv nadd nzero fuel data (f_condensed r) ls ps nb (f_mst r) (lens_of_class b) L1 L2) as HA.
    pose proof (branch_later (N := N) round sort_row average zero one no_lens (cluster_of s) inv nadd nzero fuel data (f_condensed r) ls ps nb (f_mst r) (lens_of_class b) (sides b) (sides a') L1 L2) as HB.
    destruct branch.
    - revert HB Hs. destruct (detect round sort_row average zero one no_lens (cluster_of s) _ false data _ ls ps nb (f_mst r) _) as [d0|]; [|discriminate]. cbn [bind fst snd].
      destruct (branch_fit zero (sides b) d0) as [b0|]; [|discriminate]. cbn [bind]. intros HB [= ->]. rewrite HB.
      destruct (detect round sort_row average zero one no_lens (cluster_of s) _ true data _ ls ps nb (f_mst r) _) as [d1|]; [|reflexivity]. cbn [bind fst snd].
      destruct (branch_fit zero (sides a') d1); reflexivity.
    - revert HA Hs. destruct (detect round sort_row average zero one no_lens (cluster_of s) _ false data _ ls ps nb (f_mst r) _) as [d0|]; [|discriminate]. cbn [bind fst snd].
      intros HA [= ->]. rewrite HA. destruct (propagated_labels inv nadd nzero fuel d) as [[l1 l2]|]; reflexivity.
  Qed.
End History.

(** ** After fits of the clusterer *)
From Verif Require Import S_Session P_Session.
Lemma clusterer_after {P : Type} {W V : WOrd} {Sz : SOrd} {Row : Type} (zero : V) (isfinite : Row -> bool) (set_list : list nat -> list nat)
    (accepted weights_accepted : list Row -> bool) (run : P -> list Row -> res (fitted W V Sz)) :
  forall p h X r neighbors, outcome zero isfinite set_list accepted weights_accepted run (params_after p h) X = Ok r ->
  as_clusterer (play zero isfinite set_list accepted weights_accepted run (new_object p) (h ++ [Fit X])) neighbors =
  {| q_precomputed := false; q_raw_data := Some X; q_params := params_after p h; q_fitted := Some (r, neighbors r) |}.
Proof.
  intros p h X r neighbors E. rewrite (forgets zero isfinite set_list accepted weights_accepted run _ _ _ _ E). cbn [M_Session.play fold_left M_Session.perform].
  pose proof (fit_refines zero isfinite set_list accepted weights_accepted run (new_object (params_after p h)) X) as H'. cbn [new_object o_params] in H'. rewrite E in H'. now rewrite H'.
Qed.
