(** Estimator objects over time. *)
From Coq Require Import List Arith Lia Bool ZArith Permutation QArith Qcanon.
From Verif Require Import Prelude Order Graph Size Num M_Linkage S_Linkage M_Condense S_Condense M_Select M_Labels M_Pipeline S_Pipeline P_PipelineRun P_PipelineEx M_Estimator S_Estimator M_Dispatch M_Plscan P_EomValue P_EpsilonTop P_Estimator P_EstimatorEx M_Session S_Session.
Import ListNotations.
Local Open Scope nat_scope.

Lemma params_app {P Row} (h1 h2 : list (call P Row)) p : params_after p (h1 ++ h2) = params_after (params_after p h1) h2.
Proof. revert p. induction h1 as [|[q|X] h1 IH]; intro p; cbn; auto. Qed.

Section Session.
  Context {P : Type} {W V : WOrd} {Sz : SOrd} {Row : Type}.
  Variables (zero : V) (isfinite : Row -> bool) (set_list : list nat -> list nat) (accepted weights_accepted : list Row -> bool)
    (run : P -> list Row -> res (fitted W V Sz)).
  Notation object := (object P W V Sz Row).
  Notation fit_object := (fit_object zero isfinite set_list accepted weights_accepted run).
  Notation perform := (perform zero isfinite set_list accepted weights_accepted run).
  Notation play := (play zero isfinite set_list accepted weights_accepted run).
  Notation outcome := (outcome zero isfinite set_list accepted weights_accepted run).

  Lemma fit_refines (o : object) X :
    match outcome (o_params o) X with
    | Ok r => fit_object o X = ({| o_params := o_params o; o_raw_data := Some X; o_all_finite := Some (forallb isfinite X); o_results := Some r |}, None)
    | Err e => snd (fit_object o X) = Some e /\ o_params (fst (fit_object o X)) = o_params o
    end.
  Proof.
    unfold S_Session.outcome, M_Session.fit_object, fit. destruct (accepted X); cbn [negb andb]; [|auto]. destruct (weights_accepted X); cbn [negb andb]; [|auto].
    destruct (forallb isfinite X); cbn [o_params with_all_finite with_data].
    - destruct (run (o_params o) X) as [r|e]; auto.
    - destruct (run (o_params o) _) as [r|e]; cbn [bind]; [|auto]. unfold remap_object.
      destruct (remap_condensed_tree _ _ _ _) as [T|e]; cbn [bind]; [|auto]. cbn [f_linkage f_labels f_probabilities f_condensed f_mst].
      destruct (remap_single_linkage_tree _ _ _) as [L|e]; cbn [bind]; [|auto]. cbn [f_linkage f_labels f_probabilities f_condensed f_mst].
      destruct (scatter _ (-1)%Z _ _) as [l|e]; cbn [bind]; [|auto]. cbn [f_linkage f_labels f_probabilities f_condensed f_mst].
      destruct (scatter _ zero _ _) as [q|e]; cbn [bind]; [|auto]. reflexivity.
  Qed.

  Lemma params_kept (o : object) X : o_params (fst (fit_object o X)) = o_params o.
  Proof. pose proof (fit_refines o X) as H. destruct (outcome (o_params o) X); [now rewrite H|apply H]. Qed.

  Lemma params_play h (o : object) : o_params (play o h) = params_after (o_params o) h.
  Proof. revert o. induction h as [|[q|X] h IH]; intro o; [reflexivity| |].
    - exact (IH (perform o (SetParams q))).
    - rewrite (IH (perform o (Fit X)) : o_params (play o (Fit X :: h)) = _). cbn [M_Session.perform params_after]. now rewrite params_kept.
  Qed.

  Hypothesis HR : complete_run run.

  Lemma failed_keeps (o : object) X e : outcome (o_params o) X = Err e -> ~ lone_row isfinite X -> o_results (fst (fit_object o X)) = o_results o.
  Proof.
    intros HE HL. revert HE. unfold S_Session.outcome, M_Session.fit_object, fit. destruct (accepted X); cbn [negb andb]; [|auto]. destruct (weights_accepted X); cbn [negb andb]; [|auto].
    destruct (forallb isfinite X) eqn:EF; cbn [o_params with_all_finite with_data].
    - destruct (run (o_params o) X) as [r|e']; [discriminate|auto].
    - rewrite take_index. destruct (run (o_params o) _) as [r|e'] eqn:ER; cbn [bind]; [|auto].
      destruct (HR _ _ _ ER) as (N & H1 & H2 & H3).
      assert (HI : length (finite_index_of isfinite X) = length (filter isfinite X)) by apply index_len.
      destruct H3 as [HT HS].
      { destruct (filter isfinite X) as [|x [|y l]] eqn:EX; [congruence| |cbn; lia]. exfalso. apply HL. split; auto. now rewrite EX. }
      unfold remap_condensed_tree at 1. unfold remap_single_linkage_tree at 1. unfold scatter. rewrite HI, H1, H2, Nat.eqb_refl.
      destruct (f_condensed r) as [|c T]; [congruence|]. cbn [map bind].
      destruct (rev (map _ (f_linkage r))) as [|l L] eqn:EL; [|discriminate].
      exfalso. apply HS. apply (f_equal (@length _)) in EL. rewrite rev_length, map_length in EL. now destruct (f_linkage r).
  Qed.

  (** ** Histories *)
  Lemma never_keeps h (o : object) : never_fitted zero isfinite set_list accepted weights_accepted run (o_params o) h -> (forall Y, In (Fit Y) h -> ~ lone_row isfinite Y) -> o_results (play o h) = o_results o.
  Proof.
    revert o. induction h as [|c h IH]; intros o HN HL; [reflexivity|]. cbn [M_Session.play fold_left]. change (o_results (play (perform o c) h) = o_results o).
    rewrite IH.
    - destruct c as [q|X]; [reflexivity|]. destruct (HN [] X h eq_refl) as (e & He). cbn in He. eapply failed_keeps; eauto. apply HL. now left.
    - intros a Y b ->. destruct (HN (c :: a) Y b eq_refl) as (e & He). exists e. rewrite <- He. f_equal. destruct c as [q|X]; [reflexivity|]. cbn [M_Session.perform params_after]. now rewrite params_kept.
    - intros Y HY. apply HL. now right.
  Qed.

  Lemma split_last h p : never_fitted zero isfinite set_list accepted weights_accepted run p h \/ exists q X r, last_success zero isfinite set_list accepted weights_accepted run p h q X r.
  Proof.
    revert p. induction h as [|c h IH]; intro p.
    - left. intros a Y b E. now destruct a.
    - destruct (IH (params_after p [c])) as [HN|(q & X & r & h1 & h2 & -> & Hq & Ho & HF)].
      + destruct c as [q|X].
        * left. intros [|c a] Y b E; [discriminate|]. injection E as <- ->. destruct (HN a Y b eq_refl) as (e & He). exists e. exact He.
        * destruct (outcome p X) as [r|e] eqn:E.
          -- right. exists p, X, r, [], h. split; [reflexivity|]. split; [reflexivity|]. split; [exact E|]. exact HN.
          -- left. intros [|c a] Y b E'; injection E' as <- ->; [exists e; exact E|]. destruct (HN a Y b eq_refl) as (e' & He). exists e'. exact He.
      + right. exists q, X, r, (c :: h1), h2. split; [reflexivity|].
        assert (Hp : params_after p (c :: h1) = params_after (params_after p [c]) h1) by (now destruct c). rewrite Hp. auto.
  Qed.

  Lemma after_history p h : (forall Y, In (Fit Y) h -> ~ lone_row isfinite Y) ->
    let o := play (new_object p) h in
    o_params o = params_after p h /\
    (forall r, o_results o = Some r <-> exists q X, last_success zero isfinite set_list accepted weights_accepted run p h q X r) /\
    (o_results o = None <-> never_fitted zero isfinite set_list accepted weights_accepted run p h).
  Proof.
    intros HL o. split; [apply params_play|].
    assert (HY : forall r, (exists q X, last_success zero isfinite set_list accepted weights_accepted run p h q X r) -> o_results o = Some r).
    { intros r (q & X & h1 & h2 & -> & -> & Ho & HF). unfold o, M_Session.play. rewrite fold_left_app. cbn [fold_left].
      change (o_results (play (perform (play (new_object p) h1) (Fit X)) h2) = Some r). cbn [M_Session.perform].
      pose proof (fit_refines (play (new_object p) h1) X) as H. rewrite params_play in H. cbn [new_object o_params] in H. rewrite Ho in H.
      rewrite never_keeps; [now rewrite H| |intros Y HY; apply HL; apply in_or_app; right; now right].
      rewrite H. exact HF. }
    assert (HN : never_fitted zero isfinite set_list accepted weights_accepted run p h -> o_results o = None).
    { intro H. unfold o. rewrite never_keeps; auto. }
    split.
    - intro r. split; [|apply HY]. intro E. destruct (split_last h p) as [H|(q & X & r' & H)].
      + rewrite (HN H) in E. discriminate.
      + assert (E' : o_results o = Some r') by eauto. rewrite E in E'. injection E' as ->. eauto.
    - split; [|apply HN]. intro E. destruct (split_last h p) as [H|(q & X & r' & H)]; [exact H|]. assert (E' : o_results o = Some r') by eauto. congruence.
  Qed.

  Lemma forgets p h X r : outcome (params_after p h) X = Ok r -> play (new_object p) (h ++ [Fit X]) = play (new_object (params_after p h)) [Fit X].
  Proof.
    intro E. unfold M_Session.play at 1. rewrite fold_left_app. cbn [fold_left M_Session.play M_Session.perform].
    pose proof (fit_refines (play (new_object p) h) X) as H. rewrite params_play in H. cbn [new_object o_params] in H. rewrite E in H.
    change (fold_left perform h (new_object p)) with (play (new_object p) h). rewrite H.
    pose proof (fit_refines (new_object (params_after p h)) X) as H'. cbn [new_object o_params] in H'. rewrite E in H'. now rewrite H'.
  Qed.

  Lemma outcome_lengths p X r : outcome p X = Ok r -> length (f_labels r) = length X /\ length (f_probabilities r) = length X.
  Proof.
    unfold S_Session.outcome, fit. destruct (accepted X && weights_accepted X); [|discriminate]. destruct (forallb isfinite X).
    - intro E. destruct (HR _ _ _ E) as (_ & H1 & H2 & _). auto.
    - destruct (run p _) as [r0|]; cbn [bind]; [|discriminate]. destruct (remap_condensed_tree _ _ _ _) as [T|]; cbn [bind]; [|discriminate].
      destruct (remap_single_linkage_tree _ _ _) as [L|]; cbn [bind]; [|discriminate]. unfold scatter.
      destruct (_ =? length (f_labels r0)); cbn [bind]; [|discriminate]. destruct (_ =? length (f_probabilities r0)); cbn [bind]; [|discriminate].
      intros [= <-]. cbn [f_labels f_probabilities]. now rewrite !map_length, seq_length.
  Qed.

  Lemma questions p h (cut_size : P -> nat) : (forall Y, In (Fit Y) h -> ~ lone_row isfinite Y) ->
    let o := play (new_object p) h in
    (forall q X r, last_success zero isfinite set_list accepted weights_accepted run p h q X r ->
       length (f_labels r) = length X /\ length (f_probabilities r) = length X /\
       condensed_tree_of_object o = Ok (f_condensed r, f_labels r) /\
       forall eps, dbscan_of_object cut_size o eps = dbscan_clustering r eps (cut_size (params_after p h))) /\
    (never_fitted zero isfinite set_list accepted weights_accepted run p h ->
       condensed_tree_of_object o = Err ValueError /\ spanning_tree_of_object o = Err ValueError /\ forall eps, dbscan_of_object cut_size o eps = Err ValueError).
  Proof.
    intros HL o. destruct (after_history p h HL) as (Hp & HS & HN). fold o in Hp, HS, HN. split.
    - intros q X r H. assert (E : o_results o = Some r) by (apply HS; eauto). pose proof H as (h1 & h2 & _ & _ & Ho & _). destruct (outcome_lengths _ _ _ Ho) as [H1 H2].
      split; auto. split; auto. unfold condensed_tree_of_object, dbscan_of_object. rewrite E, Hp. auto.
    - intro H. apply HN in H. unfold condensed_tree_of_object, spanning_tree_of_object, dbscan_of_object. rewrite H. auto.
  Qed.

  Lemma spanning_tree_shown p h X r : outcome (params_after p h) X = Ok r ->
    spanning_tree_of_object (play (new_object p) (h ++ [Fit X])) = Ok (Some (f_mst r, X)).
  Proof.
    intro E. rewrite (forgets _ _ _ _ E). cbn [M_Session.play fold_left M_Session.perform].
    pose proof (fit_refines (new_object (params_after p h)) X) as H'. cbn [new_object o_params] in H'. rewrite E in H'. now rewrite H'.
  Qed.

  (** A lone row: the exception, and what is left behind. *)
  Lemma lone_leaves (o : object) X r : lone_row isfinite X -> accepted X = true -> weights_accepted X = true ->
    run (o_params o) (filter isfinite X) = Ok r -> f_condensed r = [] ->
    snd (fit_object o X) = Some IndexError /\ o_results (fst (fit_object o X)) = Some r /\ length (f_labels r) < length X.
  Proof.
    intros [HF H1] HA HW ER HT. unfold M_Session.fit_object. rewrite HA, HW, HF. cbn [negb o_params with_all_finite with_data]. rewrite take_index, ER.
    unfold remap_object, remap_condensed_tree. rewrite HT. cbn [map]. split; [reflexivity|]. split; [reflexivity|].
    destruct (HR _ _ _ ER) as (_ & H2 & _). rewrite H2, H1. destruct X as [|x [|y l]]; cbn [length]; [discriminate| |lia].
    cbn in HF, H1. destruct (isfinite x); cbn in HF, H1; discriminate.
  Qed.
End Session.

(** ** The algorithm *)
Section Run.
  Context {P : Type} {W V : WOrd} {Row : Type}.
  Variables (lam : W -> V) (LA : LamArith V) (garbage : nat -> V) (mst_of : P -> list Row -> res (list (edge W)))
    (A : Arith V NatSize) (by_parent : list (crow V NatSize) -> list (crow V NatSize)) (st : P -> settings V NatSize)
    (valid : P -> bool).
  Hypothesis HK : forall p, valid p = true -> setting_ok lam LA A by_parent (st p).
  Hypothesis HM : forall p rows M, 2 <= length rows -> mst_of p rows = Ok M -> spanning_tree (length rows) M.

  Lemma fast_complete : complete_run (fun p rows => if valid p then fast_hdbscan lam LA garbage (mst_of p) A by_parent (st p) rows else Err ValueError).
  Proof.
    intros p rows r E. destruct (valid p) eqn:EV; [|discriminate]. specialize (HK p EV). destruct rows as [|x [|y rows]].
    - discriminate.
    - injection E as <-. cbn. split; [discriminate|]. split; auto. split; auto. lia.
    - set (X := x :: y :: rows) in *. assert (H2 : 2 <= length X) by (cbn; lia). split; [discriminate|].
      destruct (fast_run lam LA garbage (mst_of p) A by_parent (st p) X r HK H2 (fun M => HM p X M H2) E) as ((M & EM & EMr & EC) & HS & HL & HC & HO).
      destruct (plain_total lam LA A garbage by_parent (st p) _ M HK (HM p X M H2 EM) H2) as [(ls & ps & T & E' & HCl & _)|[_ E']]; [|congruence].
      rewrite EC in E'. injection E' as <- <- <-.
      split; [apply (cl_labels _ _ _ _ _ HCl)|]. split; [apply (cl_strengths _ _ _ _ _ HCl)|]. intros _. split.
      + intro EN. pose proof (Permutation_length (ct_samples _ _ _ _ HC)) as H. rewrite EN, map_length, seq_length in H. cbn in H. lia.
      + intro EN. destruct HL as (HD & _). pose proof (dg_len _ _ HD) as H. rewrite EN in H. cbn in H. lia.
  Qed.
End Run.

(** ** Points on a line; the parameter is the minimum cluster size *)
Definition line_valid (mcs : nat) : bool := 2 <=? mcs.
Definition line_run (mcs : nat) (rows : list (option Z)) : res (fitted QInf QInf NatSize) :=
  if line_valid mcs then exact_run line_dist 1 (fun _ => None) by_parent_of (exact_settings (Sz := NatSize) mcs Eom false 0%Qc 0%Qc) rows else Err ValueError.
Definition line_play (p : nat) (h : list (call nat (option Z))) : object nat QInf QInf NatSize (option Z) :=
  play (la_zero ExactLam) present (fun l => l) (fun X => negb (length X =? 0)) (fun _ => true) line_run (new_object p) h.
Definition line_labels (o : object nat QInf QInf NatSize (option Z)) : option (list Z) := option_map f_labels (o_results o).

Lemma line_complete : complete_run (Sz := NatSize) line_run.
Proof.
  apply (fast_complete (W := QInf) (V := QInf) hdbscan_lambda_value ExactLam (fun _ => None) (fun _ => pairs_mst (W := QInf) (Some 0%Qc) line_dist 1) (ExactArith NatSize nat_as_q) by_parent_of
    (fun mcs => exact_settings (Sz := NatSize) mcs Eom false 0%Qc 0%Qc) line_valid).
  - intros mcs H. apply Nat.leb_le in H. apply exact_ok; [exact ex_sorts|]. unfold slt. cbn. apply negb_true_iff. apply Nat.leb_gt. lia.
  - intros _ rows M H2 EM. destruct (pairs_ok (W := QInf) (Some 0%Qc) line_dist 1 rows ltac:(lia)) as (M' & E & H). congruence.
Qed.

Lemma lone_row_damage : exists h X, let o := line_play 2 h in
  line_labels o = Some [1; 1; 0; 0]%Z /\ (exists e, S_Session.outcome (la_zero ExactLam) present (fun l => l) (fun X => negb (length X =? 0)) (fun _ => true) line_run 2 X = Err e) /\
  line_labels (line_play 2 (h ++ [Fit X])) = Some [-1]%Z /\ length X = 2.
Proof.
  exists [Fit [Some 0; Some 1; Some 10; Some 11]%Z], [Some 5%Z; None]. cbn [app].
  split; [vm_compute; reflexivity|]. split; [|split; [vm_compute; reflexivity|reflexivity]].
  exists IndexError. 
  assert (H : match S_Session.outcome (la_zero ExactLam) present (fun l => l) (fun X => negb (length X =? 0)) (fun _ => true) line_run 2 [Some 5%Z; None] with Ok _ => None | Err e => Some e end = Some IndexError) by (vm_compute; reflexivity).
  destruct (S_Session.outcome _ _ _ _ _ _ _ _) as [r|e] eqn:E; [discriminate H|]. injection H as ->. exact E.
Qed.

Lemma tree_of_other_data : exists h, exists M X e, spanning_tree_of_object (line_play 2 h) = Ok (Some (M, X)) /\ In e M /\ length X <= esrc e.
Proof.
  set (h := [Fit [Some 0; Some 1; Some 10; Some 11]; SetParams 1%nat; Fit [Some 7; Some 8]]%Z).
  assert (H : match spanning_tree_of_object (line_play 2 h) with Ok (Some (M, X)) => existsb (fun e => length X <=? esrc e) M | _ => false end = true) by (vm_compute; reflexivity).
  destruct (spanning_tree_of_object (line_play 2 h)) as [[[M X]|]|] eqn:E; [|discriminate H|discriminate H]. apply existsb_exists in H as (e & He & H). apply Nat.leb_le in H.
  exists h, M, X, e. exact (conj E (conj He H)).
Qed.

Lemma plscan_unchecked : exists a b p, plscan_new a = Ok a /\ plscan_new b = Err ValueError /\ plscan_object_dispatch (plscan_set_params a b) = Ok p.
Proof.
  set (args := fun n => {| p_rows := 20; p_features := 2; p_matrix := Dense; p_metric := Euclidean; p_algorithm := Boruvka; p_weights := false; p_min_samples := PyInt 5;
    p_max_layers := PyInt n; p_base_min_cluster_size := PyInt 5; p_base_n_clusters := PyNone; p_knn_k := None; p_cannot_link := None; p_validate := true; p_pynndescent := true |}).
  destruct (plscan_object_dispatch (plscan_set_params (args 10%Z) (args 0%Z))) as [p|] eqn:E; [|discriminate].
  exists (args 10%Z), (args 0%Z), p. split; [reflexivity|]. split; [reflexivity|]. exact E.
Qed.
