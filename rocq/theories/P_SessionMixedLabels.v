(** Which labels a fit of an estimator object refuses. *)
From Coq Require Import List Arith Bool ZArith.
From Verif Require Import Prelude Order Graph Size M_Linkage M_Condense M_Labels M_Estimator M_SemiFit M_Session S_Session M_SessionMixed S_SessionMixed P_SessionMixed.
Import ListNotations.
Local Open Scope nat_scope.

Lemma some_label_spec y : some_label (map clean_label y) = true <-> exists l, In (Some l) y /\ l <> (-1)%Z.
Proof.
  unfold some_label. rewrite existsb_exists. split.
  - intros [x [H1 H2]]. apply in_map_iff in H1. destruct H1 as [o [<- H1]]. destruct o as [l|]; cbn in H2; [|discriminate].
    exists l. split; [exact H1|]. intros ->. discriminate.
  - intros [l [H1 H2]]. exists l. split; [apply in_map_iff; exists (Some l); auto|]. apply negb_true_iff. now apply Z.eqb_neq.
Qed.

Lemma no_label_spec y : (forall l, In (Some l) y -> l = (-1)%Z) -> some_label (map clean_label y) = false.
Proof.
  intros H. destruct (some_label _) eqn:E; [|reflexivity]. apply some_label_spec in E. destruct E as [l [H1 H2]]. now apply H in H1.
Qed.

Section Labels.
  Context {P : Type} {W V : WOrd} {Sz : SOrd} {Row Graph : Type}.
  Variable E : parts P W V Sz Row Graph.

  Lemma labels_refused : forall (o : mobject P W V Sz Row Graph) X y w, q_semi E (m_params o) = true ->
    (forall labels l, y = Some labels -> In (Some l) labels -> l = (-1)%Z) ->
    m_results (fst (mfit E o X y w)) = m_results o /\
    exists e, snd (mfit E o X y w) = Some e /\ (w = false -> e = ValueError) /\ (q_precomputed E (m_params o) = false -> e = ValueError).
  Proof.
    intros o X y w S H. unfold mfit. rewrite S. destruct (q_precomputed E (m_params o)) eqn:EP.
    - unfold mfit_graph. destruct X as [rows|g]; [cbn; eauto 8|]. destruct (q_graph_ok E g); cbn [negb]; [|cbn; eauto 8].
      destruct w; [cbn; split; [reflexivity|]; exists NotImplementedError; repeat split; discriminate|]. cbn [m_params set_raw_data]. rewrite S.
      destruct y as [y|]; [|cbn; eauto 8]. destruct (q_labels_ok E y); cbn [negb]; [|cbn; eauto 8].
      destruct (length _ =? _); cbn [negb]; [|cbn; eauto 8]. rewrite (no_label_spec y (fun l => H y l eq_refl)). cbn. eauto 8.
    - unfold mfit_semi. destruct y as [y|]; [|cbn; eauto 8]. destruct (_ || _ || _); [cbn; eauto 8|].
      rewrite (no_label_spec y (fun l => H y l eq_refl)). cbn. eauto 8.
  Qed.

  Lemma labels_taken : forall (o : mobject P W V Sz Row Graph) rows y l w, q_semi E (m_params o) = true -> q_precomputed E (m_params o) = false ->
    In (Some l) y -> l <> (-1)%Z -> length y = length rows -> q_accepted E (Features rows) = true -> q_y_ok E y = true -> (w = true -> q_weights_ok E rows = true) ->
    match fit (q_zero E) (fun row => q_isfinite E (fst row)) (q_set_list E) (q_run_semi E (m_params o) w) (combine rows (map clean_label y)) with
    | Ok r => snd (mfit E o (Features rows) (Some y) w) = None /\ m_results (fst (mfit E o (Features rows) (Some y) w)) = Some r
    | Err e => snd (mfit E o (Features rows) (Some y) w) = Some e
    end.
  Proof.
    intros o rows y l w S EP HI HN HL HA HY HW. pose proof (mfit_refines E o (Features rows) (Some y) w) as M.
    unfold moutcome in M at 1. rewrite EP, S, HA, HY, HL, Nat.eqb_refl in M. rewrite (proj2 (some_label_spec y)) in M by eauto.
    assert (negb w || q_weights_ok E rows = true) as G by (destruct w; [rewrite HW; reflexivity|reflexivity]). rewrite G in M. cbn [andb] in M.
    destruct (fit _ _ _ _ _) as [r|e]; [|exact M]. rewrite M. cbn. auto.
  Qed.

  Lemma graph_labels_taken : forall (o : mobject P W V Sz Row Graph) g y l, q_semi E (m_params o) = true -> q_precomputed E (m_params o) = true ->
    In (Some l) y -> l <> (-1)%Z -> length y = q_nodes E g -> q_graph_ok E g = true -> q_labels_ok E y = true ->
    match q_run_graph E (m_params o) g (Some (map clean_label y)) with
    | Ok r => snd (mfit E o (Distances g) (Some y) false) = None /\ m_results (fst (mfit E o (Distances g) (Some y) false)) = Some r
    | Err e => snd (mfit E o (Distances g) (Some y) false) = Some e
    end.
  Proof.
    intros o g y l S EP HI HN HL HG HY. pose proof (mfit_refines E o (Distances g) (Some y) false) as M.
    unfold moutcome in M at 1. rewrite EP, S, HG, HY, HL, Nat.eqb_refl in M. rewrite (proj2 (some_label_spec y)) in M by eauto. cbn [negb andb] in M.
    destruct (q_run_graph _ _ _ _) as [r|e]; [|exact M]. rewrite M. cbn. auto.
  Qed.
End Labels.
