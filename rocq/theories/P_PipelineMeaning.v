(** What a complete run reports. *)
From Coq Require Import List Arith Lia Bool ZArith Permutation Sorted QArith Qcanon.
From Verif Require Import Prelude Order Graph Size Num S_Kruskal M_Linkage S_Linkage M_Condense S_Condense P_CondenseTop M_Select S_Select
  P_CTree P_Eom P_SelectTop M_Labels S_Labels P_LabelsTop P_LabelsEx M_Epsilon S_Epsilon P_EpsilonTop M_Simplify S_Simplify P_SimplifyTop
  M_Pipeline S_Pipeline P_Pipeline P_PipelineTop P_PipelineRun P_PipelineEx.
Import ListNotations.
Local Open Scope nat_scope.

Section Meaning.
  Context {W V : WOrd} {Sz : SOrd}.
  Variables (lam : W -> V) (LA : LamArith V) (A : Arith V Sz) (garbage : nat -> V)
    (by_parent : list (crow V Sz) -> list (crow V Sz)) (st : settings V Sz).
  Variables (n : nat) (wt : nat -> Sz) (M : list (edge W)) (L : list (lrow W Sz)).
  Notation zero := (la_zero LA).
  Notation mcs := (min_cluster_size st).
  Hypothesis HK : setting_ok lam LA A by_parent st.
  Hypothesis HL : linkage_facts n wt M L.
  Hypothesis Hn : 2 <= n.
  Hypothesis Hsz : sle (s := Sz) szero sone = true.
  Hypothesis Hwt : forall x, x < n -> sle mcs (wt x) = false.
  Notation run := (clusters_from_linkage_tree lam LA A garbage by_parent st wt n L).

  Lemma facts_linkage : linkage_of n wt M L.
  Proof.
    destruct HL as (L1 & L2 & L3 & L4 & L5). split; auto. split; auto. split; auto.
    exists (sort_mst M). split; [apply sort_mst_perm|auto].
  Qed.

  Lemma run_explained ls ps T : run = Ok (ls, ps, T) -> exists T0 chosen final,
    explained lam LA st n wt M ls ps T L T0 chosen final /\ selected_clusters_of A st T n = Ok chosen.
  Proof.
    intro ER. destruct HK as [H1 H2 H3 H4 H5 H6]. pose proof HL as (L1 & L2 & L3 & _).
    pose proof (us_size _ _ H1) as Hone. assert (Hn0 : 0 < n) by lia.
    destruct (run_good lam LA (plain_sel A st n) garbage by_parent st n wt L H2 H1 H3 (plain_selects LA A st n wt H1 H4 Hn) Hsz Hn H5 H6 L1 L2 L3 Hwt ls ps T ER) as (S & E & HX & HT & HO & Hpos & _).
    destruct (c24 W V Sz n L wt mcs None lam L1 L2 L3 H5 Hwt Hn) as (T0 & ET0 & HT0 & HF & HO0). specialize (HO0 eq_refl). pose proof (c24_ascending W V Sz n L wt mcs lam T0 L1 L2 L3 H5 Hwt Hn ET0) as HA0.
    assert (HT0ne : T0 <> []) by (apply (rows_nonempty _ _ _ _ HT0 Hn0)).
    assert (EC : condensed_tree_of lam garbage st wt L = Ok T).
    { unfold clusters_from_linkage_tree in ER. destruct (condensed_tree_of lam garbage st wt L) as [T'|]; [|discriminate]. cbn [bind] in ER.
      destruct (selected_clusters_of A st T' n) as [S'|]; [|discriminate]. cbn [bind] in ER.
      destruct (epsilon_clusters_of by_parent st T' S') as [E'|]; [|discriminate]. cbn [bind] in ER.
      destruct (labels_and_strengths_of LA st T' n E') as [[? ?]|]; [|discriminate]. cbn [bind] in ER. congruence. }
    exists T0, S, E. split; [|apply (oc_select _ _ _ _ _ _ _ _ _ _ HX)].
    pose proof (mask_ok n wt mcs T HT Hone) as Hmask.
    pose proof (oc_select _ _ _ _ _ _ _ _ _ _ HX) as ES. unfold plain_sel in ES. pose proof (oc_epsilon _ _ _ _ _ _ _ _ _ _ HX) as EE.
    pose proof (oc_labels _ _ _ _ _ _ _ _ _ _ HX) as EL.
    assert (HE1 : E <> [] -> length E = 1 -> E = [n]).
    { intros Hne Hl. destruct (cluster_rows n T) as [|r0 l0] eqn:Ec; [exfalso; apply Hne; now apply (oc_E_empty _ _ _ _ _ _ _ _ _ _ HX)|].
      destruct (oc_E_shape _ _ _ _ _ _ _ _ _ _ HX) as [H|[_ H]]; [rewrite Ec; discriminate|auto|lia]. }
    constructor; auto.
    - apply facts_linkage.
    - unfold condensed_tree_of in EC. rewrite ET0 in EC. cbn [bind] in EC.
      destruct (cluster_selection_persistence st) as [p|] eqn:Ep; [|destruct T0; congruence].
      destruct T0 as [|r0 T0'] eqn:ET; [congruence|]. rewrite <- ET in *. clear ET r0 T0'.
      assert (Hne : cluster_rows n T0 <> []).
      { intro Ec. rewrite (c31_empty V Sz p garbage n wt mcs T0 HT0 Hone Ec) in EC. discriminate. }
      destruct (c31 V Sz p garbage n wt mcs T0 HT0 HO0 Hone Hsz Hne (us_persist _ _ H1 p Ep))
          as (T' & new & ES' & _ & _ & N1 & N2 & N3 & N4 & N5 & N6 & _).
      rewrite EC in ES'. injection ES' as <-. exists new. repeat (split; auto).
    - intro Ec. unfold selected_clusters_of in ES. rewrite Hmask in ES. destruct (cluster_selection_method st).
      + destruct (c25_structure V Sz A n wt mcs T (max_cluster_size st) (allow_single_cluster st) HT Hone Hn0 H4) as (S' & E' & _ & _ & _ & H & _).
        rewrite Hmask, ES in E'. injection E' as <-. auto.
      + rewrite Ec in ES. congruence.
    - intros Em Hne c. unfold selected_clusters_of in ES. rewrite Hmask, Em in ES.
      destruct (c26 V Sz n wt mcs T HT Hone Hne) as (S' & E' & _ & H & _). rewrite Hmask in E'.
      destruct (cluster_rows n T) as [|r0 l0]; [congruence|]. rewrite ES in E'. injection E' as <-. apply H.
    - intros Em Hne. unfold selected_clusters_of in ES. rewrite Hmask, Em in ES.
      destruct (c25_structure V Sz A n wt mcs T (max_cluster_size st) (allow_single_cluster st) HT Hone Hn0 H4) as (S' & E' & _ & Ha & Hd & _ & Hc).
      rewrite Hmask, ES in E'. injection E' as <-. rewrite (us_max _ _ H1) in *. split; auto. split; auto. intros l Hl. apply Hc; auto. discriminate.
    - intros [He|Hle]; [apply (oc_eps_none _ _ _ _ _ _ _ _ _ _ HX He)|].
      unfold epsilon_clusters_of in EE. destruct (cluster_selection_epsilon st) as [[lt inv]|]; [|congruence].
      destruct (Nat.ltb_spec 1 (length S)) as [Hl|_]; [|congruence]. exfalso; lia.
    - intros lt inv He Hlen. unfold epsilon_clusters_of in EE. rewrite He in EE.
      destruct (Nat.ltb_spec 1 (length S)) as [_|Hl]; [|exfalso; lia]. rewrite Hmask in EE.
      assert (HS0 : cluster_rows n T = [] -> S = []).
      { intro Ec. unfold selected_clusters_of in ES. rewrite Hmask in ES. destruct (cluster_selection_method st).
        - destruct (c25_structure V Sz A n wt mcs T (max_cluster_size st) (allow_single_cluster st) HT Hone Hn0 H4) as (S' & E' & _ & _ & _ & H & _).
          rewrite Hmask, ES in E'. injection E' as <-. auto.
        - rewrite Ec in ES. congruence. }
      assert (Hne : cluster_rows n T <> []) by (intro Ec; rewrite (HS0 Ec) in Hlen; simpl in Hlen; lia).
      pose proof (oc_S_nodup _ _ _ _ _ _ _ _ _ _ HX) as S1. pose proof (oc_S_clusters _ _ _ _ _ _ _ _ _ _ HX) as S2.
      pose proof (oc_S_disjoint _ _ _ _ _ _ _ _ _ _ HX) as S3.
      destruct (cover_single LA st n wt T H1 HT Hn0 S Hne S1 S2 S3 (oc_S_covers _ _ _ _ _ _ _ _ _ _ HX Hne)) as [Es|[Hout _]]; [rewrite Es in Hlen; simpl in Hlen; lia|].
      assert (Hsel : selection n T S) by (split; auto; split; auto; intros s Hs; split; auto; intros ->; contradiction).
      destruct (us_eps _ _ H1 lt inv He) as [Hmono _]. destruct (H3 (cluster_rows n T)) as [HP HS].
      destruct (c30 n wt mcs T lt HT HO Hne Hmono S (by_parent (cluster_rows n T)) Hsel HP HS) as (E' & EE' & _ & _ & K3 & K4 & K5 & _).
      rewrite EE in EE'. injection EE' as <-. auto.
    - split; [apply (oc_E_nodup _ _ _ _ _ _ _ _ _ _ HX)|]. split; [apply (oc_E_clusters _ _ _ _ _ _ _ _ _ _ HX)|apply (oc_E_disjoint _ _ _ _ _ _ _ _ _ _ HX)].
    - intro E0. split; [apply (oc_noise _ _ _ _ _ _ _ _ _ _ HX E0)|].
      unfold labels_and_strengths_of in EL. rewrite (oc_vector _ _ _ _ _ _ _ _ _ _ HX) in EL. cbn [bind] in EL.
      rewrite (oc_noise _ _ _ _ _ _ _ _ _ _ HX E0), E0, (strengths_empty LA st n wt T HT Hn0) in EL. cbn [bind] in EL. congruence.
    - apply (oc_right _ _ _ _ _ _ _ _ _ _ HX).
    - intros Hne r Hr Hx Hm. unfold labels_and_strengths_of in EL. rewrite (oc_vector _ _ _ _ _ _ _ _ _ _ HX) in EL. cbn [bind] in EL.
      destruct (get_point_membership_strength_vector LA T E ls) as [ps'|] eqn:EP; [|discriminate]. cbn [bind] in EL. injection EL as ->.
      eapply (c29_condensed_values V Sz LA n wt mcs T E); eauto.
      + apply (oc_E_clusters _ _ _ _ _ _ _ _ _ _ HX).
      + apply (oc_E_nodup _ _ _ _ _ _ _ _ _ _ HX).
      + apply (oc_vector _ _ _ _ _ _ _ _ _ _ HX).
  Qed.
End Meaning.

Section Forms.
  Context {W V : WOrd}.
  Variables (lam : W -> V) (LA : LamArith V).

  Lemma plain_explained A garbage by_parent (st : settings V NatSize) n M ls ps T :
    setting_ok lam LA A by_parent st -> spanning_tree n M -> 2 <= n ->
    clusters_from_spanning_tree lam LA A garbage by_parent st M = Ok (ls, ps, T) ->
    exists L T0 chosen final, explained lam LA st n (fun _ => 1) M ls ps T L T0 chosen final /\
      selected_clusters_of A st T n = Ok chosen.
  Proof.
    intros HK HM Hn ER. destruct (linkage_plain n M HM) as (L & EL & HL). unfold clusters_from_spanning_tree in ER. rewrite EL in ER. cbn [bind] in ER.
    rewrite (facts_length n M HM) in ER. exists L. eapply (run_explained lam LA A garbage by_parent st n _ M L); eauto.
    intros x _. pose proof (us_size _ _ (so_usable _ _ _ _ _ HK)) as H. apply slt_true in H. auto.
  Qed.

  Lemma weighted_explained {Sz : SOrd} A garbage by_parent (st : settings V Sz) n M ws ls ps T :
    setting_ok lam LA A by_parent st -> spanning_tree n M -> 2 <= n -> length ws = n -> sle (s := Sz) szero sone = true ->
    (forall w, In w ws -> slt w (min_cluster_size st) = true) ->
    clusters_from_spanning_tree_weighted lam LA A garbage by_parent st M ws = Ok (ls, ps, T) ->
    exists L T0 chosen final, explained lam LA st n (fun x => nth x ws szero) M ls ps T L T0 chosen final /\
      selected_clusters_of A st T n = Ok chosen.
  Proof.
    intros HK HM Hn Hw Hs Hm ER. destruct (linkage_weighted n M ws HM Hw) as (L & EL & HL). unfold clusters_from_spanning_tree_weighted in ER. rewrite EL in ER. cbn [bind] in ER.
    rewrite (facts_length n M HM) in ER. exists L. eapply (run_explained lam LA A garbage by_parent st n _ M L); eauto.
    intros x Hx. apply slt_true. apply Hm. apply nth_In. lia.
  Qed.

  Lemma c45 A garbage by_parent (st : settings V NatSize) n M ls ps T :
    setting_ok lam LA A by_parent st -> spanning_tree n M -> 2 <= n ->
    clusters_from_spanning_tree lam LA A garbage by_parent st M = Ok (ls, ps, T) ->
    exists L T0 chosen final, explained lam LA st n (fun _ => 1) M ls ps T L T0 chosen final.
  Proof. intros HK HM Hn ER. destruct (plain_explained _ _ _ _ _ _ _ _ _ HK HM Hn ER) as (L & T0 & S & E & H & _). eauto. Qed.

  Lemma c45_weighted {Sz : SOrd} A garbage by_parent (st : settings V Sz) n M ws ls ps T :
    setting_ok lam LA A by_parent st -> spanning_tree n M -> 2 <= n -> length ws = n -> sle (s := Sz) szero sone = true ->
    (forall w, In w ws -> slt w (min_cluster_size st) = true) ->
    clusters_from_spanning_tree_weighted lam LA A garbage by_parent st M ws = Ok (ls, ps, T) ->
    exists L T0 chosen final, explained lam LA st n (fun x => nth x ws szero) M ls ps T L T0 chosen final.
  Proof. intros HK HM Hn Hw Hs Hm ER. destruct (weighted_explained _ _ _ _ _ _ _ _ _ _ HK HM Hn Hw Hs Hm ER) as (L & T0 & S & E & H & _). eauto. Qed.
End Forms.

Lemma c45_exact garbage by_parent mcs m a e p n M ls ps T :
  sorts_by_parent by_parent -> 2 <= mcs -> spanning_tree n M -> 2 <= n ->
  exact_clusters garbage by_parent (exact_settings (Sz := NatSize) mcs m a e p) M = Ok (ls, ps, T) ->
  exists L T0 chosen final,
    explained hdbscan_lambda_value ExactLam (exact_settings (Sz := NatSize) mcs m a e p) n (fun _ => 1) M ls ps T L T0 chosen final /\
    (m = Eom -> all_finite T -> cluster_rows n T <> [] ->
     forall Y, NoDup Y -> (forall c, In c Y -> admissible n T None a c) -> disjoint_clusters n T Y ->
       (total_stability nat_as_q T Y <= total_stability nat_as_q T chosen)%Qc).
Proof.
  intros HB Hm HM Hn ER.
  destruct (plain_explained hdbscan_lambda_value ExactLam (ExactArith NatSize nat_as_q) garbage by_parent (exact_settings (Sz := NatSize) mcs m a e p) n M ls ps T)
    as (L & T0 & S & E & HX & HS); auto.
  { apply exact_ok; auto. now apply nat_mcs. }
  exists L, T0, S, E. split; auto. intros -> Hf Hne. cbn in HS.
  destruct (xp_tree _ _ _ _ _ _ _ _ _ _ _ _ _ HX) as [HT _].
  destruct (c25_optimal NatSize nat_as_q n _ _ T None a S HT ltac:(now apply nat_mcs) ltac:(lia) Hf Hne HS) as [H _]. exact H.
Qed.
