(** Complete runs: general statements and the exact instance. *)
From Coq Require Import List Arith Lia Bool ZArith Permutation Sorted QArith Qcanon.
From Verif Require Import Prelude Order Graph Size Num S_Kruskal S_Precomputed M_Kruskal M_KruskalEntry M_Precomputed P_PrecomputedTop
  M_Linkage S_Linkage M_Condense S_Condense M_Select S_Select P_EomValue M_Labels S_Labels P_LabelsEx
  M_Epsilon P_EpsilonTop M_Simplify P_SimplifyTop M_Pipeline S_Pipeline P_PipelineRun.
Import ListNotations.
Local Open Scope nat_scope.

Section General.
  Context {W V : WOrd}.
  Variables (lam : W -> V) (LA : LamArith V).
  Notation zero := (la_zero LA).

  Lemma plain_total A garbage by_parent (st : settings V NatSize) n M :
    setting_ok lam LA A by_parent st -> spanning_tree n M -> 2 <= n ->
    completes LA st n (fun _ => 1) (clusters_from_spanning_tree lam LA A garbage by_parent st M).
  Proof.
    intros HK HM Hn. destruct (linkage_plain n M HM) as (L & EL & HL). unfold clusters_from_spanning_tree. rewrite EL. cbn [bind].
    rewrite (facts_length n M HM). apply (res_total lam LA A garbage by_parent st n _ M L); auto.
    intros x _. pose proof (us_size _ _ (so_usable _ _ _ _ _ HK)) as H. apply slt_true in H. auto.
  Qed.

  Lemma weighted_total {Sz : SOrd} A garbage by_parent (st : settings V Sz) n M ws :
    setting_ok lam LA A by_parent st -> spanning_tree n M -> 2 <= n -> length ws = n -> sle (s := Sz) szero sone = true ->
    (forall w, In w ws -> slt w (min_cluster_size st) = true) ->
    completes LA st n (fun x => nth x ws szero) (clusters_from_spanning_tree_weighted lam LA A garbage by_parent st M ws).
  Proof.
    intros HK HM Hn Hw Hs Hm. destruct (linkage_weighted n M ws HM Hw) as (L & EL & HL). unfold clusters_from_spanning_tree_weighted. rewrite EL. cbn [bind].
    rewrite (facts_length n M HM). apply (res_total lam LA A garbage by_parent st n _ M L); auto.
    intros x Hx. apply slt_true. apply Hm. apply nth_In. lia.
  Qed.

  Lemma plain_sizes A garbage by_parent (st : settings V NatSize) n M ls ps T :
    setting_ok lam LA A by_parent st -> root_ok st -> spanning_tree n M -> 2 <= n -> (forall e, In e M -> wlt zero (lam (ewt e)) = true) ->
    clusters_from_spanning_tree lam LA A garbage by_parent st M = Ok (ls, ps, T) ->
    large_clusters (Sz := NatSize) n (fun _ => 1) (min_cluster_size st) ls /\ numbered n ls.
  Proof.
    intros HK HR HM Hn Hf ER. destruct (linkage_plain n M HM) as (L & EL & HL). unfold clusters_from_spanning_tree in ER. rewrite EL in ER. cbn [bind] in ER.
    rewrite (facts_length n M HM) in ER. eapply (res_sizes lam LA A garbage by_parent st n _ M L); eauto.
    intros x _. pose proof (us_size _ _ (so_usable _ _ _ _ _ HK)) as H. apply slt_true in H. auto.
  Qed.

  Lemma weighted_sizes {Sz : SOrd} A garbage by_parent (st : settings V Sz) n M ws ls ps T :
    setting_ok lam LA A by_parent st -> root_ok st -> spanning_tree n M -> 2 <= n -> (forall e, In e M -> wlt zero (lam (ewt e)) = true) ->
    length ws = n -> sle (s := Sz) szero sone = true ->
    (forall w, In w ws -> sle szero w = true /\ slt w (min_cluster_size st) = true) ->
    clusters_from_spanning_tree_weighted lam LA A garbage by_parent st M ws = Ok (ls, ps, T) ->
    large_clusters n (fun x => nth x ws szero) (min_cluster_size st) ls /\ numbered n ls.
  Proof.
    intros HK HR HM Hn Hf Hw Hs Hm ER. destruct (linkage_weighted n M ws HM Hw) as (L & EL & HL). unfold clusters_from_spanning_tree_weighted in ER. rewrite EL in ER. cbn [bind] in ER.
    rewrite (facts_length n M HM) in ER. eapply (res_sizes lam LA A garbage by_parent st n _ M L); eauto.
    - intros x Hx. apply slt_true. apply Hm. apply nth_In. lia.
    - intros x Hx. apply Hm. apply nth_In. lia.
  Qed.

  Lemma plain_together A garbage by_parent (st : settings V NatSize) n M Z N P ls ps T :
    setting_ok lam LA A by_parent st -> ScoreLaws lam A zero Z N P -> cluster_selection_persistence st = None ->
    spanning_tree n M -> 2 <= n ->
    clusters_from_spanning_tree lam LA A garbage by_parent st M = Ok (ls, ps, T) ->
    forall x y, x < n -> y < n -> nth x ls 0%Z <> (-1)%Z -> nth x ls 0%Z = nth y ls 0%Z ->
    connected (passing (fun w => wlt zero (lam w)) M) x y.
  Proof.
    intros HK HS Hp HM Hn ER. destruct (linkage_plain n M HM) as (L & EL & HL). unfold clusters_from_spanning_tree in ER. rewrite EL in ER. cbn [bind] in ER.
    rewrite (facts_length n M HM) in ER. eapply (res_together lam LA A garbage by_parent st n _ M L); eauto.
    intros x _. pose proof (us_size _ _ (so_usable _ _ _ _ _ HK)) as H. apply slt_true in H. auto.
  Qed.

  Lemma weighted_together {Sz : SOrd} A garbage by_parent (st : settings V Sz) n M ws Z N P ls ps T :
    setting_ok lam LA A by_parent st -> ScoreLaws lam A zero Z N P -> cluster_selection_persistence st = None ->
    spanning_tree n M -> 2 <= n -> length ws = n -> sle (s := Sz) szero sone = true ->
    (forall w, In w ws -> slt w (min_cluster_size st) = true) ->
    clusters_from_spanning_tree_weighted lam LA A garbage by_parent st M ws = Ok (ls, ps, T) ->
    forall x y, x < n -> y < n -> nth x ls 0%Z <> (-1)%Z -> nth x ls 0%Z = nth y ls 0%Z ->
    connected (passing (fun w => wlt zero (lam w)) M) x y.
  Proof.
    intros HK HS Hp HM Hn Hw Hs Hm ER. destruct (linkage_weighted n M ws HM Hw) as (L & EL & HL). unfold clusters_from_spanning_tree_weighted in ER. rewrite EL in ER. cbn [bind] in ER.
    rewrite (facts_length n M HM) in ER. eapply (res_together lam LA A garbage by_parent st n _ M L); eauto.
    intros x Hx. apply slt_true. apply Hm. apply nth_In. lia.
  Qed.

  Lemma plain_cannot_link A garbage by_parent (st : settings V NatSize) n CL E M Z N P ls ps T :
    setting_ok lam LA A by_parent st -> ScoreLaws lam A zero Z N P -> cluster_selection_persistence st = None ->
    wlt zero (lam winf) = false -> bridged_result n CL E M -> 2 <= n ->
    clusters_from_spanning_tree lam LA A garbage by_parent st M = Ok (ls, ps, T) ->
    forall x y, x < n -> y < n -> CL x y -> nth x ls 0%Z = nth y ls 0%Z -> nth x ls 0%Z = (-1)%Z.
  Proof.
    intros HK HS Hp Hi HB Hn ER x y Hx Hy Hxy E'. destruct (Z.eq_dec (nth x ls 0%Z) (-1)) as [|Hl]; auto. exfalso.
    apply (bridged_apart lam zero n CL E M Hi HB x y Hxy). pose proof HB as (F & B & _ & _ & HM & _).
    eapply plain_together; eauto.
  Qed.

  Lemma weighted_cannot_link {Sz : SOrd} A garbage by_parent (st : settings V Sz) n CL E M ws Z N P ls ps T :
    setting_ok lam LA A by_parent st -> ScoreLaws lam A zero Z N P -> cluster_selection_persistence st = None ->
    wlt zero (lam winf) = false -> bridged_result n CL E M -> 2 <= n -> length ws = n -> sle (s := Sz) szero sone = true ->
    (forall w, In w ws -> slt w (min_cluster_size st) = true) ->
    clusters_from_spanning_tree_weighted lam LA A garbage by_parent st M ws = Ok (ls, ps, T) ->
    forall x y, x < n -> y < n -> CL x y -> nth x ls 0%Z = nth y ls 0%Z -> nth x ls 0%Z = (-1)%Z.
  Proof.
    intros HK HS Hp Hi HB Hn Hw Hs Hm ER x y Hx Hy Hxy E'. destruct (Z.eq_dec (nth x ls 0%Z) (-1)) as [|Hl]; auto. exfalso.
    apply (bridged_apart lam zero n CL E M Hi HB x y Hxy). pose proof HB as (F & B & _ & _ & HM & _).
    eapply weighted_together; eauto.
  Qed.
End General.

(** ** Exact arithmetic *)
Lemma Qcinv_invol (q : Qc) : q <> 0%Qc -> (/ / q)%Qc = q.
Proof. intro H. field. split; auto. discriminate. Qed.

Lemma exact_usable {Sz : SOrd} (mcs : Sz) m a e p : slt sone mcs = true -> usable (Some 0%Qc : QInf) (exact_settings mcs m a e p).
Proof.
  intro Hm. constructor; cbn [min_cluster_size max_cluster_size cluster_selection_epsilon cluster_selection_persistence exact_settings]; auto.
  - intros lt_eps inv. destruct (Qcleb e 0) eqn:Ee; [discriminate|]. intro H. injection H as <- <-. apply Qcleb_gt in Ee. split.
    + apply exact_lt_eps_mono.
    + intros [l|]; unfold exact_lt_eps; [|split; [apply qinf_top|reflexivity]].
      destruct (Qcleb l 0) eqn:El; [discriminate|]. apply Qcleb_gt in El. intro H. apply negb_true_iff in H. apply Qcleb_gt in H. split.
      * apply Qcleb_le. rewrite <- (Qcinv_invol l) by (intro E0; rewrite E0 in El; apply (Qclt_not_eq _ _ El); auto).
        apply Qcinv_anti; [|apply Qclt_le_weak; auto]. apply Qcinv_pos; auto.
      * unfold wlt. apply negb_true_iff. apply Qcleb_gt. auto.
  - intros persists. destruct (Qcleb p 0); [discriminate|]. intro H. injection H as <-. apply exact_persists_mono.
Qed.

Lemma exact_nonneg (w : QInf) : wle (Some 0%Qc : QInf) (hdbscan_lambda_value w) = true.
Proof.
  destruct w as [d|]; cbn [hdbscan_lambda_value]; [|reflexivity]. destruct (Qcleb d 0) eqn:E; [apply qinf_top|].
  apply Qcleb_gt in E. apply Qcleb_le. apply Qclt_le_weak, Qcinv_pos; auto.
Qed.

Lemma exact_positive (w : QInf) : wfinite w = true -> wlt (Some 0%Qc : QInf) (hdbscan_lambda_value w) = true.
Proof.
  destruct w as [d|]; [intros _|intro H; unfold wfinite, wlt in H; rewrite wle_refl in H; discriminate]. cbn [hdbscan_lambda_value]. destruct (Qcleb d 0) eqn:E; [reflexivity|].
  apply Qcleb_gt in E. unfold wlt. apply negb_true_iff. apply Qcleb_gt. apply Qcinv_pos; auto.
Qed.

Lemma exact_ok {Sz : SOrd} to_q by_parent (mcs : Sz) m a e p : sorts_by_parent by_parent -> slt sone mcs = true ->
  setting_ok hdbscan_lambda_value ExactLam (ExactArith Sz to_q) by_parent (exact_settings mcs m a e p).
Proof.
  intros HB Hm. constructor; auto.
  - apply exact_usable; auto.
  - apply exact_lam_laws.
  - apply hdbscan_lambda_antitone.
  - apply exact_nonneg.
Qed.

Lemma nat_mcs (mcs : nat) : 2 <= mcs -> slt (S := NatSize) sone mcs = true.
Proof. intro H. apply slt_true. exact (proj2 (Nat.leb_gt mcs 1) H). Qed.

Section ExactRuns.
  Variables (garbage : nat -> QInf).

  Lemma exact_total by_parent mcs m a e p n M :
    sorts_by_parent by_parent -> 2 <= mcs -> spanning_tree n M -> 2 <= n ->
    completes ExactLam (exact_settings (Sz := NatSize) mcs m a e p) n (fun _ => 1)
      (exact_clusters garbage by_parent (exact_settings (Sz := NatSize) mcs m a e p) M).
  Proof.
    intros HB Hm HM Hn. apply plain_total; auto. apply exact_ok; auto. apply nat_mcs; auto.
  Qed.

  Lemma exact_total_weighted by_parent mcs m a e p n M ws :
    sorts_by_parent by_parent -> (1 < mcs)%Qc -> spanning_tree n M -> 2 <= n -> length ws = n -> (forall w, In w ws -> (w < mcs)%Qc) ->
    completes ExactLam (exact_settings (Sz := QcSize) mcs m a e p) n (fun x => nth x ws 0%Qc)
      (exact_clusters_weighted garbage by_parent (exact_settings (Sz := QcSize) mcs m a e p) M ws).
  Proof.
    intros HB Hm HM Hn Hw Hws. apply @weighted_total; auto.
    - apply exact_ok; auto. apply slt_true. apply Qcleb_gt. auto.
    - intros w Hi. apply slt_true. apply Qcleb_gt. apply Hws; auto.
  Qed.

  Lemma exact_no_persistence {Sz : SOrd} (mcs : Sz) m a e p : (p <= 0)%Qc -> cluster_selection_persistence (exact_settings mcs m a e p) = None.
  Proof. intro H. cbn. apply Qcleb_le in H. rewrite H. auto. Qed.

  Lemma exact_run by_parent mcs m a e p n M :
    sorts_by_parent by_parent -> 2 <= mcs -> spanning_tree n M -> 2 <= n -> (p <= 0)%Qc ->
    exists ls ps T, exact_clusters garbage by_parent (exact_settings (Sz := NatSize) mcs m a e p) M = Ok (ls, ps, T) /\
      clustering (V := QInf) (Some 0%Qc) (Some 1%Qc) n ls ps.
  Proof.
    intros HB Hm HM Hn Hp. destruct (exact_total by_parent mcs m a e p n M HB Hm HM Hn) as [(ls & ps & T & H1 & H2 & _)|[H _]].
    - exists ls, ps, T. auto.
    - exfalso. apply H. apply exact_no_persistence. auto.
  Qed.

  Lemma exact_sizes by_parent mcs m a e p n M ls ps T :
    sorts_by_parent by_parent -> 2 <= mcs -> spanning_tree n M -> 2 <= n -> (forall x, In x M -> wfinite (ewt x) = true) ->
    (a = true -> m = Eom -> (e <= 0)%Qc /\ (p <= 0)%Qc) ->
    exact_clusters garbage by_parent (exact_settings (Sz := NatSize) mcs m a e p) M = Ok (ls, ps, T) ->
    numbered n ls /\
    forall x, x < n -> nth x ls 0%Z <> (-1)%Z ->
      exists ys, NoDup ys /\ (forall y, In y ys <-> y < n /\ nth y ls 0%Z = nth x ls 0%Z) /\ mcs <= length ys.
  Proof.
    intros HB Hm HM Hn Hf HR ER.
    destruct (plain_sizes hdbscan_lambda_value ExactLam (ExactArith NatSize nat_as_q) garbage by_parent (exact_settings (Sz := NatSize) mcs m a e p) n M ls ps T) as [H1 H2]; auto.
    - apply exact_ok; auto. apply nat_mcs; auto.
    - intros Ha Hme. cbn in Ha, Hme. destruct (HR Ha Hme) as [He Hp]. apply Qcleb_le in He. apply Qcleb_le in Hp. cbn. rewrite He, Hp. auto.
    - intros x Hx. apply exact_positive; auto.
    - split; auto. intros x Hx Hl. destruct (H1 x Hx Hl) as (ys & H3 & H4 & H5). exists ys. split; auto. split; auto.
      rewrite ssum_ones in H5. apply Nat.leb_le. auto.
  Qed.

  Lemma exact_sizes_weighted by_parent mcs m a e p n M ws ls ps T :
    sorts_by_parent by_parent -> (1 < mcs)%Qc -> spanning_tree n M -> 2 <= n -> (forall x, In x M -> wfinite (ewt x) = true) ->
    length ws = n -> (forall w, In w ws -> (0 <= w /\ w < mcs)%Qc) ->
    (a = true -> m = Eom -> (e <= 0)%Qc /\ (p <= 0)%Qc) ->
    exact_clusters_weighted garbage by_parent (exact_settings (Sz := QcSize) mcs m a e p) M ws = Ok (ls, ps, T) ->
    numbered n ls /\ large_clusters (Sz := QcSize) n (fun x => nth x ws 0%Qc) mcs ls.
  Proof.
    intros HB Hm HM Hn Hf Hw Hws HR ER.
    destruct (weighted_sizes hdbscan_lambda_value ExactLam (ExactArith QcSize (fun q => q)) garbage by_parent (exact_settings (Sz := QcSize) mcs m a e p) n M ws ls ps T) as [H1 H2]; auto.
    - apply exact_ok; auto. apply slt_true. apply Qcleb_gt. auto.
    - intros Ha Hme. cbn in Ha, Hme. destruct (HR Ha Hme) as [He Hp]. apply Qcleb_le in He. apply Qcleb_le in Hp. cbn. rewrite He, Hp. auto.
    - intros x Hx. apply exact_positive; auto.
    - intros w Hi. destruct (Hws w Hi) as [K1 K2]. split; [apply Qcleb_le; auto|apply slt_true; apply Qcleb_gt; auto].
  Qed.

  Lemma nat_pos (s : NatSize) : sle sone s = true -> (0 < nat_as_q s)%Qc.
  Proof.
    intro H. apply Nat.leb_le in H. unfold nat_as_q, Qclt. unfold Q2Qc, this. rewrite !Qred_correct.
    unfold inject_Z, Qlt. cbn. change (1 <= s)%nat in H. change (scar NatSize) with nat in s. lia.
  Qed.

  Lemma passing_finite (M : list (edge QInf)) x y :
    connected (passing (fun w => wlt (Some 0%Qc : QInf) (hdbscan_lambda_value w)) M) x y -> connected (passing wfinite M) x y.
  Proof.
    apply connected_incl. intros e He. apply in_passing in He as [He Hp]. apply in_passing. split; auto.
    destruct (ewt e); [reflexivity|discriminate].
  Qed.

  Lemma exact_together by_parent mcs m a e p n M ls ps T :
    sorts_by_parent by_parent -> 2 <= mcs -> spanning_tree n M -> 2 <= n -> (p <= 0)%Qc ->
    exact_clusters garbage by_parent (exact_settings (Sz := NatSize) mcs m a e p) M = Ok (ls, ps, T) ->
    forall x y, x < n -> y < n -> nth x ls 0%Z <> (-1)%Z -> nth x ls 0%Z = nth y ls 0%Z -> connected (passing wfinite M) x y.
  Proof.
    intros HB Hm HM Hn Hp ER x y Hx Hy Hl E. apply passing_finite.
    eapply (plain_together hdbscan_lambda_value ExactLam (ExactArith NatSize nat_as_q) garbage by_parent (exact_settings (Sz := NatSize) mcs m a e p)); eauto.
    - apply exact_ok; auto. apply nat_mcs; auto.
    - apply exact_laws. apply nat_pos.
    - apply exact_no_persistence; auto.
  Qed.

  Lemma exact_cannot_link by_parent mcs m a e p n CL E M :
    sorts_by_parent by_parent -> 2 <= mcs -> 2 <= n -> (p <= 0)%Qc -> bridged_result n CL E M ->
    exists ls ps T, exact_clusters garbage by_parent (exact_settings (Sz := NatSize) mcs m a e p) M = Ok (ls, ps, T) /\
      clustering (V := QInf) (Some 0%Qc) (Some 1%Qc) n ls ps /\
      forall x y, x < n -> y < n -> CL x y -> nth x ls 0%Z = nth y ls 0%Z -> nth x ls 0%Z = (-1)%Z.
  Proof.
    intros HB Hm Hn Hp HM. pose proof HM as (F & B & _ & _ & HT & _).
    destruct (exact_run by_parent mcs m a e p n M HB Hm HT Hn Hp) as (ls & ps & T & ER & HC).
    exists ls, ps, T. split; auto. split; auto.
    eapply (plain_cannot_link hdbscan_lambda_value ExactLam (ExactArith NatSize nat_as_q) garbage by_parent (exact_settings (Sz := NatSize) mcs m a e p)); eauto.
    - apply exact_ok; auto. apply nat_mcs; auto.
    - apply exact_laws. apply nat_pos.
    - apply exact_no_persistence; auto.
  Qed.

  Lemma exact_cannot_link_weighted by_parent mcs m a e p n CL E M ws :
    sorts_by_parent by_parent -> (1 < mcs)%Qc -> 2 <= n -> (p <= 0)%Qc -> bridged_result n CL E M ->
    length ws = n -> (forall w, In w ws -> (w < mcs)%Qc) ->
    exists ls ps T, exact_clusters_weighted garbage by_parent (exact_settings (Sz := QcSize) mcs m a e p) M ws = Ok (ls, ps, T) /\
      clustering (V := QInf) (Some 0%Qc) (Some 1%Qc) n ls ps /\
      forall x y, x < n -> y < n -> CL x y -> nth x ls 0%Z = nth y ls 0%Z -> nth x ls 0%Z = (-1)%Z.
  Proof.
    intros HB Hm Hn Hp HM Hw Hws. pose proof HM as (F & B & _ & _ & HT & _).
    destruct (exact_total_weighted by_parent mcs m a e p n M ws HB Hm HT Hn Hw Hws) as [(ls & ps & T & ER & HC & _)|[H _]].
    2:{ exfalso. apply H. apply exact_no_persistence. auto. }
    exists ls, ps, T. split; auto. split; auto.
    eapply (weighted_cannot_link hdbscan_lambda_value ExactLam (ExactArith QcSize (fun q => q)) garbage by_parent (exact_settings (Sz := QcSize) mcs m a e p)); eauto.
    - apply exact_ok; auto. apply slt_true. apply Qcleb_gt. auto.
    - apply exact_laws. intros s Hs. apply Qcleb_le in Hs. eapply Qclt_le_trans; [|exact Hs]. reflexivity.
    - apply exact_no_persistence; auto.
    - intros w Hi. apply slt_true. apply Qcleb_gt. apply Hws; auto.
  Qed.

  Section Entries.
    Variables (by_parent : list (crow QInf NatSize) -> list (crow QInf NatSize)) (mcs : nat) (m : selection_method) (a : bool) (e p : Qc).
    Hypothesis HB : sorts_by_parent by_parent.
    Hypothesis Hm : 2 <= mcs.
    Hypothesis Hp : (p <= 0)%Qc.
    Notation clusters := (exact_clusters garbage by_parent (exact_settings (Sz := NatSize) mcs m a e p)).

    Lemma cl_precomputed entries n ms X g :
      2 <= n -> in_range n entries -> valid_constraints n X g ->
      exists cl M nbrs core ls ps T, resolve_cl_params n X true g = Ok cl /\
        precomputed_kruskal (Some 0%Qc : QInf) entries n ms cl = Ok (M, nbrs, core) /\ clusters M = Ok (ls, ps, T) /\
        clustering (V := QInf) (Some 0%Qc) (Some 1%Qc) n ls ps /\
        forall x y, x < n -> y < n -> user_constraints (option_map sp_entries X) g x y ->
          nth x ls 0%Z = nth y ls 0%Z -> nth x ls 0%Z = (-1)%Z.
    Proof.
      intros Hn HR HV. destruct (c09_precomputed (W := QInf) (Some 0%Qc : QInf) entries n ms X g ltac:(lia) HR HV) as (cl & M & nbrs & core & E1 & E2 & _ & HM).
      destruct (exact_cannot_link by_parent mcs m a e p n _ _ M HB Hm Hn Hp HM) as (ls & ps & T & E3 & HC & H).
      exists cl, M, nbrs, core, ls, ps, T. auto.
    Qed.

    Lemma cl_brute D n ms X g :
      2 <= n -> valid_constraints n X g ->
      exists cl M nbrs core ls ps T, resolve_cl_params n X true g = Ok cl /\
        kruskal_mst_brute (Some 0%Qc : QInf) D n ms cl = Ok (M, nbrs, core) /\ clusters M = Ok (ls, ps, T) /\
        clustering (V := QInf) (Some 0%Qc) (Some 1%Qc) n ls ps /\
        forall x y, x < n -> y < n -> user_constraints (option_map sp_entries X) g x y ->
          nth x ls 0%Z = nth y ls 0%Z -> nth x ls 0%Z = (-1)%Z.
    Proof.
      intros Hn HV. destruct (c09_brute (W := QInf) (Some 0%Qc : QInf) D n ms X g ltac:(lia) HV) as (cl & M & nbrs & core & E1 & E2 & HM).
      destruct (exact_cannot_link by_parent mcs m a e p n _ _ M HB Hm Hn Hp HM) as (ls & ps & T & E3 & HC & H).
      exists cl, M, nbrs, core, ls, ps, T. auto.
    Qed.

    Lemma cl_knn query ms knn_k X g n :
      let k := if 1 <? ms then Nat.max knn_k ms + 1 else knn_k + 1 in
      2 <= n -> length (query k) = n ->
      (forall row j d, In row (query k) -> In (Some j, d) row -> j < n) ->
      valid_constraints n X g ->
      exists cl M nbrs core ls ps T, resolve_cl_params n X true g = Ok cl /\
        kruskal_mst_knn (Some 0%Qc : QInf) query ms knn_k cl = Ok (M, nbrs, core) /\ clusters M = Ok (ls, ps, T) /\
        clustering (V := QInf) (Some 0%Qc) (Some 1%Qc) n ls ps /\
        forall x y, x < n -> y < n -> user_constraints (option_map sp_entries X) g x y ->
          nth x ls 0%Z = nth y ls 0%Z -> nth x ls 0%Z = (-1)%Z.
    Proof.
      intros k Hn HL Hr HV. destruct (c09_knn (W := QInf) (Some 0%Qc : QInf) query ms knn_k X g n ltac:(lia) HL Hr HV) as (cl & M & nbrs & core & E1 & E2 & HM).
      destruct (exact_cannot_link by_parent mcs m a e p n _ _ M HB Hm Hn Hp HM) as (ls & ps & T & E3 & HC & H).
      exists cl, M, nbrs, core, ls, ps, T. auto.
    Qed.
  End Entries.
End ExactRuns.

(** ** With a persistence threshold *)
Definition ex_q (z : Z) : QInf := Some (Q2Qc (inject_Z z)).
Definition ex_entries : list (edge QInf) := [(0, 1, ex_q 1); (2, 3, ex_q 10); (4, 5, ex_q 1); (1, 2, ex_q 2)].
Definition ex_pairs := {| sp_rows := 6; sp_cols := 6; sp_entries := [(0, 2, 1%Z)] |}.
Definition ex_labels (p : Qc) : option (list Z) :=
  match resolve_cl_params 6 (Some ex_pairs) true None with
  | Err _ => None
  | Ok cl => match precomputed_kruskal (Some 0%Qc : QInf) ex_entries 6 1 cl with
    | Err _ => None
    | Ok (M, _, _) => match exact_clusters (fun _ => None) by_parent_of (exact_settings (Sz := NatSize) 2 Eom false 0%Qc p) M with
      | Err _ => None
      | Ok (ls, _, _) => Some ls
      end
    end
  end.

Lemma ex_sorts : sorts_by_parent (V := QInf) (Sz := NatSize) by_parent_of.
Proof. intro ct. split; [apply by_parent_perm|apply by_parent_sorted]. Qed.

Lemma ex_range : in_range 6 ex_entries.
Proof. intros e H. simpl in H. repeat destruct H as [<-|H]; try tauto; unfold esrc, edst; simpl; repeat constructor. Qed.
Lemma ex_valid : valid_constraints 6 (Some ex_pairs) None.
Proof.
  cbn. split; auto. split; auto. split.
  - intros e [<-|[]]. unfold esrc, edst; simpl; repeat constructor.
  - intros e [<-|[]]. cbn. discriminate.
Qed.

Lemma persistence_refuted :
  exists entries X cl M nbrs core ls ps T x y,
    in_range 6 entries /\ valid_constraints 6 (Some X) None /\
    resolve_cl_params 6 (Some X) true None = Ok cl /\
    precomputed_kruskal (Some 0%Qc : QInf) entries 6 1 cl = Ok (M, nbrs, core) /\
    exact_clusters (fun _ => None) by_parent_of (exact_settings (Sz := NatSize) 2 Eom false 0%Qc (Q2Qc (1 # 2))) M = Ok (ls, ps, T) /\
    user_constraints (Some (sp_entries X)) None x y /\
    nth x ls 0%Z = nth y ls 0%Z /\ nth x ls 0%Z <> (-1)%Z.
Proof.
  assert (H : ex_labels (Q2Qc (1 # 2)) = Some [0; 0; 0; 0; 1; 1]%Z) by (vm_compute; reflexivity).
  unfold ex_labels in H. destruct (resolve_cl_params 6 (Some ex_pairs) true None) as [cl|] eqn:E1; [|discriminate].
  destruct (precomputed_kruskal _ ex_entries 6 1 cl) as [[[M nbrs] core]|] eqn:E2; [|discriminate].
  destruct (exact_clusters _ by_parent_of _ M) as [[[ls ps] T]|] eqn:E3; [|discriminate]. injection H as ->.
  exists ex_entries, ex_pairs, cl, M, nbrs, core, [0; 0; 0; 0; 1; 1]%Z, ps, T, 0, 2.
  split; [exact ex_range|]. split; [exact ex_valid|]. split; auto. split; auto. split; auto.
  split; [|split; [reflexivity|discriminate]]. split; [discriminate|]. exists 1%Z. split; [discriminate|]. left. left. reflexivity.
Qed.
