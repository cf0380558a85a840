(** When a persistence threshold makes a run fail: exactly when no cluster splits. *)
From Coq Require Import List Arith Lia Bool ZArith Permutation Sorted QArith Qcanon.
From Verif Require Import Prelude Order Graph Size Num S_Kruskal M_Kruskal
  M_Linkage S_Linkage M_Condense S_Condense P_CondenseTop M_Select S_Select P_CTree M_Labels S_Labels
  M_Epsilon P_EpsilonTop M_Simplify P_SimplifyTop M_Pipeline S_Pipeline P_Pipeline P_PipelineTop P_PipelineRun P_PipelineEx.
Import ListNotations.
Local Open Scope nat_scope.

Section Unsplit.
  Context {W V : WOrd} {Sz : SOrd}.
  Variables (lam : W -> V) (LA : LamArith V) (A : Arith V Sz) (garbage : nat -> V)
    (by_parent : list (crow V Sz) -> list (crow V Sz)) (st st0 : settings V Sz).
  Variables (n : nat) (wt : nat -> Sz) (M : list (edge W)) (L : list (lrow W Sz)).
  Notation mcs := (min_cluster_size st).
  Hypothesis HK : setting_ok lam LA A by_parent st.
  Hypothesis HK0 : setting_ok lam LA A by_parent st0.
  Hypothesis Hmcs : min_cluster_size st0 = mcs.
  Hypothesis Hnone : cluster_selection_persistence st0 = None.
  Variable persists : V -> V -> bool.
  Hypothesis Hsome : cluster_selection_persistence st = Some persists.
  Hypothesis HL : linkage_facts n wt M L.
  Hypothesis Hn : 2 <= n.
  Hypothesis Hsz : sle (s := Sz) szero sone = true.
  Hypothesis Hwt : forall x, x < n -> sle mcs (wt x) = false.
  Notation run s := (clusters_from_linkage_tree lam LA A garbage by_parent s wt n L).

  Lemma unsplit_fails : exists ls0 ps0 T0, run st0 = Ok (ls0, ps0, T0) /\
    (cluster_rows n T0 = [] -> run st = Err IndexError) /\
    (cluster_rows n T0 <> [] -> exists ls ps T, run st = Ok (ls, ps, T) /\ clustering (la_zero LA) (la_one LA) n ls ps).
  Proof.
    assert (Hwt0 : forall x, x < n -> sle (min_cluster_size st0) (wt x) = false) by (rewrite Hmcs; auto).
    destruct (res_total lam LA A garbage by_parent st0 n wt M L HK0 HL Hn Hsz Hwt0) as [(ls0 & ps0 & T0 & E0 & _ & HT0 & HO0 & _)|[H _]]; [|congruence].
    exists ls0, ps0, T0. split; auto. rewrite Hmcs in HT0.
    pose proof (us_size _ _ (so_usable _ _ _ _ _ HK)) as Hone.
    assert (EC0 : condensed_tree_of lam garbage st0 wt L = Ok T0).
    { unfold clusters_from_linkage_tree in E0. destruct (condensed_tree_of lam garbage st0 wt L) as [T|] eqn:E; [|discriminate].
      cbn [bind] in E0. destruct (selected_clusters_of A st0 T n); [|discriminate]. cbn [bind] in E0.
      destruct (epsilon_clusters_of by_parent st0 T _); [|discriminate]. cbn [bind] in E0.
      destruct (labels_and_strengths_of LA st0 T n _) as [?|]; [|discriminate]. cbn [bind] in E0. injection E0 as _ <-. auto. }
    assert (E1 : condense_tree L lam mcs None wt = Ok T0).
    { unfold condensed_tree_of in EC0. rewrite Hnone, Hmcs in EC0.
      destruct (condense_tree L lam mcs None wt) as [T|] eqn:E; [|discriminate]. cbn [bind] in *. destruct T; congruence. }
    assert (EC : condensed_tree_of lam garbage st wt L = simplify_hierarchy persists garbage T0).
    { unfold condensed_tree_of. rewrite Hsome, E1. cbn [bind].
      destruct T0 eqn:ET0; auto. exfalso. apply (rows_nonempty n wt mcs [] HT0); auto. lia. }
    split.
    - intro Ee. unfold clusters_from_linkage_tree. rewrite EC, (c31_empty V Sz persists garbage n wt mcs T0 HT0 Hone Ee). reflexivity.
    - intro Hne. pose proof HK as [H1 H2 H3 H4 H5 H6]. pose proof HL as (L1 & L2 & L3 & _).
      destruct (linkage_cases lam LA (plain_sel A st n) garbage by_parent st n wt L H2 H1 H3 (plain_selects LA A st n wt H1 H4 Hn) Hsz Hn H5 H6 L1 L2 L3 Hwt)
        as [(T & S & E & ls & ps & _ & ER & HX & _)|(_ & _ & T' & ET & Ee)].
      + exists ls, ps, T. split; auto. apply (oc_clustering _ _ _ _ _ _ _ _ _ _ HX).
      + exfalso. rewrite E1 in ET. injection ET as <-. auto.
  Qed.
End Unsplit.

(** From the spanning tree, in exact arithmetic. *)
Lemma exact_unsplit garbage by_parent mcs m a e p n M :
  sorts_by_parent by_parent -> 2 <= mcs -> spanning_tree n M -> 2 <= n -> (0 < p)%Qc ->
  exists ls0 ps0 T0,
    exact_clusters garbage by_parent (exact_settings (Sz := NatSize) mcs m a e 0%Qc) M = Ok (ls0, ps0, T0) /\
    (cluster_rows n T0 = [] ->
      exact_clusters garbage by_parent (exact_settings (Sz := NatSize) mcs m a e p) M = Err IndexError) /\
    (cluster_rows n T0 <> [] -> exists ls ps T,
      exact_clusters garbage by_parent (exact_settings (Sz := NatSize) mcs m a e p) M = Ok (ls, ps, T) /\
      clustering (V := QInf) (Some 0%Qc) (Some 1%Qc) n ls ps).
Proof.
  intros HB Hm HM Hn Hp. destruct (linkage_plain n M HM) as (L & EL & HL).
  unfold exact_clusters, clusters_from_spanning_tree. rewrite EL. cbn [bind]. rewrite (facts_length n M HM).
  assert (Hs : slt (S := NatSize) sone mcs = true) by (apply nat_mcs; auto).
  eapply (unsplit_fails hdbscan_lambda_value ExactLam (ExactArith NatSize nat_as_q) garbage by_parent
    (exact_settings (Sz := NatSize) mcs m a e p) (exact_settings (Sz := NatSize) mcs m a e 0%Qc) n (fun _ => 1) M L); auto.
  - apply exact_ok; auto.
  - apply exact_ok; auto.
  - cbn. apply Qcleb_gt in Hp. rewrite Hp. reflexivity.
  - intros x _. apply slt_true in Hs. auto.
Qed.
