(** C54 and C55: the result is determined, and does not depend on units. *)
From Coq Require Import List Arith Lia Bool ZArith Permutation Sorted QArith Qcanon.
From Verif Require Import Prelude Order Graph Size Num P_Sort S_Kruskal S_Precomputed M_Kruskal M_KruskalEntry M_Precomputed P_PrecomputedTop M_Linkage S_Linkage M_Condense S_Condense
  M_Select M_Labels S_Labels M_Epsilon M_Simplify M_Pipeline S_Pipeline P_EpsilonTop P_Pipeline P_PipelineTop P_PipelineRun P_PipelineEx
  M_BCubed S_BCubed P_BCScore P_Semi S_Equi P_Equi P_Determined P_Scale P_KruskalMap P_WeightsBoruvka.
Import ListNotations.
Local Open Scope nat_scope.

(** ** C54 *)
Section Determined.
  Context {W V : WOrd} (lam : W -> V) (LA : LamArith V).

  Lemma plain_same A g1 g2 by1 by2 (st : settings V NatSize) n M : setting_ok lam LA A by1 st -> sorts_by_parent by2 -> spanning_tree n M -> 2 <= n ->
    clusters_from_spanning_tree lam LA A g1 by1 st M = clusters_from_spanning_tree lam LA A g2 by2 st M.
  Proof.
    intros [H1 H2 H3 H4 H5 H6] HB HM Hn. destruct (linkage_plain n M HM) as (L & EL & (L1 & L2 & L3 & _)). unfold clusters_from_spanning_tree. rewrite EL. cbn [bind].
    rewrite (facts_length n M HM). rewrite !plain_run.
    apply (run_same lam LA (plain_sel A st n) g1 g2 by1 by2 st n (fun _ => 1) L H2 H1 H3 HB (plain_selects LA A st n _ H1 H4 Hn)); auto.
    intros x _. pose proof (us_size _ _ H1) as H. apply slt_true in H. auto.
  Qed.

  Lemma weighted_same {Sz : SOrd} A g1 g2 by1 by2 (st : settings V Sz) n M ws : setting_ok lam LA A by1 st -> sorts_by_parent by2 -> spanning_tree n M -> 2 <= n ->
    length ws = n -> sle (s := Sz) szero sone = true -> (forall w, In w ws -> slt w (min_cluster_size st) = true) ->
    clusters_from_spanning_tree_weighted lam LA A g1 by1 st M ws = clusters_from_spanning_tree_weighted lam LA A g2 by2 st M ws.
  Proof.
    intros [H1 H2 H3 H4 H5 H6] HB HM Hn Hw Hs Hm. destruct (linkage_weighted n M ws HM Hw) as (L & EL & (L1 & L2 & L3 & _)). unfold clusters_from_spanning_tree_weighted. rewrite EL. cbn [bind].
    rewrite (facts_length n M HM). rewrite !plain_run.
    apply (run_same lam LA (plain_sel A st n) g1 g2 by1 by2 st n _ L H2 H1 H3 HB (plain_selects LA A st n _ H1 H4 Hn)); auto.
    intros x Hx. apply slt_true. apply Hm. apply nth_In. lia.
  Qed.

  Lemma semi_same A B NN g1 g2 by1 by2 listed (st : settings V NatSize) labels virtual n M : setting_ok lam LA A by1 st -> sorts_by_parent by2 ->
    BLaws B NN -> (forall l, Permutation (listed l) l) -> length labels = n -> leaves_ok A (la_zero LA) n (fun _ => 1) (min_cluster_size st) -> spanning_tree n M -> 2 <= n ->
    semi_clusters_from_spanning_tree lam LA A B g1 by1 listed st labels virtual M = semi_clusters_from_spanning_tree lam LA A B g2 by2 listed st labels virtual M.
  Proof.
    intros HK HB HBL Hl Hlen Hlv HM Hn. destruct (linkage_plain n M HM) as (L & EL & (L1 & L2 & L3 & HL)). unfold semi_clusters_from_spanning_tree. rewrite EL. cbn [bind].
    rewrite (facts_length n M HM). rewrite !semi_run. pose proof HK as [H1 H2 H3 H4 H5 H6].
    apply (run_same lam LA _ g1 g2 by1 by2 st n (fun _ => 1) L H2 H1 H3 HB); auto.
    - intros T. eapply semi_selects; eauto.
    - intros x _. pose proof (us_size _ _ H1) as H. apply slt_true in H. auto.
  Qed.
End Determined.

(** ** C55 *)
Section Units.
  Variable c : Qc.
  Hypothesis Hc : (0 < c)%Qc.
  Notation c' := (/ c)%Qc.

  Lemma linkage_scale M : mst_to_linkage_tree (sort_mst (map (map_edge (scale c)) M)) = map_ok (map (map_lrow (scale c))) (mst_to_linkage_tree (sort_mst M)).
  Proof.
    rewrite (sort_mst_map (W := QInf) (W' := QInf) (scale c) (scale_le c Hc)). apply rel_map. unfold mst_to_linkage_tree. rewrite map_length. apply linkage_loop_map.
  Qed.
  Lemma linkage_scale_weighted {Sz : SOrd} M (ws : list Sz) :
    mst_to_linkage_tree_w_sample_weights (sort_mst (map (map_edge (scale c)) M)) ws = map_ok (map (map_lrow (scale c))) (mst_to_linkage_tree_w_sample_weights (sort_mst M) ws).
  Proof.
    rewrite (sort_mst_map (W := QInf) (W' := QInf) (scale c) (scale_le c Hc)). apply rel_map. unfold mst_to_linkage_tree_w_sample_weights. apply linkage_loop_map.
  Qed.
  Lemma spanning_scale n M : spanning_tree n M -> spanning_tree n (map (map_edge (scale c)) M).
  Proof. apply reweigh_tree. Qed.

  Lemma plain_scale g g' by1 by2 mcs m a e p n M : sorts_by_parent by1 -> sorts_by_parent by2 -> 2 <= mcs -> spanning_tree n M -> 2 <= n ->
    exact_clusters g' by2 (exact_settings (Sz := NatSize) mcs m a (c * e)%Qc (c' * p)%Qc) (map (map_edge (scale c)) M) =
    map_ok (map_run (scale c') (fun v => v)) (exact_clusters g by1 (exact_settings (Sz := NatSize) mcs m a e p) M).
  Proof.
    intros H1 H2 Hm HM Hn. unfold exact_clusters.
    rewrite (plain_same (W := QInf) (V := QInf) _ _ _ g' (fun i => scale c' (g i)) by2 stable_by _ n _ (exact_ok _ _ _ _ _ _ _ H2 (nat_mcs _ Hm)) stable_sorts (spanning_scale n M HM) Hn).
    rewrite (plain_same (W := QInf) (V := QInf) _ _ _ g g by1 stable_by _ n _ (exact_ok _ _ _ _ _ _ _ H1 (nat_mcs _ Hm)) stable_sorts HM Hn).
    unfold clusters_from_spanning_tree. rewrite linkage_scale. destruct (mst_to_linkage_tree (sort_mst M)) as [L|]; [|reflexivity]. cbn [map_ok bind]. rewrite map_length.
    apply (tree_scale c Hc).
  Qed.

  Lemma weighted_scale {Sz : SOrd} (to_q : Sz -> Qc) g g' by1 by2 (mcs : Sz) m a e p n M ws : sorts_by_parent by1 -> sorts_by_parent by2 -> slt sone mcs = true -> spanning_tree n M -> 2 <= n ->
    length ws = n -> sle (s := Sz) szero sone = true -> (forall w, In w ws -> slt w mcs = true) ->
    clusters_from_spanning_tree_weighted hdbscan_lambda_value ExactLam (ExactArith Sz to_q) g' by2 (exact_settings mcs m a (c * e)%Qc (c' * p)%Qc) (map (map_edge (scale c)) M) ws =
    map_ok (map_run (scale c') (fun v => v))
      (clusters_from_spanning_tree_weighted hdbscan_lambda_value ExactLam (ExactArith Sz to_q) g by1 (exact_settings mcs m a e p) M ws).
  Proof.
    intros H1 H2 Hm HM Hn Hw Hs Hws.
    rewrite (weighted_same (W := QInf) (V := QInf) _ _ _ g' (fun i => scale c' (g i)) by2 stable_by _ n _ ws (exact_ok _ _ _ _ _ _ _ H2 Hm) stable_sorts (spanning_scale n M HM) Hn Hw Hs Hws).
    rewrite (weighted_same (W := QInf) (V := QInf) _ _ _ g g by1 stable_by _ n _ ws (exact_ok _ _ _ _ _ _ _ H1 Hm) stable_sorts HM Hn Hw Hs Hws).
    unfold clusters_from_spanning_tree_weighted. rewrite linkage_scale_weighted. destruct (mst_to_linkage_tree_w_sample_weights (sort_mst M) ws) as [L|]; [|reflexivity].
    cbn [map_ok bind]. rewrite map_length. apply (tree_scale c Hc).
  Qed.

  (** The complete run, from distances. *)
  Lemma brute_scale D n ms X gr g g' by1 by2 mcs m a e p : sorts_by_parent by1 -> sorts_by_parent by2 -> 2 <= mcs -> 2 <= n -> valid_constraints n X gr ->
    exists cl M M' nbrs core, resolve_cl_params n X true gr = Ok cl /\
      kruskal_mst_brute (Some 0%Qc : QInf) D n ms cl = Ok (M, nbrs, core) /\
      kruskal_mst_brute (Some 0%Qc : QInf) (fun i j => scale c (D i j)) n ms cl = Ok (M', nbrs, map (scale c) core) /\
      exact_clusters g' by2 (exact_settings (Sz := NatSize) mcs m a (c * e)%Qc (c' * p)%Qc) M' =
      map_ok (map_run (scale c') (fun v => v)) (exact_clusters g by1 (exact_settings (Sz := NatSize) mcs m a e p) M).
  Proof.
    intros H1 H2 Hm Hn HV. destruct (c09_brute (W := QInf) (Some 0%Qc : QInf) D n ms X gr ltac:(lia) HV) as (cl & M & nbrs & core & Ec & E & HM).
    destruct HM as (_ & _ & _ & _ & HM & _). exists cl, M, (map (map_edge (scale c)) M), nbrs, core. split; auto. split; auto. split; [|now apply (plain_scale g g' by1 by2 mcs m a e p n)].
    rewrite <- (scale_zero c) at 1. rewrite (kruskal_brute_map (W := QInf) (W' := QInf) (scale c) (scale_le c Hc) eq_refl), E. reflexivity.
  Qed.

  Lemma cut_scale {Sz} (L : list (lrow QInf Sz)) eps m : get_cluster_labelling_at_cut (map (map_lrow (scale c)) L) (scale c eps) m = get_cluster_labelling_at_cut L eps m.
  Proof. apply (cut_map (W := QInf) (W' := QInf) (scale c) (scale_le c Hc)). Qed.
End Units.
