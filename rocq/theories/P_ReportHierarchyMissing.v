(** The hierarchies reported for data with missing rows, and for branches. *)
From Coq Require Import List Arith Lia Bool ZArith Permutation Sorted.
From Verif Require Import Prelude Order Graph Size Num P_Sort S_Kruskal M_Kruskal M_Precomputed M_Linkage S_Linkage M_Condense S_Condense M_Select M_Labels M_Pipeline S_Pipeline M_Estimator S_Estimator
  M_Layers M_LayerTree M_CoreGraph S_CoreGraph S_LayerTree M_SubClusters S_SubClusters M_LensGraph M_Detector S_Detector M_Report M_ReportTrees
  P_PipelineEx P_Estimator P_SubTop P_Detector P_DetectorTop P_ReportTop P_ReportHierarchy.
Import ListNotations.
Local Open Scope nat_scope.

Lemma hierarchies_missing {W V : WOrd} {Row : Type} (lam : W -> V) (LA : LamArith V) (garbage : nat -> V) (mst_of : list Row -> res (list (edge W)))
    (ok : Row -> bool) (set_list : list nat -> list nat) (X : list Row) :
  (forall l, Permutation (set_list l) l) -> forallb ok X = false -> 3 <= length (filter ok X) ->
  forall (round : W -> W) (sort_row : list (nat * W) -> list (nat * W)) (average : V -> V -> V) (one : V) (no_lens : W)
    (cluster_of : list (edge W) -> res (list Z * list V))
    (propagate : joined V W * list (list nat * sub_result W V) -> res ((nat -> Z) * (nat -> Z)))
    (A : Arith V NatSize) by_parent (st sub : settings V NatSize) M r0 r pos,
  setting_ok lam LA A by_parent st -> mst_of (filter ok X) = Ok M -> spanning_tree (length (filter ok X)) M ->
  (forall e, In e M -> wlt (la_zero LA) (lam (ewt e)) = true) ->
  let run := fast_hdbscan lam LA garbage mst_of A by_parent st in
  run (filter ok X) = Ok r0 -> fit (la_zero LA) ok set_list run X = Ok r -> places ok X pos ->
  forall neighbors lens lens0 flag d0,
  picked_lens (length X) (length (filter ok X)) pos lens lens0 ->
  let detect := detect (Sz := NatSize) round sort_row average (la_zero LA) one no_lens cluster_of propagate in
  detect flag (filter ok X) (f_condensed r0) (f_labels r0) (f_probabilities r0) neighbors (f_mst r0) lens0 = Ok d0 ->
  exists d, detect flag X (f_condensed r) (f_labels r) (f_probabilities r) neighbors (f_mst r) lens = Ok d /\
    d_points d = map (map pos) (d_points d0) /\ spanning_trees d = spanning_trees d0 /\ linkage_trees d = linkage_trees d0 /\
    condensed_trees lam garbage sub d = condensed_trees lam garbage sub d0.
Proof.
  intros Hset Hs H3 round sort_row average one no_lens cluster_of propagate A by_parent st sub M r0 r pos HK EM HM Hpos run E0 E HP neighbors lens lens0 flag d0 HLe det ED.
  destruct (fit_picked _ ok set_list run X r0 r pos Hs E0 E HP) as [P1 P2].
  assert (H2 : 2 <= length (filter ok X)) by lia.
  destruct (fast_positive lam LA garbage mst_of A by_parent st _ M r0 HK H2 EM HM Hpos E0) as [EM0 HQ].
  pose proof (fit_detect round sort_row average (la_zero LA) one no_lens cluster_of propagate ok set_list run X r0 r pos Hset Hs E0 E HQ HP
                (f_labels r) (f_labels r0) (f_probabilities r) (f_probabilities r0) neighbors lens lens0 flag P1 P2 HLe) as HD.
  unfold det in ED. rewrite ED in HD. destruct HD as (d & Ed & Hd). exists d. split; [exact Ed|]. split; [apply (sp_points _ _ _ _ _ _ _ _ Hd)|].
  unfold spanning_trees, linkage_trees, condensed_trees. now rewrite (sp_parts _ _ _ _ _ _ _ _ Hd).
Qed.

Lemma hierarchies_branches {W V : WOrd} (lam : W -> V) (garbage : nat -> V) (sub : settings V NatSize) zero sides (d b : detected W V) :
  branch_fit zero sides d = Ok b ->
  d_points b = d_points d /\ spanning_trees b = spanning_trees d /\ linkage_trees b = linkage_trees d /\ condensed_trees lam garbage sub b = condensed_trees lam garbage sub d.
Proof.
  unfold branch_fit. destruct (apply_branch_threshold _ _ _ _) as [x|]; [|discriminate]. cbn [bind]. intro E. try destruct x. injection E as <-. now unfold spanning_trees, linkage_trees, condensed_trees.
Qed.
