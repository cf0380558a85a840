(** Runs of PLSCAN and HDBSCAN on one spanning tree. *)
From Coq Require Import List Arith Lia Bool ZArith QArith Qcanon Sorted Permutation.
From Verif Require Import Prelude Order Graph Size Num P_Sort Forest S_Kruskal M_Kruskal M_KruskalEntry M_Linkage S_Linkage M_Condense S_Condense M_Select S_Select M_Labels S_Labels
  M_Pipeline S_Pipeline P_PipelineEx P_PipelineRun P_PipelineMeaning P_CTree P_Below P_Labels P_LabelsTop P_LabelsProps M_Layers S_Layers P_TopNodes P_LayersRun P_LayersBase
  P_LayerTreeRun S_Unique P_SplitTop P_ResizeLeaf M_Estimator S_Estimator P_Estimator P_EstimatorEx P_LevelTop P_Equi P_Check P_LabelsEx S_Resize P_ResizeTop P_EpsilonTop M_LayerTree S_LayerTree S_Equi M_Plscan S_Plscan P_Plscan S_LayerLeaf P_LayerLeaf.
Import ListNotations.
Local Open Scope nat_scope.

Section Stack.
  Context {W V V' P : WOrd} {D : Type} (LA : LamArith V) (LA' : LamArith V').
  Variables (lam : W -> V) (lam' : W -> V') (pzero : P) (accumulate : P -> nat -> nat -> D -> P) (n : nat) (M : list (edge W)) (L : list (lrow W NatSize)).
  Notation one := (fun _ : nat => (1 : NatSize)).
  Hypothesis Hn : 2 <= n.
  Hypothesis HL : linkage_of n one M L.
  Hypothesis Hfin : forall r, In r L -> wle (lam (l_d r)) (la_zero LA) = false.
  Hypothesis Hpos' : forall e, In e M -> wlt (la_zero LA') (lam' (ewt e)) = true.

  (** The labels [ls'] of any explained run with 'leaf' and [k]. *)
  Definition leaf_run (k : nat) (ls' : list Z) : Prop :=
    exists (st : settings V' NatSize) ps' T' T0' L' ch fin, min_cluster_size st = k /\ (distinct_weights M \/ L' = L) /\ explained lam' LA' st n one M ls' ps' T' L' T0' ch fin /\
      cluster_selection_method st = Leaf /\ cluster_selection_epsilon st = None /\ cluster_selection_persistence st = None.

  Lemma base_layer_same m T Sel ls ps ls' : 2 <= m -> tree_of lam n L m T -> (forall c, In c Sel <-> leaf_cluster n T c) -> right_layer LA n T Sel ls ps ->
    leaf_run m ls' -> same_partition n ls ls' \/ (cluster_rows n T = [] /\ ls' = repeat (-1)%Z n).
  Proof.
    intros Hm Ht HSi HR (st & ps' & T' & T0' & L' & ch & fin & Hk & HW & HX & H1 & H2 & H3). pose proof HL as (HD & HSz & _).
    pose proof Ht as (_ & HT & (top & F1 & F2 & F3 & F4) & _).
    pose proof (leaf_top n L one m lam T HD HSz Hn HT top F1 F2 F3 F4) as HLT.
    destruct (cluster_rows n T) as [|r0 l0] eqn:EC.
    - right. split; auto. pose proof (xp_persistence _ _ _ _ _ _ _ _ _ _ _ _ _ HX) as ET. rewrite H3 in ET.
      pose proof (xp_linkage _ _ _ _ _ _ _ _ _ _ _ _ _ HX) as HL'. pose proof (xp_condensed _ _ _ _ _ _ _ _ _ _ _ _ _ HX) as HT'. pose proof (xp_faithful _ _ _ _ _ _ _ _ _ _ _ _ _ HX) as HF'.
      rewrite <- ET, Hk in HT', HF'. apply (faithful_same n one M L L' _ lam' T' HL HL' HW Hn HT') in HF'. destruct HF' as (top' & G1 & G2 & G3 & G4).
      assert (Hl : leaf_cluster n T n).
      { split; [now left|]. intros q Hq Hge _. apply (in_nil (a := q)). rewrite <- EC. apply (in_ct n T); auto. }
      apply (HLT n (or_introl eq_refl)) in Hl. rewrite F1, <- G1 in Hl.
      apply (leaf_top n L one m lam' T' HD HSz Hn HT' top' G1 G2 G3 G4 n (or_introl eq_refl)) in Hl as [_ Hl].
      eapply no_rows_noise; eauto. destruct (cluster_rows n T') as [|r l] eqn:EC'; auto. exfalso.
      destruct (root_children n one m T' HT') as (q & Hq & Eq); [now rewrite EC'|]. apply (Hl q); auto; [eapply ct_in; eauto|]. pose proof (ct_child_in n one m T' HT' q Hq). lia.
    - left. assert (Hne : cluster_rows n T <> []) by (rewrite EC; discriminate).
      assert (Hroot : ~ In n Sel).
      { intro H. apply HSi in H as [_ H]. destruct (root_children n one m T HT Hne) as (q & Hq & Eq). apply (H q); auto; [eapply ct_in; eauto|]. pose proof (ct_child_in n one m T HT q Hq). lia. }
      eapply (layer_same LA LA' lam lam' n M L Hn HL Hfin Hpos' m m T top Sel ls ps Hm (le_n m) Ht HR Hroot F1 F2 F4); eauto.
      + intro c. rewrite HSi. split; [intro H; split; [apply H|apply HLT; auto; apply H]|intros [Hc H]; now apply HLT].
      + intros v Hv. apply (leaf_node_cluster n L one m lam T HD HSz Hn HT top F1 F2 F3 F4) in Hv as (c & Hc & E). exists c. split; auto. apply Hc.
      + intro E. destruct (ly_number _ _ _ _ _ _ HR) as [E'|[_ E']]; rewrite E in *; [discriminate|cbn in E'; lia].
  Qed.

  Lemma other_layer_same m T s Sel ls ps ls' : 2 <= m -> tree_of lam n L m T -> m <= s < n -> (forall c, In c Sel <-> is_cluster n T c /\ leaf_for n T s c) -> ~ In n Sel ->
    right_layer LA n T Sel ls ps -> leaf_run (S s) ls' -> same_partition n ls ls'.
  Proof.
    intros Hm Ht Hs HSi Hroot HR (st & ps' & T' & T0' & L' & ch & fin & Hk & HW & HX & H1 & H2 & H3). pose proof HL as (HD & HSz & _).
    pose proof Ht as (_ & HT & (top & F1 & F2 & F3 & F4) & _).
    eapply (layer_same LA LA' lam lam' n M L Hn HL Hfin Hpos' m (S s) T top Sel ls ps Hm ltac:(lia) Ht HR Hroot F1 F2 F4); eauto.
    - intro c. rewrite HSi. split; intros [Hc H]; (split; [auto|]); apply (leaf_for_top n L one m lam T HD HSz Hn HT top F1 F2 F3 F4 s c); auto.
    - intros v [Hv _]. assert (Hh : head n L one (m : NatSize) v).
      { destruct Hv as [->|(i & r & Hi & Hsp & Hc)]; [now left|]. right. exists i, r. split; auto. split; auto. apply (split_larger n L Hn m (S s)); auto. lia. }
      apply (head_cluster n L one m lam T HD HSz Hn HT top F1 F2 F3 F4) in Hh. exact Hh.
    - intro E. destruct (ly_number _ _ _ _ _ _ HR) as [E'|[_ E']]; rewrite E in *; [discriminate|cbn in E'; lia].
  Qed.

  (** Without a split there is one layer. *)
  Lemma unsplit_layers m T b threshold max_layers (base : layer V P) ys : tree_of lam n L m T -> cluster_rows n T = [] ->
    layer_stack LA pzero accumulate n T b threshold m max_layers base ys -> ys = [base].
  Proof.
    intros Ht EC (sizes & more & _ & _ & HP & HF & _). pose proof Ht as (_ & HT & _).
    assert (Hmore : more = []).
    { destruct more as [|y more]; auto. exfalso. inversion HF as [|s y' sizes' more' Hl HF' E1 E2]; subst.
      destruct Hl as [(Sel' & H1 & H2 & HR') _]. destruct (ly_number _ _ _ _ _ _ HR') as [->|[_ H3]]; [apply H2; now left|].
      destruct Sel' as [|c l]; [cbn in H3; lia|]. assert (Hc : is_cluster n T c) by (apply H1; now left).
      apply (is_cluster_iff n one m T HT) in Hc. unfold top_id in Hc. rewrite EC in Hc. cbn in Hc. assert (c = n) by lia. subst c. apply H2. now left. }
    subst more. apply Permutation_sym, Permutation_length_1_inv in HP. auto.
  Qed.

  Lemma stack_same m T Sel b threshold max_layers (base : layer V P) ys : 2 <= m -> tree_of lam n L m T -> (forall c, In c Sel <-> leaf_cluster n T c) ->
    right_layer LA n T Sel (y_labels base) (y_strengths base) -> layer_stack LA pzero accumulate n T b threshold m max_layers base ys ->
    forall y, In y ys -> exists k, m <= k /\ forall ls', leaf_run k ls' -> same_partition n (y_labels y) ls' \/ (ys = [y] /\ ls' = repeat (-1)%Z n).
  Proof.
    intros Hm Ht HSi HR Hst y Hy. destruct (stack_layers LA pzero accumulate n T b threshold m max_layers base ys Hst) as [_ HA].
    destruct (HA y Hy) as [->|(s & Sel' & Hs & H1 & H2 & H3)].
    - exists m. split; auto. intros ls' Hl. destruct (base_layer_same m T Sel _ _ ls' Hm Ht HSi HR Hl) as [|[E E']]; auto. right. split; auto. eapply unsplit_layers; eauto.
    - exists (S s). split; [lia|]. intros ls' Hl. left. eapply other_layer_same; eauto.
  Qed.
End Stack.

Section Runs.
  Context {V V' P : WOrd} {D : Type}.
  Variables (search_lam lam : QInf -> V) (LA : LamArith V) (death_of : V -> D) (dzero : D) (garbage : nat -> nat) (garbage_lambda : nat -> D)
    (pzero : P) (accumulate : P -> nat -> nat -> D -> P) (argsort : list P -> list nat) (argsort_counts argsort_labels : list Z -> list nat)
    (sort_edges : list (edge QInf) -> list (edge QInf)).
  Hypothesis Hlam : forall x y : QInf, wle x y = true -> wle (lam y) (lam x) = true.
  Hypothesis Hpos : forall x, wle (la_zero LA) (lam x) = true.
  Hypothesis HLL : LamLaws LA.
  Hypothesis Hsort : argsorts argsort.
  Hypothesis HsortZ : argsorts_Z argsort_counts.
  Hypothesis HsortL : argsorts_Z argsort_labels.
  Hypothesis Hedges : sorts_edges (W := QInf) sort_edges.
  Variables (n : nat) (M : list (edge QInf)) (core : list QInf).
  Hypothesis HM : spanning_tree n M.
  Hypothesis Hdense : forall x : Qc, wle (lam (Some x)) (la_zero LA) = false.
  Hypothesis Hfin : forall e, In e M -> ewt e <> None.
  Hypothesis HW : distinct_weights (W := QInf) M \/ sort_edges (normalised_edges core M) = normalised_edges core (sort_mst M).
  Hypothesis Hn : 2 <= n.
  Variables (lam' : QInf -> V') (LA' : LamArith V') (A : Arith V' NatSize) (garbage' : nat -> V') (by_parent : list (crow V' NatSize) -> list (crow V' NatSize)).
  Hypothesis Hdense' : forall e, In e M -> wlt (la_zero LA') (lam' (ewt e)) = true.

  Lemma linkage_tree_linkage L : linkage_tree_of (W := QInf) n M L -> linkage_of (W := QInf) n (fun _ => (1 : NatSize)) M L.
  Proof. intros (H1 & H2 & H3 & M1 & HP & H4). repeat (split; auto). exists M1. split; auto. now apply Permutation_sym. Qed.

  (** The tree of the layers is the one of the run, or there are no ties. *)
  Lemma same_use : exists f L, unit_of core f /\ linkage_tree_of (W := QInf) n M L /\
    layers_use search_lam lam LA death_of dzero garbage garbage_lambda pzero accumulate argsort argsort_counts sort_edges n M core f L /\
    (distinct_weights (W := QInf) M \/ mst_to_linkage_tree (sort_mst M) = Ok L).
  Proof.
    destruct HW as [H|H].
    - destruct (plscan_tree search_lam lam LA death_of dzero garbage garbage_lambda pzero accumulate argsort argsort_counts sort_edges Hedges n M core HM) as (f & L & H1 & H2 & H3). exists f, L. auto.
    - destruct (plscan_use search_lam lam LA death_of dzero garbage garbage_lambda pzero accumulate argsort argsort_counts sort_edges n M core (sort_mst M) (spanning_perm n _ _ (sort_mst_perm M) HM) (isort_sorted (W := QInf) _ _) (sort_mst_perm M) H)
        as (f & L & H1 & H2 & H3 & H4). exists f, L. auto.
  Qed.

  Lemma run_leaf L st ls ps T : distinct_weights (W := QInf) M \/ mst_to_linkage_tree (sort_mst M) = Ok L ->
    setting_ok lam' LA' A by_parent st -> cluster_selection_method st = Leaf -> cluster_selection_epsilon st = None -> cluster_selection_persistence st = None ->
    clusters_from_spanning_tree lam' LA' A garbage' by_parent st M = Ok (ls, ps, T) -> leaf_run LA' lam' n M L (min_cluster_size st) ls.
  Proof.
    intros HO HK H1 H2 H3 ER. destruct (linkage_plain n M HM) as (L' & EL & HL). unfold clusters_from_spanning_tree in ER. rewrite EL in ER. cbn [bind] in ER.
    rewrite (facts_length n M HM) in ER. destruct (run_explained lam' LA' A garbage' by_parent st n _ M L' HK HL Hn eq_refl) with (ls := ls) (ps := ps) (T := T) as (T0' & ch & fin & HX & _); eauto.
    { intros x _. pose proof (us_size _ _ (so_usable _ _ _ _ _ HK)) as H. apply slt_true in H. auto. }
    exists st, ps, T, T0', L', ch, fin. repeat (split; auto). destruct HO as [HO|HO]; auto. right. congruence.
  Qed.

  Lemma plscan_leaf base_m threshold max_layers ys d y : 2 <= base_m ->
    plscan_fit search_lam lam LA death_of dzero garbage garbage_lambda pzero accumulate argsort argsort_counts argsort_labels sort_edges n base_m None threshold max_layers M core = Ok (ys, d, y) ->
    forall y', In y' ys -> exists k, base_m <= k /\ forall st ls ps T, setting_ok lam' LA' A by_parent st ->
      min_cluster_size st = k -> cluster_selection_method st = Leaf -> cluster_selection_epsilon st = None -> cluster_selection_persistence st = None ->
      clusters_from_spanning_tree lam' LA' A garbage' by_parent st M = Ok (ls, ps, T) ->
      same_partition n (y_labels y') ls \/ (ys = [y'] /\ ls = repeat (-1)%Z n).
  Proof.
    intros Hm E y' Hy'.
    destruct same_use as (f & L & R1 & R2 & HU & HO).
    destruct (plscan_layers_for search_lam lam LA death_of dzero garbage garbage_lambda pzero accumulate argsort argsort_counts sort_edges Hlam Hpos HLL Hsort HsortZ n M core f L base_m threshold max_layers R1 R2 HU Hn Hm)
      as (T & Sel & b & base & ys' & K1 & R3 & R4 & R5 & R6 & R7 & R8).
    unfold plscan_fit in E. rewrite K1 in E. cbn [bind] in E. destruct (plscan_result argsort_labels ys') as [r|]; [|discriminate]. cbn [bind] in E. injection E as -> _ _.
    assert (Hd : forall r, In r L -> wle (lam (f (l_d r))) (la_zero LA) = false) by (eapply dense_rows; eauto).
    destruct (stack_same LA LA' (fun w : QInf => lam (f w)) lam' pzero accumulate n M L Hn (linkage_tree_linkage L R2) Hd Hdense' base_m T Sel b threshold max_layers base ys Hm R3 R4 R5 R8 y' Hy') as (k & Hk & K).
    exists k. split; auto. intros st ls ps T' HK Ek H1 H2 H3 ER. apply K. rewrite <- Ek. eapply run_leaf; eauto.
  Qed.

  Hypothesis Hlam2 : forall x y : QInf, wle x y = true -> wle (search_lam y) (search_lam x) = true.
  Hypothesis Hpos2 : forall x, wle (la_zero LA) (search_lam x) = true.
  Hypothesis Hdense2 : forall x : Qc, wle (search_lam (Some x)) (la_zero LA) = false.
  Lemma plscan_number_leaf base_m approx threshold max_layers ys d y : 4 <= n ->
    plscan_fit search_lam lam LA death_of dzero garbage garbage_lambda pzero accumulate argsort argsort_counts argsort_labels sort_edges n base_m (Some approx) threshold max_layers M core = Ok (ys, d, y) ->
    forall y', In y' ys -> exists k, 2 <= k /\ forall st ls ps T, setting_ok lam' LA' A by_parent st ->
      min_cluster_size st = k -> cluster_selection_method st = Leaf -> cluster_selection_epsilon st = None -> cluster_selection_persistence st = None ->
      clusters_from_spanning_tree lam' LA' A garbage' by_parent st M = Ok (ls, ps, T) ->
      same_partition n (y_labels y') ls \/ ls = repeat (-1)%Z n.
  Proof.
    intros H4 E y' Hy'.
    destruct same_use as (f & L & R1 & R2 & HU & HO).
    destruct (plscan_number_for search_lam lam LA death_of dzero garbage garbage_lambda pzero accumulate argsort argsort_counts argsort_labels sort_edges Hlam Hpos HLL Hsort HsortZ HsortL n M core Hdense Hfin Hlam2 Hpos2 Hdense2 f L base_m approx threshold max_layers R1 R2 HU H4)
      as (j & T0 & Sel & m & T & b & base & ys' & rows & d' & y0 & K1 & R3 & R4 & R5 & R6 & R7 & R8 & R9 & R10 & R11 & R12 & _).
    rewrite K1 in E. injection E as -> _ _.
    assert (Hd : forall r, In r L -> wle (lam (f (l_d r))) (la_zero LA) = false) by (eapply dense_rows; eauto). assert (Hd2 : forall r, In r L -> wle (search_lam (f (l_d r))) (la_zero LA) = false) by (eapply dense_rows; eauto).
    destruct (stack_layers LA pzero accumulate n T b threshold m max_layers base ys R12) as [_ HA]. destruct (HA y' Hy') as [->|(s & Sel' & Hs & G1 & G2 & G3)].
    - destruct R3 as [[Hj _] _]. exists j. split; auto. intros st ls ps T' HK Ek H1 H2 H3 ER.
      destruct (base_layer_same LA LA' (fun w : QInf => search_lam (f w)) lam' n M L Hn (linkage_tree_linkage L R2) Hd2 Hdense' j T0 Sel _ _ ls Hj R4 R5 R6) as [|[_ ?]]; auto.
      rewrite <- Ek. eapply run_leaf; eauto.
    - exists (S s). split; [lia|]. intros st ls ps T' HK Ek H1 H2 H3 ER. left.
      eapply (other_layer_same LA LA' (fun w : QInf => lam (f w)) lam' n M L Hn (linkage_tree_linkage L R2) Hd Hdense' m T s Sel'); eauto.
      rewrite <- Ek. eapply run_leaf; eauto.
  Qed.
End Runs.

(** ** From the rows *)
Section Rows.
  Context {V V' P : WOrd} {D : Type} {Row : Type}.
  Variables (search_lam lam : QInf -> V) (LA : LamArith V) (death_of : V -> D) (dzero : D) (garbage : nat -> nat) (garbage_lambda : nat -> D)
    (pzero : P) (accumulate : P -> nat -> nat -> D -> P) (argsort : list P -> list nat) (argsort_counts argsort_labels : list Z -> list nat)
    (sort_edges : list (edge QInf) -> list (edge QInf)).
  Hypothesis Hlam : forall x y : QInf, wle x y = true -> wle (lam y) (lam x) = true.
  Hypothesis Hpos : forall x, wle (la_zero LA) (lam x) = true.
  Hypothesis HLL : LamLaws LA.
  Hypothesis Hsort : argsorts argsort.
  Hypothesis HsortZ : argsorts_Z argsort_counts.
  Hypothesis HsortL : argsorts_Z argsort_labels.
  Hypothesis Hedges : sorts_edges (W := QInf) sort_edges.
  Hypothesis Hdense : forall x : Qc, wle (lam (Some x)) (la_zero LA) = false.
  Variables (dist : Row -> Row -> QInf) (ms : nat) (X : list Row) (finite : Row -> bool) (set_list : list nat -> list nat).
  Notation zero := (Some 0%Qc : QInf).
  Hypothesis HF : forallb finite X = true.
  Hypothesis Hd : forall a b, In a X -> In b X -> dist a b <> None.
  Hypothesis Hn : 2 <= length X.
  Hypothesis Hms : ms < length X.
  Variables (lam' : QInf -> V') (LA' : LamArith V') (A : Arith V' NatSize) (garbage' : nat -> V') (by_parent : list (crow V' NatSize) -> list (crow V' NatSize)).
  Hypothesis Hdense' : forall x : Qc, wlt (la_zero LA') (lam' (Some x)) = true.
  Variables (M : list (edge QInf)) (nbrs : list (list nat)) (core : list QInf).
  Hypothesis EM : kruskal_mst_brute zero (rows_distance zero dist X) (length X) ms CLNone = Ok (M, nbrs, core).
  Hypothesis HW : distinct_weights (W := QInf) M \/ sort_edges (normalised_edges core M) = normalised_edges core (sort_mst M).

  Lemma rows_leaf base_m threshold max_layers : 2 <= base_m ->
    exists ys d y, plscan_fit search_lam lam LA death_of dzero garbage garbage_lambda pzero accumulate argsort argsort_counts argsort_labels sort_edges (length X) base_m None threshold max_layers M core = Ok (ys, d, y) /\
    In y ys /\ forall y', In y' ys -> exists k, base_m <= k /\ forall st, setting_ok lam' LA' A by_parent st ->
      min_cluster_size st = k -> cluster_selection_method st = Leaf -> cluster_selection_epsilon st = None -> cluster_selection_persistence st = None ->
      exists r, fit (la_zero LA') finite set_list (fast_hdbscan lam' LA' garbage' (pairs_mst zero dist ms) A by_parent st) X = Ok r /\
      (same_partition (length X) (y_labels y') (f_labels r) \/ (ys = [y'] /\ f_labels r = repeat (-1)%Z (length X))).
  Proof.
    intro Hm.
    assert (EP : pairs_mst zero dist ms X = Ok M) by (unfold pairs_mst; fold (rows_distance zero dist X); cbv zeta; rewrite EM; reflexivity).
    assert (HM : spanning_tree (length X) M) by (destruct (pairs_ok zero dist ms X ltac:(lia)) as (M' & E & H); congruence).
    assert (Hfin : forall e, In e M -> ewt e <> None).
    { apply (pairs_weights zero dist ms X M (fun w => w <> None)); auto. discriminate. }
    assert (Hpos' : forall e, In e M -> wlt (la_zero LA') (lam' (ewt e)) = true).
    { intros e He. specialize (Hfin e He). destruct (ewt e) as [w|]; [apply Hdense'|contradiction]. }
    destruct (plscan_ends search_lam lam LA death_of dzero garbage garbage_lambda pzero accumulate argsort argsort_counts argsort_labels sort_edges Hlam Hpos HLL Hsort HsortZ HsortL Hedges (length X) M core HM Hdense Hfin base_m threshold max_layers Hn Hm)
      as (ys & rows & d & y & E & _ & _ & _ & _ & Hy & _).
    exists ys, d, y. split; auto. split; auto. intros y' Hy'.
    destruct (plscan_leaf search_lam lam LA death_of dzero garbage garbage_lambda pzero accumulate argsort argsort_counts argsort_labels sort_edges Hlam Hpos HLL Hsort HsortZ Hedges (length X) M core HM Hdense Hfin HW Hn
      lam' LA' A garbage' by_parent Hpos' base_m threshold max_layers ys d y Hm E y' Hy') as (k & Hk & K).
    exists k. split; auto. intros st HK Ek H1 H2 H3.
    destruct (plain_total lam' LA' A garbage' by_parent st (length X) M HK HM Hn) as [(ls & ps & T & E' & _)|[Hf _]]; [|congruence].
    destruct (fast_prefix lam' LA' garbage' (pairs_mst zero dist ms) A by_parent st X M Hn EP _ E') as (r & E0).
    destruct (fast_run lam' LA' garbage' (pairs_mst zero dist ms) A by_parent st X r HK Hn ltac:(intros M' EE; congruence) E0) as ((M' & R2 & _ & R1) & _).
    assert (M' = M) by congruence. subst M'. rewrite R1 in E'. assert (E1 : f_labels r = ls) by congruence.
    exists r. split; [unfold fit; now rewrite HF|]. eapply K; eauto.
  Qed.
End Rows.

(** Sorting as HDBSCAN does. *)
Lemma own_sort core (M : list (edge QInf)) : sort_mst (normalised_edges core M) = normalised_edges core (sort_mst M).
Proof. rewrite !normalised_is. apply (sort_mst_map (W := QInf)). apply (normal_unit core). Qed.

(** ** Equally spaced samples *)
Definition unit_steps : list (edge QInf) := [(0, 1, Some 1%Qc); (2, 3, Some 1%Qc); (1, 2, Some 1%Qc)].
Lemma unit_steps_tree : spanning_tree 4 unit_steps.
Proof. apply spanning_tree_checked. reflexivity. Qed.
Lemma unit_steps_noise k ls ps T : 2 <= k ->
  clusters_from_spanning_tree (W := QInf) hdbscan_lambda_value ExactLam (ExactArith NatSize nat_as_q) (fun _ => None) by_parent_of (exact_settings (Sz := NatSize) k Leaf false 0%Qc 0%Qc) unit_steps = Ok (ls, ps, T) ->
  forall x, x < 4 -> nth x ls 0%Z = (-1)%Z.
Proof.
  intros Hk E x Hx.
  assert (K : exists ls0 ps0 T0, clusters_from_spanning_tree (W := QInf) hdbscan_lambda_value ExactLam (ExactArith NatSize nat_as_q) (fun _ => None) by_parent_of
    (exact_settings (Sz := NatSize) 2 Leaf false 0%Qc 0%Qc) unit_steps = Ok (ls0, ps0, T0) /\ ls0 = [-1; -1; -1; -1]%Z).
  { do 3 eexists. split; vm_compute; reflexivity. }
  destruct K as (ls0 & ps0 & T0 & E0 & E1).
  destruct (plain_contains (W := QInf) hdbscan_lambda_value ExactLam (ExactArith NatSize nat_as_q) (fun _ => None) by_parent_of (exact_settings (Sz := NatSize) 2 Leaf false 0%Qc 0%Qc)
    (exact_settings (Sz := NatSize) k Leaf false 0%Qc 0%Qc) 4 unit_steps (exact_ok (Sz := NatSize) nat_as_q by_parent_of (2 : NatSize) Leaf false 0%Qc 0%Qc ex_sorts eq_refl)
    (exact_ok (Sz := NatSize) nat_as_q by_parent_of (k : NatSize) Leaf false 0%Qc 0%Qc ex_sorts ltac:(now apply nat_mcs)) unit_steps_tree ltac:(lia) ls0 ls ps0 ps T0 T E0 E) as [H _]; auto.
  - apply exact_stricter; [now apply Nat.leb_le|apply Qcle_refl].
  - intros e He. repeat (destruct He as [<-|He]; [vm_compute; reflexivity|]). contradiction.
  - destruct (Z.eq_dec (nth x ls 0%Z) (-1)) as [|Hne]; auto. exfalso. destruct (H x Hx Hne) as (y & Hy & Ly & _). apply Ly. rewrite E1. do 4 (destruct y as [|y]; [reflexivity|]). lia.
Qed.
