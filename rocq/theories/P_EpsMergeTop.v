(** Runs with and without cluster_selection_epsilon. *)
From Coq Require Import List Arith Lia Bool Permutation Sorted ZArith.
From Verif Require Import Prelude Order Graph Size Num Forest S_Kruskal M_Kruskal M_KruskalEntry P_KruskalEntry M_Linkage S_Linkage M_Condense S_Condense M_Select S_Select M_Labels S_Labels P_CTree P_Below P_CondenseTop P_SelectTop
  M_Epsilon S_Epsilon S_Lost P_Lost M_Pipeline S_Pipeline P_PipelineTop P_PipelineEx P_PipelineRun P_PipelineMeaning M_Estimator S_Estimator P_Estimator P_EstimatorEx P_Detector P_JoinTop P_SplitTop P_Dbscan S_Resize P_Resize P_ResizeLeaf P_ResizeTop S_EpsMerge P_EpsMerge.
Import ListNotations.
Local Open Scope nat_scope.

Section Linkage.
  Context {W V : WOrd} {Sz : SOrd}.
  Variables (lam : W -> V) (LA : LamArith V) (A : Arith V Sz) (garbage : nat -> V)
    (by_parent : list (crow V Sz) -> list (crow V Sz)) (st st' : settings V Sz).
  Variables (n : nat) (wt : nat -> Sz) (M : list (edge W)) (L : list (lrow W Sz)).
  Notation mcs := (min_cluster_size st).
  Hypothesis HK : setting_ok lam LA A by_parent st.
  Hypothesis HK' : setting_ok lam LA A by_parent st'.
  Hypothesis HL : linkage_facts n wt M L.
  Hypothesis Hn : 2 <= n.
  Hypothesis Hsz : sle (s := Sz) szero sone = true.
  Hypothesis Hwt : forall x, x < n -> sle mcs (wt x) = false.
  Hypothesis Hsame : same_but_epsilon st st'.
  Hypothesis Heps : cluster_selection_epsilon st = None.
  Hypothesis Hroot : allow_single_cluster st = false \/ cluster_selection_method st = Leaf.
  Notation run s := (clusters_from_linkage_tree lam LA A garbage by_parent s wt n L).

  Lemma same_tree : condensed_tree_of lam garbage st' wt L = condensed_tree_of lam garbage st wt L.
  Proof. destruct Hsame as (E1 & _ & _ & _ & E2). unfold condensed_tree_of. now rewrite E1, E2. Qed.
  Lemma same_selected T : selected_clusters_of A st' T n = selected_clusters_of A st T n.
  Proof. destruct Hsame as (_ & E1 & E2 & E3 & _). unfold selected_clusters_of. now rewrite E1, E2, E3. Qed.

  Lemma run_tree s ls ps T : run s = Ok (ls, ps, T) -> condensed_tree_of lam garbage s wt L = Ok T.
  Proof.
    intro ER. unfold clusters_from_linkage_tree in ER. destruct (condensed_tree_of lam garbage s wt L) as [T'|]; [|discriminate]. cbn [bind] in ER.
    destruct (selected_clusters_of A s T' n) as [S'|]; [|discriminate]. cbn [bind] in ER.
    destruct (epsilon_clusters_of by_parent s T' S') as [E'|]; [|discriminate]. cbn [bind] in ER.
    destruct (labels_and_strengths_of LA s T' n E') as [[? ?]|]; [|discriminate]. cbn [bind] in ER. congruence.
  Qed.

  Lemma linkage_merge ls ps T ls' ps' T' : run st = Ok (ls, ps, T) -> run st' = Ok (ls', ps', T') ->
    T' = T /\ stay_together n ls ls' /\ contains_cluster n ls ls' /\ cluster_count ls' <= cluster_count ls /\
    ((forall p s, splits_off n T p s -> p = n \/ splits_off n T n p) -> no_new_noise n ls ls').
  Proof.
    intros ER ER'. assert (T' = T) as ->.
    { pose proof (run_tree st _ _ _ ER) as H1. pose proof (run_tree st' _ _ _ ER') as H2. rewrite same_tree in H2. congruence. }
    split; auto.
    assert (Hwt' : forall x, x < n -> sle (min_cluster_size st') (wt x) = false) by (destruct Hsame as (-> & _); auto).
    pose proof HL as (L1 & L2 & L3 & _).
    destruct HK as [H1 H2 H3 H4 H5 H6]. destruct HK' as [G1 G2 G3 G4 G5 G6].
    destruct (run_good lam LA (plain_sel A st n) garbage by_parent st n wt L H2 H1 H3 (plain_selects LA A st n wt H1 H4 Hn) Hsz Hn H5 H6 L1 L2 L3 Hwt ls ps T ER) as (S & E0 & HX & HT & HO & _).
    destruct (run_good lam LA (plain_sel A st' n) garbage by_parent st' n wt L G2 G1 G3 (plain_selects LA A st' n wt G1 G4 Hn) Hsz Hn G5 G6 L1 L2 L3 Hwt' ls' ps' T ER') as (S' & E & HX' & _ & _ & _).
    assert (S' = S) as ->.
    { pose proof (oc_select _ _ _ _ _ _ _ _ _ _ HX) as J1. pose proof (oc_select _ _ _ _ _ _ _ _ _ _ HX') as J2. unfold plain_sel in *. rewrite same_selected in J2. congruence. }
    assert (E0 = S) as -> by apply (oc_eps_none _ _ _ _ _ _ _ _ _ _ HX Heps).
    pose proof (oc_clustering _ _ _ _ _ _ _ _ _ _ HX) as HC. pose proof (oc_clustering _ _ _ _ _ _ _ _ _ _ HX') as HC'.
    assert (Hrows : cluster_rows n T = [] \/ cluster_rows n T <> []) by (destruct (cluster_rows n T); [auto|right; discriminate]).
    destruct Hrows as [Hempty|Hne].
    - (* no clusters at all *)
      pose proof (oc_noise _ _ _ _ _ _ _ _ _ _ HX (oc_E_empty _ _ _ _ _ _ _ _ _ _ HX Hempty)) as N1.
      pose proof (oc_noise _ _ _ _ _ _ _ _ _ _ HX' (oc_E_empty _ _ _ _ _ _ _ _ _ _ HX' Hempty)) as N2.
      assert (Hr : forall x, x < n -> nth x (repeat (-1)%Z n) 0%Z = (-1)%Z).
      { intros x Hx. apply (repeat_spec n). apply nth_In. now rewrite repeat_length. }
      assert (KC : contains_cluster n ls ls') by (intros y Hy Ly; exfalso; apply Ly; rewrite N2; auto).
      split; [intros x y Hx Hy; rewrite N2, !Hr; auto|]. split; auto. split.
      + apply (containment_count n); auto; [apply (cl_labels _ _ _ _ _ HC)|apply (cl_labels _ _ _ _ _ HC')].
      + intros _ x Hx Lx. exfalso. apply Lx. rewrite N1. auto.
    - destruct (oc_E_shape _ _ _ _ _ _ _ _ _ _ HX Hne) as [ES|[HnS Hlen]].
      { exfalso. apply (oc_S_root _ _ _ _ _ _ _ _ _ _ HX Hroot). rewrite ES. simpl; auto. }
      assert (HSel : selection n T S).
      { split; [apply (oc_S_nodup _ _ _ _ _ _ _ _ _ _ HX)|]. split; [|apply (oc_S_disjoint _ _ _ _ _ _ _ _ _ _ HX)].
        intros s Hs. split; [now apply (oc_S_clusters _ _ _ _ _ _ _ _ _ _ HX)|]. intros ->. contradiction. }
      assert (HSne : S <> []) by (intros ->; simpl in Hlen; lia).
      pose proof (oc_right _ _ _ _ _ _ _ _ _ _ HX HSne) as RL. rewrite Heps in RL. cbn [option_map] in RL.
      assert (Hmask : cluster_tree_from_condensed_tree T = cluster_rows n T) by (apply (mask_ok n wt mcs T HT); apply (us_size _ _ H1)).
      pose proof (oc_epsilon _ _ _ _ _ _ _ _ _ _ HX') as EE. unfold epsilon_clusters_of in EE. rewrite Hmask in EE.
      pose proof (oc_right _ _ _ _ _ _ _ _ _ _ HX') as RL'.
      destruct (cluster_selection_epsilon st') as [[lt_eps inv]|] eqn:Heps'.
      + destruct (Nat.ltb_spec 1 (length S)) as [_|Hl]; [|exfalso; lia].
        destruct (us_eps _ _ G1 lt_eps inv Heps') as [Hmono Hinv]. destruct (G3 (cluster_rows n T)) as [HP HB].
        assert (HEne : E <> []).
        { intros ->. destruct (oc_E_shape _ _ _ _ _ _ _ _ _ _ HX' Hne) as [J|[_ J]]; [discriminate|simpl in J; lia]. }
        specialize (RL' HEne). cbn [option_map snd] in RL'.
        assert (HE1 : In n E -> E = [n]).
        { intro Hi. destruct (oc_E_shape _ _ _ _ _ _ _ _ _ _ HX' Hne) as [J|[J _]]; auto. contradiction. }
        pose proof (oc_E_clusters _ _ _ _ _ _ _ _ _ _ HX') as HEC. pose proof (oc_E_disjoint _ _ _ _ _ _ _ _ _ _ HX') as HED.
        assert (Hany : forall c, is_cluster n T c -> exists x, below n T c x).
        { destruct (run_explained lam LA A garbage by_parent st n wt M L HK HL Hn Hsz Hwt ls ps T ER) as (T0 & chosen & fin & HXX & _).
          intros c Hc. eapply any_below; eauto. apply (us_size _ _ H1). }
        pose proof (oc_E_nodup _ _ _ _ _ _ _ _ _ _ HX') as HEN. assert (Hn0 : 0 < n) by lia.
        assert (KC : contains_cluster n ls ls') by (eapply (merge_contains (la_zero LA) n wt mcs T lt_eps inv); eauto).
        split; [eapply (merge_together (la_zero LA) n wt mcs T lt_eps inv); eauto|]. split; auto. split.
        * apply (containment_count n); auto; [apply (cl_labels _ _ _ _ _ HC)|apply (cl_labels _ _ _ _ _ HC')].
        * intros Hflat. eapply (merge_no_noise (la_zero LA) n wt mcs T lt_eps inv); eauto.
          eapply none_lost_flat; eauto.
      + (* no epsilon in either *)
        assert (E = S) as -> by congruence.
        assert (ls' = ls) as ->.
        { pose proof (oc_vector _ _ _ _ _ _ _ _ _ _ HX) as J1. pose proof (oc_vector _ _ _ _ _ _ _ _ _ _ HX') as J2.
          rewrite Heps in J1. rewrite Heps' in J2. congruence. }
        split; [intros x y _ _ _ J; exact J|]. split; [|split; [lia|intros _ x _ J; exact J]].
        intros y Hy Ly. exists y. split; auto.
  Qed.
End Linkage.

Section Plain.
  Context {W V : WOrd}.
  Variables (lam : W -> V) (LA : LamArith V) (A : Arith V NatSize) (garbage : nat -> V)
    (by_parent : list (crow V NatSize) -> list (crow V NatSize)) (st st' : settings V NatSize) (n : nat) (M : list (edge W)).
  Hypothesis HK : setting_ok lam LA A by_parent st.
  Hypothesis HK' : setting_ok lam LA A by_parent st'.
  Hypothesis HM : spanning_tree n M.
  Hypothesis Hn : 2 <= n.
  Hypothesis Hsame : same_but_epsilon st st'.
  Hypothesis Heps : cluster_selection_epsilon st = None.
  Hypothesis Hroot : allow_single_cluster st = false \/ cluster_selection_method st = Leaf.
  Notation run s := (clusters_from_spanning_tree lam LA A garbage by_parent s M).

  Lemma plain_merge ls ps T ls' ps' T' : run st = Ok (ls, ps, T) -> run st' = Ok (ls', ps', T') ->
    T' = T /\ stay_together n ls ls' /\ contains_cluster n ls ls' /\ cluster_count ls' <= cluster_count ls /\
    ((forall p s, splits_off n T p s -> p = n \/ splits_off n T n p) -> no_new_noise n ls ls').
  Proof.
    destruct (linkage_plain n M HM) as (L & EL & HL). unfold clusters_from_spanning_tree. rewrite EL. cbn [bind].
    rewrite (facts_length n M HM). intros ER ER'. eapply (linkage_merge lam LA A garbage by_parent st st' n _ M L HK HK' HL Hn); eauto.
    intros x _. pose proof (us_size _ _ (so_usable _ _ _ _ _ HK)) as H. apply slt_true in H. auto.
  Qed.
End Plain.

Section Weighted.
  Context {W V : WOrd} {Sz : SOrd}.
  Variables (lam : W -> V) (LA : LamArith V) (A : Arith V Sz) (garbage : nat -> V)
    (by_parent : list (crow V Sz) -> list (crow V Sz)) (st st' : settings V Sz) (n : nat) (M : list (edge W)) (ws : list Sz).
  Hypothesis HK : setting_ok lam LA A by_parent st.
  Hypothesis HK' : setting_ok lam LA A by_parent st'.
  Hypothesis HM : spanning_tree n M.
  Hypothesis Hn : 2 <= n.
  Hypothesis Hlen : length ws = n.
  Hypothesis Hone : sle (s := Sz) szero sone = true.
  Hypothesis Hw : forall w, In w ws -> slt w (min_cluster_size st) = true.
  Hypothesis Hsame : same_but_epsilon st st'.
  Hypothesis Heps : cluster_selection_epsilon st = None.
  Hypothesis Hroot : allow_single_cluster st = false \/ cluster_selection_method st = Leaf.
  Notation run s := (clusters_from_spanning_tree_weighted lam LA A garbage by_parent s M ws).

  Lemma weighted_merge ls ps T ls' ps' T' : run st = Ok (ls, ps, T) -> run st' = Ok (ls', ps', T') ->
    T' = T /\ stay_together n ls ls' /\ contains_cluster n ls ls' /\ cluster_count ls' <= cluster_count ls /\
    ((forall p s, splits_off n T p s -> p = n \/ splits_off n T n p) -> no_new_noise n ls ls').
  Proof.
    destruct (linkage_weighted n M ws HM Hlen) as (L & EL & HL). unfold clusters_from_spanning_tree_weighted. rewrite EL. cbn [bind].
    rewrite (facts_length n M HM). intros ER ER'. eapply (linkage_merge lam LA A garbage by_parent st st' n _ M L HK HK' HL Hn Hone); eauto.
    intros x Hx. apply slt_true. apply Hw. apply nth_In. lia.
  Qed.
End Weighted.

Section Fit.
  Context {W V : WOrd} {Row : Type}.
  Variables (lam : W -> V) (LA : LamArith V) (garbage : nat -> V) (zero : W) (dist : Row -> Row -> W) (ms : nat)
    (finite : Row -> bool) (set_list : list nat -> list nat) (X : list Row) (A : Arith V NatSize)
    (by_parent : list (crow V NatSize) -> list (crow V NatSize)) (st st' : settings V NatSize).
  Hypothesis Hset : forall l, Permutation (set_list l) l.
  Hypothesis HK : setting_ok lam LA A by_parent st.
  Hypothesis HK' : setting_ok lam LA A by_parent st'.
  Hypothesis Sym : forall a b, dist a b = dist b a.
  Hypothesis Self : forall a b, wle (dist a a) (dist a b) = true.
  Hypothesis Least : forall a b, wle zero (dist a b) = true.
  Notation F := (filter finite X).
  Hypothesis Hn : (if forallb finite X then 2 else 3) <= length F.
  Hypothesis Hms : ms < length F.
  Hypothesis Hpos : forall a b, In a X -> In b X -> finite a = true -> finite b = true -> wlt (la_zero LA) (lam (dist a b)) = true.
  Hypothesis Hsame : same_but_epsilon st st'.
  Hypothesis Heps : cluster_selection_epsilon st = None.
  Hypothesis Hroot : allow_single_cluster st = false \/ cluster_selection_method st = Leaf.
  Notation run s := (fit (la_zero LA) finite set_list (fast_hdbscan lam LA garbage (pairs_mst zero dist ms) A by_parent s) X).

  Lemma fit_merge r r' : run st = Ok r -> run st' = Ok r' ->
    stay_together (length X) (f_labels r) (f_labels r') /\ contains_cluster (length X) (f_labels r) (f_labels r') /\
    cluster_count (f_labels r') <= cluster_count (f_labels r).
  Proof.
    intros E1 E2. assert (H := fit_both lam LA garbage zero dist ms finite set_list X A by_parent st st' Hset HK HK' Sym Self Least Hn).
    destruct (H Hms Hpos r r' E1 E2) as (M & ls & ps & T & ls' & ps' & T' & pos & HM & HP & R1 & R2 & Pl & La & Fr & La' & Fr' & Ln & Ln').
    assert (H2F : 2 <= length F) by (destruct (forallb finite X); lia).
    destruct (plain_merge lam LA A garbage by_parent st st' (length F) M HK HK' HM H2F Hsame Heps Hroot ls ps T ls' ps' T' R1 R2) as (_ & K1 & K2 & _).
    assert (KC : contains_cluster (length X) (f_labels r) (f_labels r')).
    { intros y Hy Ly. destruct (Fr' y Hy Ly) as (j & Hj & <-). rewrite La' in Ly by auto. destruct (K2 j Hj Ly) as (i & Hi & Li & Hz).
      exists (pos i). split; [eapply pos_range; eauto|]. split; [now rewrite La|]. intros z [Hzn Ez]. rewrite La in Ez by auto.
      destruct (Fr z Hzn ltac:(congruence)) as (k & Hk & <-). rewrite La in Ez by auto. split; auto. rewrite !La' by auto. apply (Hz k). split; auto. }
    split; [|split; auto; apply (containment_count (length X)); auto].
    intros x y Hx Hy Lx Exy. destruct (Fr x Hx Lx) as (i & Hi & <-). destruct (Fr y Hy ltac:(congruence)) as (j & Hj & <-).
    rewrite !La' by auto. rewrite !La in * by auto. now apply K1.
  Qed.
End Fit.
