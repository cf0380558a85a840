(** Scores of PLSCAN's layers. *)
From Coq Require Import List Arith Lia Bool ZArith QArith Qcanon Sorted Permutation.
From Verif Require Import Prelude Order Graph Size Num P_Sort Forest S_Kruskal M_Kruskal M_KruskalEntry M_Linkage S_Linkage M_Condense S_Condense M_Select S_Select M_Labels S_Labels
  M_Pipeline S_Pipeline P_CTree P_Below P_Labels P_LabelsTop P_LabelsEx M_Layers S_Layers P_LayerSets P_LayersRun P_LayersBase P_LayersTop P_LayersEx
  P_LayerTreeRun P_BCScore P_Equi M_LayerTree S_LayerTree S_Equi M_Plscan S_Plscan P_Plscan S_LayerLeaf P_LayerLeaf P_LayerLeafTop M_Scores S_Scores.
Import ListNotations.
Local Open Scope nat_scope.

Section Stack.
  Context {W V P : WOrd} {D : Type} (LA : LamArith V).
  Variables (lam : W -> V) (death_of : V -> D) (dzero : D) (pzero : P) (accumulate : P -> nat -> nat -> D -> P) (n : nat) (L : list (lrow W NatSize)).
  Variables (number : P -> Prop) (fraction : D -> Prop).
  Notation one := (fun _ : nat => (1 : NatSize)).
  Hypothesis Hn : 2 <= n.
  Hypothesis Hfin : forall r, In r L -> wle (lam (l_d r)) (la_zero LA) = false.
  Hypothesis HG : scores_grow number fraction pzero accumulate.
  Hypothesis HF : forall v, fraction (death_of v).
  Variables (m : nat) (T : list (crow V NatSize)) (b : barcode D).
  Hypothesis Hm : 2 <= m.
  Hypothesis Ht : tree_of lam n L m T.
  Hypothesis HB : cluster_rows n T <> [] -> right_barcode n T death_of dzero m b.

  Lemma fold_grows l p : number p -> (forall i, In i l -> b_births b i < b_deaths b i /\ fraction (b_lambdas b i)) ->
    let q := fold_left (fun p i => accumulate p (b_births b i) (b_deaths b i) (b_lambdas b i)) l p in number q /\ wle p q = true.
  Proof.
    revert p. induction l as [|i l IH]; intros p Hp Hl; cbn; [split; auto; destruct (wle_total P p p); auto|].
    destruct (Hl i (or_introl eq_refl)) as [H1 H2]. destruct (proj2 HG p _ _ _ Hp H1 H2) as [H3 H4].
    destruct (IH _ H3 (fun j Hj => Hl j (or_intror Hj))) as [H5 H6]. split; auto.
    eapply wle_trans; [|exact H6]. unfold wlt in H4. apply negb_true_iff in H4. destruct (wle_total P p (accumulate p (b_births b i) (b_deaths b i) (b_lambdas b i))); auto. congruence.
  Qed.

  Lemma score_floor s : cluster_rows n T <> [] -> wle pzero (persistence_at pzero accumulate b s) = true.
  Proof.
    intro Hne. specialize (HB Hne). pose proof Ht as (_ & HT & _). unfold persistence_at. apply fold_grows; [apply HG|].
    intros i Hi. apply filter_In in Hi as [Hi H0]. apply negb_true_iff, Nat.eqb_neq in H0. unfold alive in Hi. apply filter_In in Hi as [Hi Hb]. apply in_seq in Hi.
    apply andb_true_iff in Hb as [H1 H2]. apply Nat.leb_le in H1. apply Nat.ltb_lt in H2. split; [lia|].
    rewrite (rb_nodes _ _ _ _ _ _ HB) in Hi.
    assert (Hc : is_cluster n T (i + n)) by (apply (is_cluster_iff n one m T HT); unfold top_id; lia).
    destruct Hc as [Hc|(_ & r & Hr & E)]; [lia|]. destruct (rb_rows _ _ _ _ _ _ HB r Hr ltac:(lia)) as [_ El]. replace (c_child r - n) with i in El by lia. rewrite El. apply HF.
  Qed.

  Lemma peak_score s : cluster_rows n T <> [] -> size_peak pzero accumulate b s -> wlt pzero (persistence_at pzero accumulate b s) = true.
  Proof.
    intros Hne (ss & total & x & y & _ & _ & Hl & Hv & ((H1 & H2) & H3 & H4 & H5 & _) & ->).
    assert (Hb : x <= (x + y) / 2 <= y) by (split; [apply Nat.div_le_lower_bound|apply Nat.div_le_upper_bound]; lia).
    rewrite <- Hv by lia. rewrite (nth_indep _ pzero winf) by lia.
    assert (Hz : wle pzero (nth (x - 1) total winf) = true) by (rewrite (nth_indep _ winf pzero) by lia; rewrite Hv by lia; now apply score_floor).
    destruct (H4 _ Hb) as [_ H6]. unfold wlt in *. apply negb_true_iff in H5. apply negb_true_iff. apply not_true_is_false. intro H.
    assert (wle (nth x total winf) (nth (x - 1) total winf) = true) by (eapply wle_trans; [exact H6|]; eapply wle_trans; [exact H|exact Hz]). congruence.
  Qed.

  Lemma two_labels Sel ls ps : right_layer LA n T Sel ls ps -> ~ In n Sel -> In 0%Z ls /\ In 1%Z ls.
  Proof.
    intros HR Hroot. destruct (ly_number _ _ _ _ _ _ HR) as [->|[_ H2]]; [exfalso; apply Hroot; now left|].
    pose proof (ly_sorted _ _ _ _ _ _ HR) as Hsorted. pose proof (ly_labels _ _ _ _ _ _ HR) as [Hlen _]. pose proof Ht as (_ & HT & _).
    assert (H : forall i, i < length Sel -> In (Z.of_nat i) ls).
    { intros i Hi. set (c := nth i Sel 0). assert (Hc : In c Sel) by now apply nth_In.
      destruct (some_below lam n L Hn m T Hm Ht c (ly_clusters _ _ _ _ _ _ HR c Hc)) as (y & Hy).
      assert (Ey : nth y ls 0%Z = Z.of_nat (position Sel c)) by (apply (label_inside LA lam n L Hn Hfin m T Sel ls ps Hm Ht HR); auto; congruence).
      pose proof (sorted_position Sel i Hsorted Hi) as Hpi. fold c in Hpi. rewrite Hpi in Ey. rewrite <- Ey. apply nth_In. rewrite Hlen. apply (below_lt n T _ _ Hy). }
    split; [apply (H 0)|apply (H 1)]; lia.
  Qed.

  Lemma stack_scores threshold max_layers (base : layer V P) ys y : y_persistence base = pzero ->
    layer_stack LA pzero accumulate n T b threshold m max_layers base ys -> In y ys -> (forall y', In y' ys -> wle (y_persistence y') (y_persistence y) = true) ->
    right_scores pzero ys y.
  Proof.
    intros H0 Hst Hy Hmax. assert (EC : cluster_rows n T = [] \/ cluster_rows n T <> []) by (destruct (cluster_rows n T); [left|right; discriminate]; reflexivity). destruct EC as [EC|Hne].
    - assert (ys = [base]) as -> by exact (unsplit_layers LA lam pzero accumulate n L Hn m T b threshold max_layers base ys Ht EC Hst). destruct Hy as [<-|[]]. exists base, []. split; auto. split; auto. split; [intros y' []|]. split; [auto|congruence].
    - destruct Hst as (sizes & more & HR & Hs & HP & HFa & _).
      assert (Hall : forall y', In y' more -> wlt pzero (y_persistence y') = true /\ In 0%Z (y_labels y') /\ In 1%Z (y_labels y')).
      { destruct HR as (_ & _ & Hpk & _). clear - HFa Hpk Hne Hm Ht HB HG HF Hn Hfin HB. intros y' Hy'. induction HFa as [|s y0 sizes more [(Sel & _ & H1 & H2) H3] HFa IH]; [destruct Hy'|].
        destruct Hy' as [->|Hy']; [|apply IH; auto; intros; apply Hpk; now right]. rewrite H3. split; [apply peak_score; auto; apply Hpk; now left|]. eapply two_labels; eauto. }
      exists base, more. split; auto. split; auto. split; auto.
      pose proof (Permutation_in _ HP Hy) as Hin. split.
      + intros ->. now destruct Hin as [<-|[]].
      + intro Hmore. destruct Hin as [<-|]; auto. exfalso. destruct more as [|y1 more]; [congruence|]. destruct (Hall y1 (or_introl eq_refl)) as [H1 _].
        assert (H2 : wle (y_persistence y1) (y_persistence base) = true) by (apply Hmax; apply (Permutation_in _ (Permutation_sym HP)); right; now left).
        rewrite H0 in H2. unfold wlt in H1. rewrite H2 in H1. discriminate.
  Qed.
End Stack.

Section Runs.
  Context {V P : WOrd} {D : Type}.
  Variables (search_lam lam : QInf -> V) (LA : LamArith V) (death_of : V -> D) (dzero : D) (garbage : nat -> nat) (garbage_lambda : nat -> D)
    (pzero : P) (accumulate : P -> nat -> nat -> D -> P) (argsort : list P -> list nat) (argsort_counts argsort_labels : list Z -> list nat)
    (sort_edges : list (edge QInf) -> list (edge QInf)).
  Variables (number : P -> Prop) (fraction : D -> Prop).
  Hypothesis HG : scores_grow number fraction pzero accumulate.
  Hypothesis HF : forall v, fraction (death_of v).
  Hypothesis Hlam : forall x y : QInf, wle x y = true -> wle (lam y) (lam x) = true.
  Hypothesis Hpos : forall x, wle (la_zero LA) (lam x) = true.
  Hypothesis HLL : LamLaws LA.
  Hypothesis Hsort : argsorts argsort.
  Hypothesis HsortZ : argsorts_Z argsort_counts.
  Hypothesis HsortL : argsorts_Z argsort_labels.
  Hypothesis Hedges : sorts_edges (W := QInf) sort_edges.
  Variables (n : nat) (M : list (edge QInf)) (core : list QInf).
  Hypothesis HM : spanning_tree n M.
  Hypothesis Hdense : forall x : Qc, wle (lam (Some x)) (la_zero LA) = false.
  Hypothesis Hfin : forall e, In e M -> ewt e <> None.
  Notation pfit := (plscan_fit search_lam lam LA death_of dzero garbage garbage_lambda pzero accumulate argsort argsort_counts argsort_labels sort_edges).

  Lemma scores_ok base_m threshold max_layers : 2 <= n -> 2 <= base_m ->
    exists ys d y, pfit n base_m None threshold max_layers M core = Ok (ys, d, y) /\ right_scores pzero ys y.
  Proof.
    intros Hn Hm.
    assert (E1 : exists ys rows d y, pfit n base_m None threshold max_layers M core = Ok (ys, d, y) /\
      build_cluster_layers search_lam lam LA death_of dzero garbage garbage_lambda pzero accumulate argsort argsort_counts sort_edges n base_m None threshold max_layers M core = Ok ys /\
      right_tree (map y_labels ys) rows /\ right_dictionary rows d /\ nested_rows (map y_labels ys) rows /\
      In y ys /\ forall y', In y' ys -> wle (y_persistence y') (y_persistence y) = true) by (eapply plscan_ends; eauto).
    destruct E1 as (ys & rows & d & y & E & EB & _ & _ & _ & Hy & Hmax).
    assert (E2 : exists f L T Sel b base ys0, unit_of core f /\ linkage_tree_of (W := QInf) n M L /\
      build_cluster_layers search_lam lam LA death_of dzero garbage garbage_lambda pzero accumulate argsort argsort_counts sort_edges n base_m None threshold max_layers M core = Ok ys0 /\
      tree_of (fun w : QInf => lam (f w)) n L base_m T /\
      (forall c, In c Sel <-> leaf_cluster n T c) /\ right_layer LA n T Sel (y_labels base) (y_strengths base) /\ y_persistence base = pzero /\
      (cluster_rows n T <> [] -> right_barcode n T death_of dzero base_m b) /\
      layer_stack LA pzero accumulate n T b threshold base_m max_layers base ys0) by (eapply plscan_layers; eauto).
    destruct E2 as (f & L & T & Sel & b & base & ys0 & Hu & HL & EB' & Ht & _ & _ & H0 & HB & Hst). rewrite EB in EB'. injection EB' as <-.
    exists ys, d, y. split; auto.
    assert (HD : forall r, In r L -> wle (lam (f (l_d r))) (la_zero LA) = false) by (eapply dense_rows; eauto).
    exact (stack_scores LA (fun w : QInf => lam (f w)) death_of dzero pzero accumulate n L number fraction Hn HD HG HF base_m T b Hm Ht HB threshold max_layers base ys y H0 Hst Hy Hmax).
  Qed.

  Hypothesis Hlam' : forall x y : QInf, wle x y = true -> wle (search_lam y) (search_lam x) = true.
  Hypothesis Hpos' : forall x, wle (la_zero LA) (search_lam x) = true.
  Hypothesis Hdense' : forall x : Qc, wle (search_lam (Some x)) (la_zero LA) = false.

  Lemma scores_number_ok base_m k threshold max_layers : 4 <= n ->
    exists ys d y, pfit n base_m (Some k) threshold max_layers M core = Ok (ys, d, y) /\ right_scores pzero ys y.
  Proof.
    intro Hn.
    destruct (plscan_number search_lam lam LA death_of dzero garbage garbage_lambda pzero accumulate argsort argsort_counts argsort_labels sort_edges Hlam Hpos HLL Hsort HsortZ HsortL Hedges n M core HM Hdense Hfin Hlam' Hpos' Hdense' base_m k threshold max_layers Hn)
      as (f & L & j & T0 & Sel & m & T & b & base & ys & rows & d & y & Hu & HL & E & _ & _ & _ & _ & H0 & Hm & _ & Ht & HB & Hst & _ & _ & Hy & Hmax).
    exists ys, d, y. split; auto.
    assert (HD : forall r, In r L -> wle (lam (f (l_d r))) (la_zero LA) = false) by (eapply dense_rows; eauto).
    exact (stack_scores LA (fun w : QInf => lam (f w)) death_of dzero pzero accumulate n L number fraction ltac:(lia) HD HG HF m T b Hm Ht HB threshold max_layers base ys y H0 Hst Hy Hmax).
  Qed.
End Runs.

(** ** Exact numbers *)
Definition qfraction (x : Qc) : Prop := (0 <= x)%Qc /\ (x <= 1)%Qc.
Definition a_number (p : QInf) : Prop := p <> None.

Lemma nat_q_lt j k : j < k -> (nat_as_q j < nat_as_q k)%Qc.
Proof.
  intro H. replace k with (j + (k - j)) by lia. rewrite nat_as_q_add, Qclt_minus_iff. replace (nat_as_q j + nat_as_q (k - j) + - nat_as_q j)%Qc with (nat_as_q (k - j)) by ring.
  apply nat_as_q_pos. lia.
Qed.
Lemma nat_q_nonneg k : (0 <= nat_as_q k)%Qc.
Proof. destruct k; [apply Qcle_refl|]. apply Qclt_le_weak. apply nat_as_q_pos. lia. Qed.

Lemma exact_scores : scores_grow a_number qfraction (Some 0%Qc : QInf) add_persistence.
Proof.
  split; [discriminate|]. intros [p|] birth death d Hp Hb [H0 H1]; [|contradiction Hp; reflexivity]. split; [discriminate|].
  unfold wlt. cbn. apply negb_true_iff. apply Qcleb_gt.
  assert (H : (nat_as_q birth * d <= nat_as_q birth)%Qc).
  { rewrite <- (Qcmult_1_r (nat_as_q birth)) at 2. rewrite (Qcmult_comm _ d), (Qcmult_comm _ 1%Qc). apply Qcmult_le_compat_r; auto. apply nat_q_nonneg. }
  assert (H2 : (nat_as_q birth * d < nat_as_q death)%Qc) by (eapply Qcle_lt_trans; [exact H|]; now apply nat_q_lt).
  apply Qclt_minus_iff in H2. rewrite Qclt_minus_iff. replace (p + (nat_as_q death - nat_as_q birth * d) + - p)%Qc with (nat_as_q death + - (nat_as_q birth * d))%Qc by ring. exact H2.
Qed.

(** Denser clusters, lower score. *)
Lemma denser_lower (p : Qc) birth death d d' : 0 < birth -> (d < d')%Qc -> wlt (add_persistence (Some p) birth death d') (add_persistence (Some p) birth death d) = true.
Proof.
  intros Hb Hd. unfold wlt. cbn. apply negb_true_iff. apply Qcleb_gt. rewrite Qclt_minus_iff.
  replace (p + (nat_as_q death - nat_as_q birth * d) + - (p + (nat_as_q death - nat_as_q birth * d')))%Qc with (nat_as_q birth * (d' + - d))%Qc by ring.
  apply Qclt_minus_iff in Hd. assert (H : (0 * (d' + - d) < nat_as_q birth * (d' + - d))%Qc) by (apply Qcmult_lt_compat_r; auto; now apply nat_as_q_pos).
  rewrite Qcmult_0_l in H. exact H.
Qed.

Lemma add_mono (p q : Qc) birth death d d' : (p <= q)%Qc -> (d <= d')%Qc -> exists x y, add_persistence (Some p) birth death d' = Some x /\ add_persistence (Some q) birth death d = Some y /\ (x <= y)%Qc.
Proof.
  intros Hp Hd. eexists _, _. split; [reflexivity|]. split; [reflexivity|]. apply Qcplus_le_compat; auto. unfold Qcminus. apply Qcplus_le_compat; [apply Qcle_refl|].
  apply Qcopp_le_compat. rewrite !(Qcmult_comm (nat_as_q birth)). apply Qcmult_le_compat_r; auto. apply nat_q_nonneg.
Qed.

Lemma denser_scores (b b' : barcode Qc) s : b_nodes b = b_nodes b' -> (forall i, b_births b i = b_births b' i) -> (forall i, b_deaths b i = b_deaths b' i) -> (forall i, (b_lambdas b i <= b_lambdas b' i)%Qc) ->
  wle (persistence_at (Some 0%Qc : QInf) add_persistence b' s) (persistence_at (Some 0%Qc : QInf) add_persistence b s) = true.
Proof.
  intros H1 H2 H3 H4. unfold persistence_at.
  assert (EA : alive b' s = alive b s) by (unfold alive; rewrite H1; apply filter_ext; intro i; now rewrite H2, H3). rewrite EA. clear EA.
  generalize (filter (fun i => negb (i =? 0)) (alive b s)). intro l.
  assert (H : forall p q : Qc, (p <= q)%Qc -> exists x y, fold_left (fun p i => add_persistence p (b_births b' i) (b_deaths b' i) (b_lambdas b' i)) l (Some p) = Some x /\
    fold_left (fun p i => add_persistence p (b_births b i) (b_deaths b i) (b_lambdas b i)) l (Some q) = Some y /\ (x <= y)%Qc).
  { induction l as [|i l IH]; intros p q Hpq; [exists p, q; auto|]. cbn [fold_left]. rewrite <- H2, <- H3.
    destruct (add_mono p q (b_births b i) (b_deaths b i) _ _ Hpq (H4 i)) as (x & y & -> & -> & Hxy). apply (IH x y Hxy). }
  destruct (H 0%Qc 0%Qc (Qcle_refl _)) as (x & y & Ex & Ey & Hxy).
  match goal with |- wle ?u ?v = true => change (wle (w := QInf) u v = true) end. rewrite Ex, Ey. cbn. now apply Qcleb_le.
Qed.

(** ** Samples on a line *)
Definition half_density (v : QInf) : Qc := match v with Some q => if Qcleb 0 q then (q / (1 + q))%Qc else 0%Qc | None => 1%Qc end.
Lemma half_density_fraction v : qfraction (half_density v).
Proof.
  destruct v as [q|]; cbn; [|split; discriminate]. destruct (Qcleb 0 q) eqn:E; [|split; discriminate]. apply Qcleb_le in E.
  assert (H1 : (0 < 1 + q)%Qc) by (eapply Qclt_le_trans; [|apply Qcplus_le_compat; [apply Qcle_refl|exact E]]; reflexivity).
  assert (H2 : (0 < / (1 + q))%Qc) by now apply Qcinv_pos. split.
  - unfold Qcdiv. rewrite <- (Qcmult_0_l (/ (1 + q))%Qc). apply Qcmult_le_compat_r; auto. now apply Qclt_le_weak.
  - assert (E1 : ((1 + q) / (1 + q) = 1)%Qc) by (apply Qcmult_inv_r; intro K; rewrite K in H1; discriminate). apply (Qcle_trans _ ((1 + q) / (1 + q))%Qc); [|rewrite E1; apply Qcle_refl]. unfold Qcdiv. apply Qcmult_le_compat_r; [|now apply Qclt_le_weak].
    rewrite <- (Qcplus_0_l q) at 1. apply Qcplus_le_compat; [discriminate|apply Qcle_refl].
Qed.
