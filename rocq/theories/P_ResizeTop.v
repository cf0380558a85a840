(** Runs with different settings on the same data. *)
From Coq Require Import List Arith Lia Bool Permutation Sorted ZArith QArith Qcanon.
From Verif Require Import Prelude Order Graph Size Num Forest S_Kruskal M_Kruskal M_KruskalEntry P_KruskalEntry M_Linkage S_Linkage M_Condense S_Condense M_Select S_Select M_Labels S_Labels
  M_Pipeline S_Pipeline P_PipelineTop P_PipelineEx P_PipelineRun P_PipelineMeaning M_Estimator P_EstimatorEx S_Estimator P_Estimator P_Detector P_Sort S_Dbscan P_Dbscan S_Level P_Level P_LevelTop P_JoinTop P_SplitTop S_Resize P_Resize P_ResizeLeaf P_SimplifyTop M_Simplify.
Import ListNotations.
Local Open Scope nat_scope.

Lemma leaf_one_root {V Sz} (st : settings V Sz) : cluster_selection_method st = Leaf -> cluster_selection_epsilon st = None -> one_root st.
Proof. intros H E. split; [intros _ K; congruence|auto]. Qed.

Section Plain.
  Context {W V : WOrd}.
  Variables (lam : W -> V) (LA : LamArith V) (A : Arith V NatSize) (garbage : nat -> V)
    (by_parent : list (crow V NatSize) -> list (crow V NatSize)) (st st' : settings V NatSize) (n : nat) (M : list (edge W)).
  Hypothesis HK : setting_ok lam LA A by_parent st.
  Hypothesis HK' : setting_ok lam LA A by_parent st'.
  Hypothesis HM : spanning_tree n M.
  Hypothesis Hn : 2 <= n.
  Notation run s := (clusters_from_spanning_tree lam LA A garbage by_parent s M).

  Lemma plain_same : exists L, forall s ls ps T, setting_ok lam LA A by_parent s -> run s = Ok (ls, ps, T) ->
    exists T0 ch fin, explained lam LA s n (fun _ => 1 : NatSize) M ls ps T L T0 ch fin.
  Proof.
    destruct (linkage_plain n M HM) as (L & EL & HL). exists L. intros s ls ps T Hs ER. unfold clusters_from_spanning_tree in ER. rewrite EL in ER. cbn [bind] in ER.
    rewrite (facts_length n M HM) in ER. destruct (run_explained lam LA A garbage by_parent s n _ M L Hs HL Hn eq_refl) with (ls := ls) (ps := ps) (T := T) as (T0 & ch & fin & HX & _); eauto.
    intros x _. pose proof (us_size _ _ (so_usable _ _ _ _ _ Hs)) as H. apply slt_true in H. auto.
  Qed.

  Variables (ls ls' : list Z) (ps ps' : list V) (T T' : list (crow V NatSize)).
  Hypothesis E : run st = Ok (ls, ps, T).
  Hypothesis E' : run st' = Ok (ls', ps', T').

  Lemma plain_never_cross : (forall e, In e M -> wlt (la_zero LA) (lam (ewt e)) = true) -> one_root st -> one_root st' -> never_cross n ls ls'.
  Proof.
    intros Hpos H1 H2. destruct plain_same as (L & HL). destruct (HL st ls ps T HK E) as (T0 & ch & fin & HX). destruct (HL st' ls' ps' T' HK' E') as (T0' & ch' & fin' & HX').
    eapply explained_never_cross; eauto; [apply (so_antitone _ _ _ _ _ HK)|apply (so_usable _ _ _ _ _ HK)|apply (so_usable _ _ _ _ _ HK')].
  Qed.
  Lemma plain_resized P : min_cluster_size st <= min_cluster_size st' -> cluster_selection_persistence st = None -> cluster_selection_persistence st' = None ->
    (hierarchy_cluster n T' P <-> hierarchy_cluster_of_size n T (min_cluster_size st') P).
  Proof.
    intros Hm H1 H2. destruct plain_same as (L & HL). destruct (HL st ls ps T HK E) as (T0 & ch & fin & HX). destruct (HL st' ls' ps' T' HK' E') as (T0' & ch' & fin' & HX').
    eapply explained_resized; eauto. now apply Nat.leb_le.
  Qed.
  Lemma plain_fewer P : stricter st st' -> hierarchy_cluster n T' P -> hierarchy_cluster n T P.
  Proof.
    intros Hst. destruct plain_same as (L & HL). destruct (HL st ls ps T HK E) as (T0 & ch & fin & HX). destruct (HL st' ls' ps' T' HK' E') as (T0' & ch' & fin' & HX').
    eapply explained_fewer; eauto; [apply (so_antitone _ _ _ _ _ HK)|apply (so_usable _ _ _ _ _ HK)].
  Qed.
  Lemma plain_contains : stricter st st' ->
    cluster_selection_epsilon st = None -> cluster_selection_epsilon st' = None -> cluster_selection_method st = Leaf -> cluster_selection_method st' = Leaf ->
    (forall e, In e M -> wlt (la_zero LA) (lam (ewt e)) = true) -> contains_cluster n ls ls' /\ cluster_count ls' <= cluster_count ls.
  Proof.
    intros Hst H3 H4 H5 H6 Hpos. destruct plain_same as (L & HL). destruct (HL st ls ps T HK E) as (T0 & ch & fin & HX). destruct (HL st' ls' ps' T' HK' E') as (T0' & ch' & fin' & HX').
    assert (K : contains_cluster n ls ls') by (eapply explained_leaves; eauto; [apply (so_antitone _ _ _ _ _ HK)|apply (so_usable _ _ _ _ _ HK)]). split; auto. apply (containment_count n); auto.
    - destruct (plain_total lam LA A garbage by_parent st n M HK HM Hn) as [(a & b & c & F & Hc & _)|[_ F]]; [|congruence]. assert (ls = a) as -> by congruence. apply Hc.
    - destruct (plain_total lam LA A garbage by_parent st' n M HK' HM Hn) as [(a & b & c & F & Hc & _)|[_ F]]; [|congruence]. assert (ls' = a) as -> by congruence. apply Hc.
  Qed.
End Plain.

Section Weighted.
  Context {W V : WOrd} {Sz : SOrd}.
  Variables (lam : W -> V) (LA : LamArith V) (A : Arith V Sz) (garbage : nat -> V)
    (by_parent : list (crow V Sz) -> list (crow V Sz)) (st st' : settings V Sz) (n : nat) (M : list (edge W)) (ws : list Sz).
  Hypothesis HK : setting_ok lam LA A by_parent st.
  Hypothesis HK' : setting_ok lam LA A by_parent st'.
  Hypothesis HM : spanning_tree n M.
  Hypothesis Hn : 2 <= n.
  Hypothesis Hlen : length ws = n.
  Hypothesis Hone : sle (s := Sz) szero sone = true.
  Notation wt := (fun x => nth x ws szero).
  Notation run s := (clusters_from_spanning_tree_weighted lam LA A garbage by_parent s M ws).

  Lemma weighted_same : exists L, forall s ls ps T, setting_ok lam LA A by_parent s -> (forall w, In w ws -> slt w (min_cluster_size s) = true) ->
    run s = Ok (ls, ps, T) -> exists T0 ch fin, explained lam LA s n wt M ls ps T L T0 ch fin.
  Proof.
    destruct (linkage_weighted n M ws HM Hlen) as (L & EL & HL). exists L. intros s ls ps T Hs Hw ER. unfold clusters_from_spanning_tree_weighted in ER. rewrite EL in ER. cbn [bind] in ER.
    rewrite (facts_length n M HM) in ER. destruct (run_explained lam LA A garbage by_parent s n _ M L Hs HL Hn Hone) with (ls := ls) (ps := ps) (T := T) as (T0 & ch & fin & HX & _); eauto.
    intros x Hx. apply slt_true. apply Hw. apply nth_In. lia.
  Qed.

  Variables (ls ls' : list Z) (ps ps' : list V) (T T' : list (crow V Sz)).
  Hypothesis Hw : forall w, In w ws -> sle szero w = true /\ slt w (min_cluster_size st) = true /\ slt w (min_cluster_size st') = true.
  Hypothesis E : run st = Ok (ls, ps, T).
  Hypothesis E' : run st' = Ok (ls', ps', T').

  Lemma weighted_both : exists L, (exists T0 ch fin, explained lam LA st n wt M ls ps T L T0 ch fin) /\ (exists T0 ch fin, explained lam LA st' n wt M ls' ps' T' L T0 ch fin).
  Proof.
    destruct weighted_same as (L & HL). exists L. split; [apply (HL st ls ps T HK); auto|apply (HL st' ls' ps' T' HK'); auto]; intros w K; now apply Hw.
  Qed.
  Lemma ws_pos x : x < n -> sle szero (nth x ws szero) = true.
  Proof. intro Hx. apply Hw, nth_In. lia. Qed.
  Lemma weighted_never_cross : (forall e, In e M -> wlt (la_zero LA) (lam (ewt e)) = true) -> one_root st -> one_root st' -> never_cross n ls ls'.
  Proof.
    intros Hpos H1 H2. destruct weighted_both as (L & (T0 & ch & fin & HX) & (T0' & ch' & fin' & HX')).
    eapply explained_never_cross; eauto; [apply (so_antitone _ _ _ _ _ HK)|apply (so_usable _ _ _ _ _ HK)|apply (so_usable _ _ _ _ _ HK')].
  Qed.
  Lemma weighted_resized P : sle (min_cluster_size st) (min_cluster_size st') = true -> cluster_selection_persistence st = None -> cluster_selection_persistence st' = None ->
    (hierarchy_cluster n T' P <-> hierarchy_cluster_of_size n T (min_cluster_size st') P).
  Proof.
    intros Hm H1 H2. destruct weighted_both as (L & (T0 & ch & fin & HX) & (T0' & ch' & fin' & HX')). eapply explained_resized; eauto. apply ws_pos.
  Qed.
  Lemma weighted_fewer P : stricter st st' -> hierarchy_cluster n T' P -> hierarchy_cluster n T P.
  Proof.
    intros Hst. destruct weighted_both as (L & (T0 & ch & fin & HX) & (T0' & ch' & fin' & HX')).
    eapply explained_fewer; eauto; [apply (so_antitone _ _ _ _ _ HK)|apply ws_pos|apply (so_usable _ _ _ _ _ HK)].
  Qed.
  Lemma weighted_contains : stricter st st' ->
    cluster_selection_epsilon st = None -> cluster_selection_epsilon st' = None -> cluster_selection_method st = Leaf -> cluster_selection_method st' = Leaf ->
    (forall e, In e M -> wlt (la_zero LA) (lam (ewt e)) = true) -> contains_cluster n ls ls' /\ cluster_count ls' <= cluster_count ls.
  Proof.
    intros Hst H3 H4 H5 H6 Hpos. destruct weighted_both as (L & (T0 & ch & fin & HX) & (T0' & ch' & fin' & HX')).
    assert (K : contains_cluster n ls ls') by (eapply explained_leaves; eauto; [apply (so_antitone _ _ _ _ _ HK)|apply ws_pos|apply (so_usable _ _ _ _ _ HK)]). split; auto. apply (containment_count n); auto.
    - destruct (weighted_total lam LA A garbage by_parent st n M ws HK HM Hn Hlen Hone) as [(a & b & c & F & Hc & _)|[_ F]]; [intros w K0; now apply Hw| |congruence]. assert (ls = a) as -> by congruence. apply Hc.
    - destruct (weighted_total lam LA A garbage by_parent st' n M ws HK' HM Hn Hlen Hone) as [(a & b & c & F & Hc & _)|[_ F]]; [intros w K0; now apply Hw| |congruence]. assert (ls' = a) as -> by congruence. apply Hc.
  Qed.
End Weighted.

Section Fit.
  Context {W V : WOrd} {Row : Type}.
  Variables (lam : W -> V) (LA : LamArith V) (garbage : nat -> V) (zero : W) (dist : Row -> Row -> W) (ms : nat)
    (finite : Row -> bool) (set_list : list nat -> list nat) (X : list Row) (A : Arith V NatSize)
    (by_parent : list (crow V NatSize) -> list (crow V NatSize)) (st st' : settings V NatSize).
  Hypothesis Hset : forall l, Permutation (set_list l) l.
  Hypothesis HK : setting_ok lam LA A by_parent st.
  Hypothesis HK' : setting_ok lam LA A by_parent st'.
  Hypothesis Sym : forall a b, dist a b = dist b a.
  Hypothesis Self : forall a b, wle (dist a a) (dist a b) = true.
  Hypothesis Least : forall a b, wle zero (dist a b) = true.
  Notation F := (filter finite X).
  Hypothesis Hn : (if forallb finite X then 2 else 3) <= length F.
  Hypothesis Hms : ms < length F.
  Hypothesis Hpos : forall a b, In a X -> In b X -> finite a = true -> finite b = true -> wlt (la_zero LA) (lam (dist a b)) = true.
  Notation run s := (fit (la_zero LA) finite set_list (fast_hdbscan lam LA garbage (pairs_mst zero dist ms) A by_parent s) X).
  Variables r r' : fitted W V NatSize.
  Hypothesis E : run st = Ok r.
  Hypothesis E' : run st' = Ok r'.

  (** The labels of both runs at the places of the complete rows. *)
  Lemma fit_both : exists M ls ps T ls' ps' T' pos, spanning_tree (length F) M /\ (forall e, In e M -> wlt (la_zero LA) (lam (ewt e)) = true) /\
    clusters_from_spanning_tree lam LA A garbage by_parent st M = Ok (ls, ps, T) /\ clusters_from_spanning_tree lam LA A garbage by_parent st' M = Ok (ls', ps', T') /\
    places finite X pos /\
    (forall i, i < length F -> nth (pos i) (f_labels r) 0%Z = nth i ls 0%Z) /\ (forall p, p < length X -> nth p (f_labels r) 0%Z <> (-1)%Z -> exists i, i < length F /\ pos i = p) /\
    (forall i, i < length F -> nth (pos i) (f_labels r') 0%Z = nth i ls' 0%Z) /\ (forall p, p < length X -> nth p (f_labels r') 0%Z <> (-1)%Z -> exists i, i < length F /\ pos i = p) /\
    length (f_labels r) = length X /\ length (f_labels r') = length X.
  Proof.
    destruct (finite_pairs zero dist ms finite X Sym Self Least Hn) as (M & EM & HM & _).
    assert (HP : forall e, In e M -> wlt (la_zero LA) (lam (ewt e)) = true) by (eapply weights_pos; eauto).
    destruct (fit_reduces lam LA garbage zero dist ms finite set_list X A by_parent st Hset HK Hn M EM HM) as [(ls & ps & T & r1 & E1 & E2 & Hl & pos & HPl & Hlab & Hfrom)|[_ E1]]; [|congruence].
    destruct (fit_reduces lam LA garbage zero dist ms finite set_list X A by_parent st' Hset HK' Hn M EM HM) as [(ls' & ps' & T' & r1' & E1' & E2' & Hl' & pos' & HPl' & Hlab' & Hfrom')|[_ E1']]; [|congruence].
    assert (r1 = r) by congruence. subst r1. assert (r1' = r') by congruence. subst r1'. pose proof (places_unique finite X pos pos' HPl HPl') as EP.
    exists M, ls, ps, T, ls', ps', T', pos. repeat (split; auto).
    - intros i Hi. rewrite (EP i Hi). auto.
    - intros p Hp Lp. destruct (Hfrom' p Hp Lp) as (i & Hi & <-). exists i. split; auto.
  Qed.

  Lemma fit_never_cross : one_root st -> one_root st' -> never_cross (length X) (f_labels r) (f_labels r').
  Proof.
    intros H1 H2. destruct fit_both as (M & ls & ps & T & ls' & ps' & T' & pos & HM & HP & E1 & E2 & Pl & La & Fr & La' & Fr' & _).
    assert (H2F : 2 <= length F) by (destruct (forallb finite X); lia).
    pose proof (plain_never_cross lam LA A garbage by_parent st st' (length F) M HK HK' HM H2F ls ls' ps ps' T T' E1 E2 HP H1 H2) as NC.
    intros x y Hx Hy Lx Ly. destruct (Fr x Hx Lx) as (i & Hi & <-). destruct (Fr' y Hy Ly) as (j & Hj & <-).
    rewrite La in Lx by auto. rewrite La' in Ly by auto.
    assert (CO : forall z, cluster_of (length X) (f_labels r) (pos i) z <-> exists k, k < length F /\ z = pos k /\ cluster_of (length F) ls i k).
    { intro z. unfold cluster_of. rewrite (La i Hi). split.
      - intros [Hz Ez]. destruct (Fr z Hz ltac:(congruence)) as (k & Hk & <-). exists k. rewrite La in Ez by auto. auto.
      - intros (k & Hk & -> & _ & Ek). split; [eapply pos_range; eauto|]. rewrite La by auto. auto. }
    assert (CO' : forall z, cluster_of (length X) (f_labels r') (pos j) z <-> exists k, k < length F /\ z = pos k /\ cluster_of (length F) ls' j k).
    { intro z. unfold cluster_of. rewrite (La' j Hj). split.
      - intros [Hz Ez]. destruct (Fr' z Hz ltac:(congruence)) as (k & Hk & <-). exists k. rewrite La' in Ez by auto. auto.
      - intros (k & Hk & -> & _ & Ek). split; [eapply pos_range; eauto|]. rewrite La' by auto. auto. }
    destruct (NC i j Hi Hj Lx Ly) as [K|[K|K]].
    - left. intros z Hz. apply CO in Hz as (k & Hk & -> & Hc). apply CO'. eauto.
    - right; left. intros z Hz. apply CO' in Hz as (k & Hk & -> & Hc). apply CO. eauto.
    - right; right. intros z Hz Hz'. apply CO in Hz as (k & Hk & -> & Hc). apply CO' in Hz' as (k' & Hk' & Ek & Hc').
      apply (pos_inj finite X pos Pl) in Ek; auto. subst k'. eapply K; eauto.
  Qed.

  Lemma fit_contains : stricter st st' ->
    cluster_selection_epsilon st = None -> cluster_selection_epsilon st' = None -> cluster_selection_method st = Leaf -> cluster_selection_method st' = Leaf ->
    contains_cluster (length X) (f_labels r) (f_labels r') /\ cluster_count (f_labels r') <= cluster_count (f_labels r).
  Proof.
    intros Hst H3 H4 H5 H6. destruct fit_both as (M & ls & ps & T & ls' & ps' & T' & pos & HM & HP & E1 & E2 & Pl & La & Fr & La' & Fr' & Ln & Ln').
    assert (H2F : 2 <= length F) by (destruct (forallb finite X); lia).
    destruct (plain_contains lam LA A garbage by_parent st st' (length F) M HK HK' HM H2F ls ls' ps ps' T T' E1 E2 Hst H3 H4 H5 H6 HP) as [K _].
    assert (KC : contains_cluster (length X) (f_labels r) (f_labels r')); [|split; auto; apply (containment_count (length X)); auto].
    intros y Hy Ly. destruct (Fr' y Hy Ly) as (j & Hj & <-). rewrite La' in Ly by auto. destruct (K j Hj Ly) as (i & Hi & Li & Hz).
    exists (pos i). split; [eapply pos_range; eauto|]. split; [now rewrite La|]. intros z [Hzn Ez]. rewrite La in Ez by auto.
    destruct (Fr z Hzn ltac:(congruence)) as (k & Hk & <-). rewrite La in Ez by auto. split; auto. rewrite !La' by auto. apply (Hz k). split; auto.
  Qed.
End Fit.

(** Larger thresholds are stricter. *)
Lemma exact_stricter (Sz : SOrd) (mcs mcs' : Sz) (m m' : selection_method) (a a' : bool) (e e' p p' : Qc) :
  sle mcs mcs' = true -> (p <= p')%Qc -> stricter (exact_settings mcs m a e p) (exact_settings mcs' m' a' e' p').
Proof.
  intros Hm Hp. split; auto. cbn. destruct (Qcleb p 0) eqn:P0; auto. destruct (Qcleb p' 0) eqn:P1.
  - exfalso. apply Qcleb_le in P1. assert (Qcleb p 0 = true) by (apply Qcleb_le; eapply Qcle_trans; eauto). congruence.
  - intros [b|] [d|]; cbn; auto. rewrite !Qcleb_le. intro H. eapply Qcle_trans; eauto.
Qed.
