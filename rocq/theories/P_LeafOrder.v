(** C56: leaf clusters depend on the order of the distances only. *)
From Coq Require Import List Arith Lia Bool ZArith Permutation Sorted QArith Qcanon.
From Verif Require Import Prelude Order Graph Size Num P_Sort S_Kruskal S_Precomputed M_Kruskal M_KruskalEntry M_Precomputed P_PrecomputedTop M_Linkage S_Linkage M_Condense S_Condense
  M_Select M_Labels S_Labels M_Epsilon M_Simplify M_Pipeline S_Pipeline P_EpsilonTop P_Pipeline P_PipelineTop P_PipelineRun P_PipelineEx
  S_Equi P_Equi P_Determined P_Scale P_KruskalMap S_CoreGraph P_WeightsBoruvka P_EquiTop.
Import ListNotations.
Local Open Scope nat_scope.

Section Generic.
  Context {W W' V V' : WOrd} {Sz : SOrd} (f : W -> W') (g : V -> V').
  Hypothesis Hg : forall x y, wle (g x) (g y) = wle x y.
  Variables (lam : W -> V) (lam' : W' -> V') (LA : LamArith V) (LA' : LamArith V') (A : Arith V Sz) (A' : Arith V' Sz).
  Hypothesis Hlam : forall w, lam' (f w) = g (lam w).
  Hypothesis Hz : la_zero LA' = g (la_zero LA).
  Variables (g0 : nat -> V) (g0' : nat -> V') (by1 : list (crow V Sz) -> list (crow V Sz)) (by2 : list (crow V' Sz) -> list (crow V' Sz))
    (st : settings V Sz) (st' : settings V' Sz).
  Hypothesis Hby : forall ct, by2 (map (map_crow g) ct) = map (map_crow g) (by1 ct).
  Hypothesis Hst : min_cluster_size st' = min_cluster_size st.
  Hypothesis Hm : cluster_selection_method st = Leaf.
  Hypothesis Hm' : cluster_selection_method st' = Leaf.
  Hypothesis Hp : cluster_selection_persistence st = None.
  Hypothesis Hp' : cluster_selection_persistence st' = None.
  Hypothesis Heps : match cluster_selection_epsilon st, cluster_selection_epsilon st' with
      | Some (lt, e), Some (lt', e') => (forall l, lt' (g l) = lt l) /\ e' = g e
      | None, None => True | _, _ => False end.

  Lemma leaf_labels_map wts n (L : list (lrow W Sz)) ls ps T ls' ps' T' :
    clusters_from_linkage_tree lam LA A g0 by1 st wts n L = Ok (ls, ps, T) ->
    clusters_from_linkage_tree lam' LA' A' g0' by2 st' wts n (map (map_lrow f) L) = Ok (ls', ps', T') ->
    ls' = ls /\ T' = map (map_crow g) T.
  Proof.
    unfold clusters_from_linkage_tree, condensed_tree_of. rewrite Hst, Hp, Hp'.
    pose proof (condense_tree_map (W := W) (W' := W') (V := V) (V' := V') f g lam lam' (min_cluster_size st) None wts L Hlam) as HC.
    destruct (condense_tree L lam (min_cluster_size st) None wts) as [T0|]; [|discriminate].
    destruct (condense_tree (map (map_lrow f) L) lam' (min_cluster_size st) None wts) as [T1|]; [|contradiction]. cbn [rel_res] in HC. subst T1. cbn [bind].
    unfold selected_clusters_of. rewrite Hm, Hm', cluster_tree_map.
    set (ct := cluster_tree_from_condensed_tree T0).
    assert (ES : match map (map_crow g) ct with [] => Ok [] | _ :: _ => cluster_tree_leaves (map (map_crow g) ct) n end = match ct with [] => Ok [] | _ :: _ => cluster_tree_leaves ct n end).
    { destruct ct as [|r l]; [reflexivity|]. rewrite map_cons. cbv iota. rewrite <- map_cons. apply (leaves_map g). }
    rewrite ES. clear ES. destruct (match ct with [] => Ok [] | _ :: _ => cluster_tree_leaves ct n end) as [S|]; [|discriminate]. cbn [bind].
    assert (EE : epsilon_clusters_of by2 st' (map (map_crow g) T0) S = epsilon_clusters_of by1 st T0 S).
    { unfold epsilon_clusters_of. rewrite cluster_tree_map. fold ct. rewrite Hby. destruct (cluster_selection_epsilon st) as [[lt e]|], (cluster_selection_epsilon st') as [[lt' e']|]; try contradiction; auto.
      destruct Heps as [He _]. destruct (1 <? length S); auto. now apply epsilon_map. }
    rewrite EE. destruct (epsilon_clusters_of by1 st T0 S) as [E|]; [|discriminate]. cbn [bind]. unfold labels_and_strengths_of.
    assert (E3 : option_map snd (cluster_selection_epsilon st') = option_map g (option_map snd (cluster_selection_epsilon st))).
    { destruct (cluster_selection_epsilon st) as [[lt e]|], (cluster_selection_epsilon st') as [[lt' e']|]; try contradiction; auto. destruct Heps as [_ ->]. reflexivity. }
    rewrite E3, (labels_map g Hg LA LA' Hz). destruct (get_cluster_label_vector LA T0 E _ n) as [l0|]; [|discriminate]. cbn [bind].
    destruct (get_point_membership_strength_vector LA T0 E l0); [|discriminate]. destruct (get_point_membership_strength_vector LA' _ E l0); [|discriminate].
    cbn [bind]. intros H1 H2. injection H1 as <- _ <-. injection H2 as <- _ <-. auto.
  Qed.
End Generic.

(** ** Exact numbers *)
Notation lamv := hdbscan_lambda_value.
Notation q0 := (Some 0%Qc : QInf).
Lemma lam_invol (a : QInf) : wle q0 a = true -> lamv (lamv a) = a.
Proof.
  destruct a as [a|]; [|reflexivity]. cbn. intro H. destruct (Qcleb a 0) eqn:E.
  - apply Qcleb_le in H, E. cbn. f_equal. now apply Qcle_antisym.
  - apply Qcleb_gt in E. cbn. destruct (Qcleb (/ a) 0) eqn:E2; [|f_equal; now apply inv_inv].
    exfalso. apply Qcleb_le in E2. apply (Qclt_not_le _ _ (Qcinv_pos a E) E2).
Qed.
Lemma lam_anti (a b : QInf) : wle q0 a = true -> wle q0 b = true -> wle (lamv b) (lamv a) = wle a b.
Proof.
  intros Ha Hb. destruct (wle a b) eqn:E; [now apply hdbscan_lambda_antitone|].
  destruct (wle (lamv b) (lamv a)) eqn:E2; auto. apply hdbscan_lambda_antitone in E2. rewrite !lam_invol in E2 by auto. congruence.
Qed.

Section Exact.
  Variable f : QInf -> QInf.
  Hypothesis Hf : forall x y, wle (f x) (f y) = wle x y.
  Hypothesis Hf0 : f q0 = q0.
  Hypothesis Hinf : f winf = winf.

  Lemma f_nonneg x : wle q0 (f x) = wle q0 x.
  Proof. rewrite <- Hf0 at 1. apply Hf. Qed.
  Lemma f_nonpos x : wle (f x) q0 = wle x q0.
  Proof. rewrite <- Hf0 at 1. apply Hf. Qed.
  Definition dens (v : QInf) : QInf := if wle q0 v then lamv (f (lamv v)) else v.

  Lemma dens_nonneg v : wle q0 (dens v) = wle q0 v.
  Proof. unfold dens. destruct (wle q0 v) eqn:E; auto. apply exact_nonneg. Qed.
  Lemma lam_nonpos (w : QInf) : wle w q0 = true -> lamv w = None.
  Proof. destruct w as [w|]; [|discriminate]. cbn. now intros ->. Qed.
  Lemma dens_le x y : wle (dens x) (dens y) = wle x y.
  Proof.
    destruct (wle q0 x) eqn:Ex, (wle q0 y) eqn:Ey.
    - unfold dens. rewrite Ex, Ey. rewrite lam_anti by (rewrite f_nonneg; apply exact_nonneg). rewrite Hf. now apply lam_anti.
    - unfold dens at 2. rewrite Ey. destruct (wle x y) eqn:E1.
      + assert (wle q0 y = true); [|congruence]. now apply (wle_trans QInf _ x).
      + destruct (wle (dens x) y) eqn:E2; auto. assert (wle q0 y = true); [|congruence]. apply (wle_trans QInf _ (dens x)); auto. now rewrite dens_nonneg.
    - unfold dens at 1. rewrite Ex. assert (Hx : wle x q0 = true) by (destruct (wle_total QInf q0 x); [congruence|auto]).
      rewrite (wle_trans QInf x q0 y) by auto. apply (wle_trans QInf x q0 (dens y)); auto. now rewrite dens_nonneg.
    - unfold dens. now rewrite Ex, Ey.
  Qed.
  Lemma lam_f w : lamv (f w) = dens (lamv w).
  Proof.
    unfold dens. rewrite exact_nonneg. destruct (wle q0 w) eqn:E; [now rewrite lam_invol|].
    assert (Hw : wle w q0 = true) by (destruct (wle_total QInf q0 w); [congruence|auto]).
    rewrite (lam_nonpos w Hw), lam_nonpos by now rewrite f_nonpos. cbn [lamv]. change (if Qcleb 0 0 then None else Some (/ 0)%Qc) with (@None Qc).
    rewrite Hf0. reflexivity.
  Qed.
  Lemma dens_zero : dens q0 = q0.
  Proof. unfold dens. rewrite wle_refl. change (lamv q0) with (winf : QInf). rewrite Hinf. reflexivity. Qed.

  Lemma lt_eps_lam e l : wle q0 l = true -> exact_lt_eps e l = wlt (lamv l) (Some e : QInf).
  Proof.
    destruct l as [l|]; cbn; auto. intro H. destruct (Qcleb l 0) eqn:E; reflexivity.
  Qed.
  Lemma lt_eps_f e e' l : f (Some e) = Some e' -> exact_lt_eps e' (dens l) = exact_lt_eps e l.
  Proof.
    intro He. destruct (wle q0 l) eqn:El.
    - rewrite !lt_eps_lam by (auto; now rewrite dens_nonneg). unfold dens. rewrite El, lam_invol by (rewrite f_nonneg; apply exact_nonneg).
      unfold wlt. rewrite <- He. now rewrite Hf.
    - unfold dens. rewrite El. destruct l as [l|]; [|discriminate]. cbn in El. cbn. assert (Hl : Qcleb l 0 = true); [|now rewrite Hl].
      destruct (Qcleb_total 0 l); [congruence|auto].
  Qed.

  Lemma linkage_f M : mst_to_linkage_tree (sort_mst (map (map_edge f) M)) = map_ok (map (map_lrow f)) (mst_to_linkage_tree (sort_mst M)).
  Proof.
    rewrite (sort_mst_map (W := QInf) (W' := QInf) f Hf). apply rel_map. unfold mst_to_linkage_tree. rewrite map_length. apply linkage_loop_map.
  Qed.
  Lemma no_failure (st : settings QInf NatSize) n wt r : cluster_selection_persistence st = None -> completes ExactLam st n wt r -> exists ls ps T, r = Ok (ls, ps, T).
  Proof. intros Hp [(ls & ps & T & E & _)|[H _]]; [eauto|congruence]. Qed.

  Lemma leaf_same g g' by1 by2 mcs a a' e e' n M : sorts_by_parent by1 -> sorts_by_parent by2 -> 2 <= mcs -> spanning_tree n M -> 2 <= n ->
    f (Some e) = Some e' ->
    exists ls ps T ps', exact_clusters g by1 (exact_settings (Sz := NatSize) mcs Leaf a e 0%Qc) M = Ok (ls, ps, T) /\
      exact_clusters g' by2 (exact_settings (Sz := NatSize) mcs Leaf a' e' 0%Qc) (map (map_edge f) M) = Ok (ls, ps', map (map_crow dens) T).
  Proof.
    intros H1 H2 Hm HM Hn He. unfold exact_clusters. pose proof (reweigh_tree n f M HM) as HM'. change (map (reweigh f) M) with (map (map_edge f) M) in HM'.
    rewrite (plain_same (W := QInf) (V := QInf) _ _ _ g' g' by2 stable_by _ n _ (exact_ok _ _ _ _ _ _ _ H2 (nat_mcs _ Hm)) stable_sorts HM' Hn).
    rewrite (plain_same (W := QInf) (V := QInf) _ _ _ g g by1 stable_by _ n _ (exact_ok _ _ _ _ _ _ _ H1 (nat_mcs _ Hm)) stable_sorts HM Hn).
    destruct (no_failure (exact_settings (Sz := NatSize) mcs Leaf a e 0%Qc) _ _ _ eq_refl
      (plain_total (W := QInf) (V := QInf) hdbscan_lambda_value ExactLam _ g stable_by _ n M (exact_ok (Sz := NatSize) nat_as_q _ _ _ _ _ _ stable_sorts (nat_mcs _ Hm)) HM Hn)) as (ls & ps & T & E1).
    destruct (no_failure (exact_settings (Sz := NatSize) mcs Leaf a' e' 0%Qc) _ _ _ eq_refl
      (plain_total (W := QInf) (V := QInf) hdbscan_lambda_value ExactLam _ g' stable_by _ n _ (exact_ok (Sz := NatSize) nat_as_q _ _ _ _ _ _ stable_sorts (nat_mcs _ Hm)) HM' Hn)) as (ls' & ps' & T' & E2).
    exists ls, ps, T, ps'. split; auto. rewrite E2. revert E1 E2. unfold clusters_from_spanning_tree. rewrite linkage_f, map_length.
    destruct (mst_to_linkage_tree (sort_mst M)) as [L|]; [|discriminate]. cbn [map_ok bind]. intros E1 E2.
    assert (HB : forall ct : list (crow QInf NatSize), stable_by (map (map_crow dens) ct) = map (map_crow dens) (stable_by ct)).
    { intro ct. apply nsort_map. reflexivity. }
    assert (Heps : match cluster_selection_epsilon (exact_settings (Sz := NatSize) mcs Leaf a e 0%Qc), cluster_selection_epsilon (exact_settings (Sz := NatSize) mcs Leaf a' e' 0%Qc) with
      | Some (lt, i), Some (lt', i') => (forall l, lt' (dens l) = lt l) /\ i' = dens i
      | None, None => True | _, _ => False end).
    { cbn [cluster_selection_epsilon exact_settings]. pose proof (f_nonpos (Some e)) as H. rewrite He in H. cbn in H. rewrite H. destruct (Qcleb e 0) eqn:Ee; auto. split.
      - intro l. now apply lt_eps_f.
      - pose proof (lam_f (Some e)) as K. rewrite He in K. cbn in K. rewrite H, Ee in K. cbn in K. exact K. }
    destruct (leaf_labels_map (W := QInf) (W' := QInf) (V := QInf) (V' := QInf) f dens dens_le lamv lamv ExactLam ExactLam (ExactArith NatSize nat_as_q) (ExactArith NatSize nat_as_q) lam_f (eq_sym dens_zero)
      g g' stable_by stable_by (exact_settings (Sz := NatSize) mcs Leaf a e 0%Qc) (exact_settings (Sz := NatSize) mcs Leaf a' e' 0%Qc) HB eq_refl eq_refl eq_refl eq_refl eq_refl Heps _ _ _ _ _ _ _ _ _ E1 E2) as [-> ->]. reflexivity.
  Qed.

  (** From distances, by brute force. *)
  Lemma leaf_brute g g' by1 by2 mcs a a' e e' D n ms X gr : sorts_by_parent by1 -> sorts_by_parent by2 -> 2 <= mcs -> 2 <= n -> f (Some e) = Some e' ->
    valid_constraints n X gr ->
    exists cl M M' nbrs core ls ps T ps' T', resolve_cl_params n X true gr = Ok cl /\
      kruskal_mst_brute q0 D n ms cl = Ok (M, nbrs, core) /\ kruskal_mst_brute q0 (fun i j => f (D i j)) n ms cl = Ok (M', nbrs, map f core) /\
      exact_clusters g by1 (exact_settings (Sz := NatSize) mcs Leaf a e 0%Qc) M = Ok (ls, ps, T) /\
      exact_clusters g' by2 (exact_settings (Sz := NatSize) mcs Leaf a' e' 0%Qc) M' = Ok (ls, ps', T').
  Proof.
    intros H1 H2 Hm Hn He HV. destruct (c09_brute (W := QInf) q0 D n ms X gr ltac:(lia) HV) as (cl & M & nbrs & core & Ec & E & HM).
    destruct HM as (_ & _ & _ & _ & HM & _).
    destruct (leaf_same g g' by1 by2 mcs a a' e e' n M H1 H2 Hm HM Hn He) as (ls & ps & T & ps' & E1 & E2).
    exists cl, M, (map (map_edge f) M), nbrs, core, ls, ps, T, ps', (map (map_crow dens) T). split; auto. split; auto. split; auto.
    rewrite <- Hf0 at 1. rewrite (kruskal_brute_map (W := QInf) (W' := QInf) f Hf Hinf), E. reflexivity.
  Qed.
End Exact.
