(** C85: the unit of sample weights. *)
From Coq Require Import List Arith Lia Bool ZArith Permutation Sorted QArith Qcanon Qround.
From Verif Require Import Prelude Order Graph Size Num P_Sort S_Kruskal M_Kruskal M_KruskalEntry M_Linkage S_Linkage M_Condense S_Condense
  M_Select M_Labels S_Labels M_Epsilon M_Simplify M_Pipeline S_Pipeline P_Pipeline P_PipelineTop P_PipelineRun P_PipelineEx
  S_Equi P_Equi P_Determined P_Scale P_EquiTop P_Check S_WeightUnit P_SizeHom M_TreeQuery M_Weights.
Import ListNotations.
Local Open Scope nat_scope.

Lemma qc_mult_le c x y : (0 < c)%Qc -> Qcleb (c * x)%Qc (c * y)%Qc = Qcleb x y.
Proof.
  intro Hc. destruct (Qcleb x y) eqn:E.
  - apply Qcleb_le in E. apply Qcleb_le. rewrite (Qcmult_comm c x), (Qcmult_comm c y). apply Qcmult_le_compat_r; auto. now apply Qclt_le_weak.
  - destruct (Qcleb (c * x)%Qc (c * y)%Qc) eqn:F; auto. exfalso. apply Qcleb_le in F.
    assert (H : (y < x)%Qc). { apply Qcnot_le_lt. intro H. apply Qcleb_le in H. congruence. }
    apply (Qcmult_lt_compat_r _ _ c Hc) in H. rewrite (Qcmult_comm y), (Qcmult_comm x) in H. apply (Qclt_not_le _ _ H F).
Qed.
Lemma qc_slt x y : (x < y)%Qc -> @slt QcSize x y = true.
Proof. intro H. unfold slt. cbn. destruct (Qcleb y x) eqn:E; auto. apply Qcleb_le in E. exfalso. apply (Qclt_not_le _ _ H E). Qed.
Lemma stable_resize {Sz Sz' : SOrd} (psi : Sz -> Sz') (ct : list (crow QInf Sz)) : stable_by (Sz := Sz') (map (resize_crow psi) ct) = map (resize_crow psi) (stable_by (Sz := Sz) ct).
Proof. apply nsort_map. reflexivity. Qed.

(** ** Weights in another unit *)
Section Unit.
  Variable c : Qc.
  Hypothesis Hc : (0 < c)%Qc.

  Lemma c85_leaf g g' by1 by2 mcs a e p n M ws : sorts_by_parent by1 -> sorts_by_parent by2 -> (1 < mcs)%Qc -> (1 < c * mcs)%Qc -> spanning_tree n M -> 2 <= n ->
    length ws = n -> (forall w, In w ws -> (w < mcs)%Qc) ->
    exact_clusters_weighted g' by2 (exact_settings (Sz := QcSize) (c * mcs)%Qc Leaf a e p) M (map (Qcmult c) ws) =
    map_ok (resize_run (in_unit mcs c)) (exact_clusters_weighted g by1 (exact_settings (Sz := QcSize) mcs Leaf a e p) M ws).
  Proof.
    intros H1 H2 Hm Hm' HM Hn Hl Hws. unfold exact_clusters_weighted.
    assert (H01 : sle (s := QcSize) szero sone = true) by reflexivity.
    rewrite (weighted_same (W := QInf) (V := QInf) (Sz := QcSize) _ _ _ g' g by2 stable_by _ n M (map (Qcmult c) ws) (exact_ok _ _ _ _ _ _ _ H2 (qc_slt _ _ Hm')) stable_sorts HM Hn).
    2:{ now rewrite map_length. }
    2:{ exact H01. }
    2:{ intros w Hw. apply in_map_iff in Hw. destruct Hw as (v & <- & Hv). apply qc_slt. cbn [min_cluster_size exact_settings].
        rewrite (Qcmult_comm c v), (Qcmult_comm c mcs). apply Qcmult_lt_compat_r; auto. }
    rewrite (weighted_same (W := QInf) (V := QInf) (Sz := QcSize) _ _ _ g g by1 stable_by _ n M ws (exact_ok _ _ _ _ _ _ _ H1 (qc_slt _ _ Hm)) stable_sorts HM Hn Hl H01).
    2:{ intros w Hw. apply qc_slt. now apply Hws. }
    unfold clusters_from_spanning_tree_weighted.
    assert (EL : mst_to_linkage_tree_w_sample_weights (Sz := QcSize) (sort_mst M) (map (Qcmult c) ws) = map_ok (map (resize_lrow (Qcmult c))) (mst_to_linkage_tree_w_sample_weights (Sz := QcSize) (sort_mst M) ws)).
    { apply rel_map. unfold mst_to_linkage_tree_w_sample_weights. apply (linkage_loop_resize (W := QInf) (Sz := QcSize) (Sz' := QcSize) (Qcmult c)).
      - intros x y. cbn. apply Qcmult_plus_distr_r.
      - repeat split; cbn [create_linkage_merge_data lm_len lm_parent lm_size lm_next]; rewrite ?map_length; auto.
        intro i. cbn [szero QcSize]. rewrite <- (Qcmult_0_r c) at 1. apply (map_nth (Qcmult c)). }
    rewrite EL. destruct (mst_to_linkage_tree_w_sample_weights (Sz := QcSize) (sort_mst M) ws) as [L|]; [|reflexivity]. cbn [map_ok bind].
    assert (BIG : forall s, Qcleb mcs s = true -> (1 < s)%Qc /\ (1 < c * s)%Qc).
    { intros s Hs. split; [apply Qcleb_le in Hs; eapply Qclt_le_trans; [exact Hm|exact Hs]|]. eapply Qclt_le_trans; [exact Hm'|]. apply Qcleb_le. rewrite qc_mult_le; auto. }
    assert (Q1 : forall s : Qc, @slt QcSize sone (in_unit mcs c s) = @slt QcSize sone s).
    { intro s. unfold in_unit. destruct (Qcleb mcs s) eqn:E; auto. destruct (BIG s E). now rewrite !qc_slt. }
    apply (linkage_tree_resize (W := QInf) (V := QInf) (Sz := QcSize) (Sz' := QcSize) (Qcmult c) (in_unit mcs c)).
    - intros x y. cbn. now apply qc_mult_le.
    - exact Q1.
    - unfold in_unit. cbn [sone QcSize]. destruct (Qcleb mcs 1) eqn:E; auto. apply Qcleb_le in E. exfalso. apply (Qclt_not_le _ _ Hm E).
    - intro s. unfold in_unit. destruct (Qcleb mcs s) eqn:E; auto. destruct (BIG s E) as [B1 B2]. apply qc_slt in B1, B2. unfold slt in B1, B2. apply negb_true_iff in B1, B2.
      cbn [sone QcSize] in *. now rewrite B1, B2.
    - apply stable_resize.
    - reflexivity.
    - intros s Hs. unfold in_unit. cbn [min_cluster_size exact_settings sle QcSize] in Hs. now rewrite Hs.
    - repeat split.
    - cbn. discriminate.
    - intros i _. cbn [szero QcSize]. rewrite <- (Qcmult_0_r c) at 1. apply (map_nth (Qcmult c)).
  Qed.
End Unit.

(** ** Weights of one *)
Lemma nth_repeat_lt {A} (x d : A) n : forall i, i < n -> nth i (repeat x n) d = x.
Proof. induction n as [|n IH]; intros [|i] H; simpl; auto; try lia. apply IH. lia. Qed.
Lemma nat_as_q_le x y : Qcleb (nat_as_q x) (nat_as_q y) = (x <=? y).
Proof.
  destruct (x <=? y) eqn:E.
  - apply Nat.leb_le in E. apply Qcleb_le. unfold nat_as_q, Qcle, Q2Qc. cbn [this]. rewrite !Qred_correct. unfold Qle. cbn. lia.
  - apply Nat.leb_gt in E. destruct (Qcleb (nat_as_q x) (nat_as_q y)) eqn:F; auto. apply Qcleb_le in F. unfold nat_as_q, Qcle, Q2Qc in F. cbn [this] in F.
    rewrite !Qred_correct in F. unfold Qle in F. cbn in F. lia.
Qed.
Lemma nat_as_q_add x y : nat_as_q (x + y) = (nat_as_q x + nat_as_q y)%Qc.
Proof. apply Qc_is_canon. unfold nat_as_q, Qcplus, Q2Qc. cbn [this]. rewrite !Qred_correct, Nat2Z.inj_add, inject_Z_plus. reflexivity. Qed.
Lemma nat_as_q_1 : nat_as_q 1 = 1%Qc.
Proof. apply Qc_is_canon. reflexivity. Qed.
Lemma nat_as_q_0 : nat_as_q 0 = 0%Qc.
Proof. apply Qc_is_canon. reflexivity. Qed.

Lemma c85_ones g g' by1 by2 mcs m a e p n M : sorts_by_parent by1 -> sorts_by_parent by2 -> 2 <= mcs -> spanning_tree n M -> 2 <= n ->
  exact_clusters_weighted g' by2 (exact_settings (Sz := QcSize) (nat_as_q mcs) m a e p) M (repeat 1%Qc n) =
  map_ok (resize_run nat_as_q) (exact_clusters g by1 (exact_settings (Sz := NatSize) mcs m a e p) M).
Proof.
  intros H1 H2 Hm HM Hn. unfold exact_clusters_weighted, exact_clusters.
  assert (Hq : @slt QcSize sone (nat_as_q mcs) = true).
  { unfold slt. cbn [sone sle QcSize]. rewrite <- nat_as_q_1, nat_as_q_le. apply negb_true_iff, Nat.leb_gt. lia. }
  rewrite (weighted_same (W := QInf) (V := QInf) (Sz := QcSize) _ _ _ g' g by2 stable_by _ n M (repeat 1%Qc n) (exact_ok _ _ _ _ _ _ _ H2 Hq) stable_sorts HM Hn).
  2:{ apply repeat_length. }
  2:{ reflexivity. }
  2:{ intros w Hw. apply repeat_spec in Hw. subst w. exact Hq. }
  rewrite (plain_same (W := QInf) (V := QInf) _ _ _ g g by1 stable_by _ n _ (exact_ok _ _ _ _ _ _ _ H1 (nat_mcs _ Hm)) stable_sorts HM Hn).
  unfold clusters_from_spanning_tree_weighted, clusters_from_spanning_tree.
  pose proof (facts_length n M HM) as HLen.
  assert (LS : length (sort_mst M) + 1 = n).
  { unfold sort_mst. rewrite <- HLen. f_equal. transitivity (length (nsort edst M)); [|symmetry; apply Permutation_length, nsort_perm].
    transitivity (length (nsort esrc (nsort edst M))); [|symmetry; apply Permutation_length, nsort_perm]. symmetry. apply Permutation_length, isort_perm. }
  assert (EN : forall i, nth i (repeat 1%Qc n) 0%Qc = nat_as_q (nth i (repeat 1 n) 0)).
  { intro i. rewrite <- nat_as_q_0, <- (map_nth nat_as_q). f_equal. rewrite <- nat_as_q_1. clear. induction n; simpl; congruence. }
  assert (EL : mst_to_linkage_tree_w_sample_weights (Sz := QcSize) (sort_mst M) (repeat 1%Qc n) = map_ok (map (resize_lrow nat_as_q)) (mst_to_linkage_tree (sort_mst M))).
  { apply rel_map. unfold mst_to_linkage_tree_w_sample_weights, mst_to_linkage_tree. rewrite LS. apply (linkage_loop_resize (W := QInf) (Sz := NatSize) (Sz' := QcSize) nat_as_q).
    - intros x y. apply nat_as_q_add.
    - repeat split; cbn [create_linkage_merge_data lm_len lm_parent lm_size lm_next]; rewrite ?repeat_length; auto. }
  rewrite EL. destruct (linkage_plain n M HM) as (L & EL2 & (L1 & _)). rewrite EL2. cbn [map_ok bind]. rewrite HLen.
  assert (LL : length L + 1 = n) by (destruct L1; lia).
  apply (linkage_tree_resize (W := QInf) (V := QInf) (Sz := NatSize) (Sz' := QcSize) nat_as_q nat_as_q).
  - intros x y. apply nat_as_q_le.
  - intro s. unfold slt. cbn [sone sle QcSize NatSize]. now rewrite <- nat_as_q_1, nat_as_q_le.
  - apply nat_as_q_1.
  - intro s. cbn [sone sle QcSize NatSize]. now rewrite <- nat_as_q_1, !nat_as_q_le.
  - apply stable_resize.
  - reflexivity.
  - reflexivity.
  - repeat split.
  - intros _. split; [reflexivity|]. split; [reflexivity|]. exists (fun x => x). repeat split; auto.
    induction k as [|k IH]; [symmetry; apply nat_as_q_0|]. unfold size_of_nat in *. cbn [repeat ssum fold_right] in *. 
    change (sadd (s := NatSize) sone (fold_right sadd szero (repeat sone k))) with (1 + @ssum NatSize (repeat sone k)). rewrite nat_as_q_add, nat_as_q_1. cbn [sadd QcSize]. f_equal. exact IH.
  - intros i Hi. cbn [szero QcSize]. rewrite EN, nth_repeat_lt by lia. reflexivity.
Qed.

(** ** Spanning trees *)
Section Trees.
  Variable k : nat.
  Hypothesis Hk : 0 < k.
  Notation c := (as_weight k).
  Lemma as_weight_gt m : 0 < m -> (0 < as_weight m)%Qc.
  Proof. intro H. unfold as_weight, Qclt, Q2Qc. cbn [this]. rewrite !Qred_correct. unfold Qlt. cbn. lia. Qed.
  Lemma as_weight_pos : (0 < c)%Qc.
  Proof. now apply as_weight_gt. Qed.
  Lemma as_weight_mult ms : as_weight (k * ms) = (c * as_weight ms)%Qc.
  Proof. apply Qc_is_canon. unfold as_weight, Qcmult, Q2Qc. cbn [this]. rewrite !Qred_correct. unfold Qeq. cbn. lia. Qed.
  Lemma ssum_scale ws : @ssum QcSize (map (Qcmult c) ws) = (c * @ssum QcSize ws)%Qc.
  Proof. induction ws as [|w ws IH]; [symmetry; apply Qcmult_0_r|]. cbn [map ssum fold_right] in *. unfold ssum in IH. rewrite IH. cbn. symmetry. apply Qcmult_plus_distr_r. Qed.
  Lemma expected_unit ms ws : expected_neighbors (k * ms) (map (Qcmult c) ws) = expected_neighbors ms ws.
  Proof.
    unfold expected_neighbors. rewrite ssum_scale, map_length. pose proof as_weight_pos as Hc.
    assert (Hc0 : c <> 0%Qc) by (intro E; rewrite E in Hc; discriminate).
    destruct (Qc_eq_bool (@ssum QcSize ws) 0) eqn:E.
    - apply Qc_eq_bool_correct in E. rewrite E. rewrite Qcmult_0_r. reflexivity.
    - assert (Hs : @ssum QcSize ws <> 0%Qc) by (intro F; rewrite F in E; discriminate).
      destruct (Qc_eq_bool (c * @ssum QcSize ws)%Qc 0) eqn:F.
      { exfalso. apply Qc_eq_bool_correct in F. apply Qcmult_integral in F. tauto. }
      do 4 f_equal. change (Q2Qc (Z.of_nat (2 * (k * ms)) # 1)) with (as_weight (2 * (k * ms))). change (Q2Qc (Z.of_nat (2 * ms) # 1)) with (as_weight (2 * ms)).
      change (Q2Qc (Z.of_nat (length ws) # 1)) with (as_weight (length ws)).
      replace (2 * (k * ms)) with (k * (2 * ms)) by lia. rewrite as_weight_mult.
      destruct ws as [|w ws]; [exfalso; apply Hs; reflexivity|]. set (l := as_weight (length (w :: ws))). set (s := @ssum QcSize _) in *. set (t := as_weight (2 * ms)).
      assert (Hl : l <> 0%Qc).
      { pose proof (as_weight_gt (length (w :: ws)) ltac:(simpl; lia)) as G. intro X. unfold l in X. rewrite X in G. discriminate. }
      field. auto.
  Qed.
  Lemma scan_unit {W : WOrd} ws ms (row : list (W * option nat)) : forall total d,
    weighted_scan (Sz := QcSize) (map (Qcmult c) ws) (c * ms)%Qc (c * total)%Qc d row = weighted_scan (Sz := QcSize) ws ms total d row.
  Proof.
    induction row as [|[d' o] row IH]; intros total d; cbn [weighted_scan]; auto.
    assert (E : @slt QcSize (c * total)%Qc (c * ms)%Qc = @slt QcSize total ms) by (unfold slt; cbn; rewrite qc_mult_le; auto using as_weight_pos).
    rewrite E. clear E. destruct (@slt QcSize total ms); auto.
    assert (N : neighbor_weight (Sz := QcSize) (map (Qcmult c) ws) o = (c * neighbor_weight (Sz := QcSize) ws o)%Qc).
    { unfold neighbor_weight. cbn [szero QcSize]. destruct o as [j|].
      - rewrite <- (Qcmult_0_r c) at 1. apply (map_nth (Qcmult c)).
      - clear. induction ws as [|w [|v ws] IH]; [symmetry; apply Qcmult_0_r|reflexivity|]. exact IH. }
    rewrite N. cbn [sadd QcSize]. rewrite <- Qcmult_plus_distr_r. apply IH.
  Qed.
  Lemma core_unit {W : WOrd} ws ms (rows : list (list (W * option nat))) :
    sample_weight_core_distance (Sz := QcSize) (map (Qcmult c) ws) (as_weight (k * ms)) rows = sample_weight_core_distance (Sz := QcSize) ws (as_weight ms) rows.
  Proof.
    unfold sample_weight_core_distance. apply map_ext. intro row. rewrite as_weight_mult. rewrite <- (scan_unit ws). cbn [szero QcSize]. now rewrite Qcmult_0_r.
  Qed.
  Lemma c85_kruskal {W : WOrd} (query : nat -> list (list (W * option nat))) ms knn_k ws cl :
    kruskal_mst_knn_weighted query (k * ms) knn_k (map (Qcmult c) ws) cl = kruskal_mst_knn_weighted query ms knn_k ws cl.
  Proof.
    unfold kruskal_mst_knn_weighted. rewrite expected_unit. destruct (expected_neighbors ms ws) as [kk|]; [|reflexivity]. cbn [bind]. now rewrite core_unit.
  Qed.
  Lemma c85_boruvka {W : WOrd} t n (rd lb : nat -> nat -> W) root mode ms ws :
    parallel_boruvka_weighted t n rd lb root mode (k * ms) (map (Qcmult c) ws) = parallel_boruvka_weighted t n rd lb root mode ms ws.
  Proof.
    unfold parallel_boruvka_weighted. rewrite expected_unit. destruct (expected_neighbors ms ws) as [kk|]; [|reflexivity]. cbn [bind].
    destruct (if kk =? 0 then _ else _) as [rows|]; [|reflexivity]. cbn [bind]. now rewrite core_unit.
  Qed.
End Trees.

(** ** Excess of mass *)
Definition three_pairs : list (edge QInf) := let d k : QInf := Some (Q2Qc (k # 1)) in [(0, 1, d 1%Z); (1, 2, d 2%Z); (2, 3, d 1%Z); (3, 4, d 10%Z); (4, 5, d 1%Z)].
Lemma three_pairs_tree : spanning_tree 6 three_pairs.
Proof. apply spanning_tree_checked. reflexivity. Qed.
Lemma c85_eom : exists (garbage : nat -> QInf) by_parent (c mcs : Qc) n M ws, sorts_by_parent by_parent /\ (1 < mcs)%Qc /\ (1 <= c)%Qc /\ spanning_tree n M /\
  length ws = n /\ (forall w, In w ws -> (w < mcs)%Qc) /\
  reported (exact_clusters_weighted garbage by_parent (exact_settings (Sz := QcSize) mcs Eom false 0%Qc 0%Qc) M ws) = Some [2; 2; 1; 1; 0; 0]%Z /\
  reported (exact_clusters_weighted garbage by_parent (exact_settings (Sz := QcSize) (c * mcs)%Qc Eom false 0%Qc 0%Qc) M (map (Qcmult c) ws)) = Some [0; 0; 0; 0; 1; 1]%Z.
Proof.
  exists (fun _ => None), (stable_by (Sz := QcSize)), (Q2Qc (10 # 1)), (Q2Qc (2 # 1)), 6, three_pairs, (repeat 1%Qc 6).
  split; [apply stable_sorts|]. split; [reflexivity|]. split; [discriminate|]. split; [apply three_pairs_tree|]. split; [reflexivity|].
  split; [intros w Hw; apply repeat_spec in Hw; subst w; reflexivity|]. split; vm_compute; reflexivity.
Qed.
