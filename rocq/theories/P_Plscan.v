(** PLSCAN from distances to labels. *)
From Coq Require Import List Arith Lia Bool ZArith QArith Qcanon Permutation Sorted.
From Verif Require Import Prelude Order Graph Size Num S_Kruskal S_Precomputed M_Kruskal M_KruskalEntry P_PrecomputedTop M_Linkage S_Linkage P_LinkageTop M_Condense S_Condense
  M_Select S_Select M_Labels S_Labels M_Pipeline P_PipelineRun M_Layers S_Layers P_LayersTop P_LayersBase M_LayerTree S_LayerTree P_LayerTreeRun P_LayerTreeEx
  S_CoreGraph P_WeightsBoruvka S_Equi P_Equi P_Scale P_KruskalMap M_Dispatch S_Dispatch P_Dispatch M_Plscan S_Plscan.
Import ListNotations.
Local Open Scope nat_scope.

(** ** Changed distances and changed densities are the same *)
Section Change.
  Context {W V P : WOrd} {D : Type} (f : W -> W).
  Variables (search_lam lam : W -> V) (LA : LamArith V) (death_of : V -> D) (dzero : D) (garbage : nat -> nat) (garbage_lambda : nat -> D)
    (pzero : P) (accumulate : P -> nat -> nat -> D -> P) (argsort : list P -> list nat) (argsort_counts : list Z -> list nat).

  Lemma map_crow_id {Sz : SOrd} (T : list (crow V Sz)) : map (map_crow (fun v : V => v)) T = T.
  Proof. rewrite <- (map_id T) at 2. apply map_ext. now intros []. Qed.
  Lemma condense_change (l : W -> V) m (L : list (lrow W NatSize)) :
    condense_tree (map (map_lrow f) L) l (m : NatSize) None (fun _ => 1) = condense_tree L (fun w => l (f w)) (m : NatSize) None (fun _ => 1).
  Proof.
    pose proof (condense_tree_map (Sz := NatSize) f (fun v : V => v) (fun w => l (f w)) l m None (fun _ => 1) L (fun w => eq_refl)) as H.
    destruct (condense_tree L _ _ _ _) as [T|e], (condense_tree (map (map_lrow f) L) _ _ _ _) as [T'|e']; cbn in H; try contradiction.
    - subst. f_equal. apply (map_crow_id (Sz := NatSize)).
    - now subst.
  Qed.

  Variable L : list (lrow W NatSize).
  Notation L' := (map (map_lrow f) L).
  Notation slf := (fun w => search_lam (f w)).
  Notation lf := (fun w => lam (f w)).

  Lemma condensed_change (l : W -> V) m : condensed_at l L' m = condensed_at (fun w => l (f w)) L m.
  Proof. apply condense_change. Qed.
  Lemma leaves_change (l : W -> V) m : leaves_at l L' m = leaves_at (fun w => l (f w)) L m.
  Proof. unfold leaves_at. now rewrite condensed_change. Qed.
  Lemma search_loop_change approx : forall fuel lo hi, search_loop search_lam L' fuel approx lo hi = search_loop slf L fuel approx lo hi.
  Proof.
    induction fuel as [|k IH]; intros lo hi; cbn [search_loop]; [reflexivity|]. rewrite leaves_change. destruct (1 <? hi - lo); auto. destruct (_ || _); auto.
    destruct (leaves_at slf L _) as [l|]; cbn [bind]; auto. destruct (length l <? approx); auto.
  Qed.
  Lemma clusters_change n m : clusters_at search_lam LA L' n m = clusters_at slf LA L n m.
  Proof. unfold clusters_at. now rewrite condensed_change. Qed.
  Lemma search_change n approx : binary_search_for_n_clusters search_lam LA L' n approx = binary_search_for_n_clusters slf LA L n approx.
  Proof.
    unfold binary_search_for_n_clusters. rewrite search_loop_change. destruct (search_loop slf L n approx 2 (n / 2)) as [[lo hi]|]; cbn [bind]; auto.
    now rewrite !leaves_change, !clusters_change.
  Qed.
  Lemma base_change n m k : base_layer search_lam lam LA L' n m k = base_layer slf lf LA L n m k.
  Proof.
    unfold base_layer. destruct k as [k|].
    - rewrite search_change. destruct (binary_search_for_n_clusters slf LA L n k) as [r|]; cbn [bind]; auto.
      match goal with |- bind ?m _ = _ => destruct m as [s|] end; cbn [bind]; auto. now rewrite condense_change.
    - now rewrite condense_change.
  Qed.
  Lemma layers_change n m k t mx :
    layers_from_linkage_tree search_lam lam LA death_of dzero garbage garbage_lambda pzero accumulate argsort argsort_counts L' n m k t mx =
    layers_from_linkage_tree slf lf LA death_of dzero garbage garbage_lambda pzero accumulate argsort argsort_counts L n m k t mx.
  Proof. unfold layers_from_linkage_tree. now rewrite base_change. Qed.
End Change.

(** ** The unit *)
Lemma finite_ok l : finite_values l = finite_ones l.
Proof. induction l as [|[x|] l IH]; cbn; auto. now rewrite IH. Qed.
Lemma finite_In x (l : list QInf) : In x (finite_values l) <-> In (Some x) l.
Proof.
  induction l as [|[y|] l IH]; cbn; [tauto| |].
  - rewrite IH. split; intros [H|H]; auto; [left; now subst|left; congruence].
  - rewrite IH. split; auto. intros [H|H]; [discriminate|auto].
Qed.
Lemma least_ok : forall l x, In (least x l) (x :: l) /\ forall y, In y (x :: l) -> (least x l <= y)%Qc.
Proof.
  induction l as [|z l IH]; intro x; unfold least; cbn [fold_left].
  - split; [now left|]. intros y [<-|[]]. apply Qcle_refl.
  - fold (least (if Qcleb z x then z else x) l). destruct (IH (if Qcleb z x then z else x)) as [H1 H2]. destruct (Qcleb z x) eqn:E.
    + apply Qcleb_le in E. split; [destruct H1; cbn; auto|]. intros y [<-|[<-|Hy]]; [|apply H2; now left|apply H2; now right].
      apply (Qcle_trans _ z); auto. apply H2. now left.
    + apply Qcleb_gt in E. split; [destruct H1; cbn; auto|]. intros y [<-|[<-|Hy]]; [apply H2; now left| |apply H2; now right].
      apply (Qcle_trans _ x); [apply H2; now left|now apply Qclt_le_weak].
Qed.
Lemma nat_q_S k : nat_as_q (S k) = (1 + nat_as_q k)%Qc.
Proof.
  unfold nat_as_q. apply Qc_is_canon. cbn [this Qcplus Q2Qc]. rewrite !Qred_correct. change 1%Q with (inject_Z 1). rewrite <- inject_Z_plus. apply inject_Z_injective. lia.
Qed.
Lemma nat_q_pos k : (0 < nat_as_q (S k))%Qc.
Proof. unfold nat_as_q, Qclt. cbn [this Q2Qc]. rewrite !Qred_correct. unfold Qlt, inject_Z. cbn [Qnum Qden]. lia. Qed.
Lemma total_shift (low span : Qc) l : span <> 0%Qc -> total (map (fun v => (v - low) / span)%Qc l) = ((total l - nat_as_q (length l) * low) / span)%Qc.
Proof.
  intro Hs. induction l as [|x l IH]; cbn [map total fold_right length].
  - change (nat_as_q 0) with 0%Qc. unfold Qcdiv. ring.
  - unfold total in IH. rewrite IH, nat_q_S. unfold Qcdiv. ring.
Qed.
Lemma total_above low l : (forall x, In x l -> (low <= x)%Qc) -> (nat_as_q (length l) * low <= total l)%Qc /\ (total l = nat_as_q (length l) * low -> forall x, In x l -> x = low)%Qc.
Proof.
  induction l as [|x l IH]; intro H.
  - split; [|intros _ x []]. cbn. change (nat_as_q 0) with 0%Qc. rewrite Qcmult_0_l. apply Qcle_refl.
  - destruct IH as [IH1 IH2]; [intros y Hy; apply H; now right|]. cbn [total fold_right length]. fold (total l). rewrite nat_q_S.
    assert (E : ((1 + nat_as_q (length l)) * low = low + nat_as_q (length l) * low)%Qc) by ring. rewrite E.
    pose proof (H x (or_introl eq_refl)) as Hx. split; [now apply Qcplus_le_compat|]. intros Et y Hy.
    assert (A : x = low /\ total l = (nat_as_q (length l) * low)%Qc).
    { apply Qcle_lt_or_eq in Hx as [Hx|Hx].
      - exfalso. assert (K : (low + nat_as_q (length l) * low < x + total l)%Qc).
        { apply (Qclt_le_trans _ (x + nat_as_q (length l) * low)%Qc); [|apply Qcplus_le_compat; [apply Qcle_refl|auto]].
          rewrite !(Qcplus_comm _ (nat_as_q (length l) * low)%Qc). apply Qclt_minus_iff in Hx. apply Qclt_minus_iff.
          now replace (nat_as_q (length l) * low + x + - (nat_as_q (length l) * low + low))%Qc with (x + - low)%Qc by ring. }
        rewrite Et in K. revert K. apply Qcle_not_lt, Qcle_refl.
      - split; auto. subst x. assert (K : (- low + (low + total l) = - low + (low + nat_as_q (length l) * low))%Qc) by now rewrite Et.
        replace (- low + (low + total l))%Qc with (total l) in K by ring. rewrite K. ring. }
    destruct A as [A1 A2]. destruct Hy as [<-|Hy]; auto.
Qed.
Lemma mul_div a b : b <> 0%Qc -> (a * (b / b) = a)%Qc.
Proof. intro H. unfold Qcdiv. rewrite Qcmult_inv_r by auto. ring. Qed.
Lemma mean_total x l : (nat_as_q (length (x :: l)) * mean (x :: l) = total (x :: l))%Qc.
Proof. unfold mean. rewrite Qcmult_div_r; auto. intro H. apply (Qclt_not_eq _ _ (nat_q_pos (length l))). symmetry. exact H. Qed.
Lemma mean_above x l : (mean (x :: l) <= least x l)%Qc <-> forall y, In y (x :: l) -> y = least x l.
Proof.
  destruct (least_ok l x) as [H1 H2]. destruct (total_above (least x l) (x :: l) H2) as [A B]. rewrite <- mean_total in A, B. set (k := nat_as_q (length (x :: l))) in *.
  assert (Hk : (0 < k)%Qc) by apply nat_q_pos. split.
  - intros H. apply B. f_equal. apply Qcle_antisym; auto. apply (proj1 (mul_le k Hk _ _)) in A. exact A.
  - intro H. assert (E : (k * mean (x :: l) = k * least x l)%Qc).
    { unfold k. rewrite mean_total. revert H. generalize (least x l) as w. generalize (x :: l) as xs. clear. intros xs w H. induction xs as [|y xs IH]; cbn [total fold_right length].
      - change (nat_as_q 0) with 0%Qc. ring.
      - fold (total xs). rewrite IH by (intros z Hz; apply H; now right). rewrite nat_q_S, (H y (or_introl eq_refl)). ring. }
    apply (proj1 (mul_le k Hk _ _)). rewrite E. apply Qcle_refl.
Qed.

Definition normal (core : list QInf) : QInf -> QInf :=
  match finite_values core with
  | [] => fun w => w
  | x :: l => if Qcleb (mean (x :: l)) (least x l) then fun w => w else rescaled (least x l) (mean (x :: l))
  end.
Lemma map_edge_id {W : WOrd} (M : list (edge W)) : map (map_edge (fun w : W => w)) M = M.
Proof. rewrite <- (map_id M) at 2. apply map_ext. now intros [[a b] w]. Qed.
Lemma normalised_is core M : normalised_edges core M = map (map_edge (normal core)) M.
Proof.
  unfold normalised_edges, normal. destruct (finite_values core) as [|x l]; [symmetry; apply (map_edge_id (W := QInf))|].
  destruct (Qcleb _ _); [symmetry; apply (map_edge_id (W := QInf))|reflexivity].
Qed.
Lemma rescaled_le low high x y : (low < high)%Qc -> wle (rescaled low high x : QInf) (rescaled low high y) = wle x y.
Proof.
  intro H. assert (Hs : (0 < high - low)%Qc) by (apply Qclt_minus_iff in H; exact H).
  destruct x as [x|], y as [y|]; try reflexivity. cbn. apply Qcleb_ext. unfold Qcdiv. rewrite !(Qcmult_comm _ (/ (high - low))).
  rewrite (mul_le _ (cinv_pos _ Hs)). split; intro K.
  - apply Qcle_minus_iff in K. apply Qcle_minus_iff. now replace (y - low + - (x - low))%Qc with (y + - x)%Qc in K by ring.
  - apply Qcle_minus_iff in K. apply Qcle_minus_iff. now replace (y - low + - (x - low))%Qc with (y + - x)%Qc by ring.
Qed.

Lemma normal_unit core : unit_of core (normal core).
Proof.
  unfold unit_of, normal. destruct (finite_values core) as [|x l] eqn:E.
  - split; [reflexivity|]. split; [reflexivity|]. split; [reflexivity|]. intros x y Hx. apply finite_In in Hx. rewrite E in Hx. contradiction.
  - destruct (least_ok l x) as [H1 H2]. destruct (Qcleb (mean (x :: l)) (least x l)) eqn:Em.
    + split; [reflexivity|]. split; [reflexivity|]. split; [reflexivity|]. intros u v Hu Hv Hne. exfalso. apply Qcleb_le in Em. rewrite mean_above in Em.
      apply finite_In in Hu, Hv. rewrite E in Hu, Hv. apply Hne. rewrite (Em u Hu), (Em v Hv). reflexivity.
    + pose proof Em as Em'. apply Qcleb_gt in Em. split; [intros u v; now apply rescaled_le|]. split; [reflexivity|]. split.
      * intro Heq. exfalso. apply (Qclt_not_le _ _ Em). rewrite mean_above. intros y Hy. apply Heq; apply finite_In; rewrite E; auto.
      * intros u v _ _ _. exists (least x l), (mean (x :: l) - least x l)%Qc. assert (Hs : (0 < mean (x :: l) - least x l)%Qc) by (apply Qclt_minus_iff in Em; exact Em).
        split; [exact Hs|]. split; [reflexivity|]. split; [apply finite_In; now rewrite E|]. split; [intros w Hw; apply H2; rewrite <- E; now apply finite_In|].
        rewrite <- finite_ok, E. fold (total (map (fun v => ((v - least x l) / (mean (x :: l) - least x l))%Qc) (x :: l))).
        assert (Hn : (mean (x :: l) - least x l)%Qc <> 0%Qc) by (intro K; rewrite K in Hs; revert Hs; apply Qcle_not_lt, Qcle_refl).
        rewrite (total_shift _ _ _ Hn), <- (mean_total x l). set (k := nat_as_q (length (x :: l))). set (m := mean (x :: l)) in *. set (w := least x l) in *.
        replace (k * m - k * w)%Qc with (k * (m - w))%Qc by ring. unfold Qcdiv. rewrite <- Qcmult_assoc. rewrite Qcmult_inv_r by auto. ring.
Qed.

(** ** Units *)
Section Units.
  Variable c : Qc.
  Hypothesis Hc : (0 < c)%Qc.

  Lemma finite_scale l : finite_values (map (scale c) l) = map (Qcmult c) (finite_values l).
  Proof. unfold finite_values in *. induction l as [|[x|] l IH]; cbn; auto. f_equal. exact IH. Qed.
  Lemma total_scale l : total (map (Qcmult c) l) = (c * total l)%Qc.
  Proof. induction l as [|x l IH]; cbn; [ring|]. fold (total (map (Qcmult c) l)). fold (total l). rewrite IH. ring. Qed.
  Lemma mean_scale l : mean (map (Qcmult c) l) = (c * mean l)%Qc.
  Proof. unfold mean. rewrite total_scale, map_length. unfold Qcdiv. ring. Qed.
  Lemma least_scale : forall l x, least (c * x)%Qc (map (Qcmult c) l) = (c * least x l)%Qc.
  Proof.
    induction l as [|y l IH]; intro x; unfold least; cbn [map fold_left]; auto. rewrite mul_leb by auto. fold (least (if Qcleb y x then y else x) l).
    rewrite <- IH. unfold least. f_equal. now destruct (Qcleb y x).
  Qed.
  Lemma rescaled_scale low high w : (low < high)%Qc -> rescaled (c * low) (c * high) (scale c w) = rescaled low high w.
  Proof.
    intro H. assert (Hs : (0 < high - low)%Qc) by (apply Qclt_minus_iff in H; exact H).
    destruct w as [w|]; [|reflexivity]. cbn. f_equal. replace (c * w - c * low)%Qc with (c * (w - low))%Qc by ring. replace (c * high - c * low)%Qc with (c * (high - low))%Qc by ring.
    unfold Qcdiv. rewrite (inv_mul c _ Hc Hs). replace (c * (w - low) * (/ c * / (high - low)))%Qc with ((c * / c) * ((w - low) * / (high - low)))%Qc by ring.
    rewrite Qcmult_inv_r by now apply c_ne. ring.
  Qed.
  Lemma normalised_scale core M x y : In (Some x) core -> In (Some y) core -> x <> y ->
    normalised_edges (map (scale c) core) (map (map_edge (scale c)) M) = normalised_edges core M.
  Proof.
    intros Hx Hy Hne. apply finite_In in Hx, Hy. unfold normalised_edges. rewrite finite_scale. destruct (finite_values core) as [|z l] eqn:E; [contradiction|]. cbn [map].
    change ((c * z)%Qc :: map (Qcmult c) l) with (map (Qcmult c) (z :: l)). rewrite mean_scale, least_scale, mul_leb by auto.
    destruct (Qcleb (mean (z :: l)) (least z l)) eqn:Em.
    - exfalso. apply Qcleb_le in Em. rewrite mean_above in Em. apply Hne. now rewrite (Em x Hx), (Em y Hy).
    - apply Qcleb_gt in Em. rewrite map_map. apply map_ext. intros [[a b] w]. unfold map_edge, esrc, edst, ewt. cbn [fst snd]. now rewrite rescaled_scale.
  Qed.
End Units.

(** ** The linkage tree *)
Lemma sorted_unmap {W : WOrd} (f : W -> W) (M : list (edge W)) : (forall x y, wle (f x) (f y) = wle x y) -> sorted_by ewt (map (map_edge f) M) -> sorted_by ewt M.
Proof.
  intros Hf H. unfold sorted_by in *. induction M as [|e M IH]; [constructor|]. cbn [map] in H. apply StronglySorted_inv in H as [H1 H2]. constructor; auto.
  rewrite Forall_forall in *. intros e' He'. specialize (H2 (map_edge f e') (in_map _ _ _ He')). cbn in H2. unfold ewt, map_edge in *. cbn in H2. now rewrite Hf in H2.
Qed.
Lemma tree_of_changed {W : WOrd} (f : W -> W) sort n (M : list (edge W)) : (forall x y, wle (f x) (f y) = wle x y) -> sorts_edges sort -> spanning_tree n M ->
  exists L, mst_to_linkage_tree (sort (map (map_edge f) M)) = Ok (map (map_lrow f) L) /\ linkage_tree_of n M L.
Proof.
  intros Hf Hs HM. destruct (Hs (map (map_edge f) M)) as [H1 H2]. apply Permutation_map_inv in H1 as (M1 & E1 & HP).
  rewrite E1 in *. apply (sorted_unmap f M1 Hf) in H2. pose proof (spanning_perm n _ _ HP HM) as HM1.
  destruct (c21 W n M1 HM1 H2) as (L & EL & A1 & A2 & A3 & A4 & _ & A5). exists L. split.
  - unfold mst_to_linkage_tree in *. rewrite map_length.
    pose proof (linkage_loop_map (Sz := NatSize) f M1 (create_linkage_merge_data (Sz := NatSize) (repeat 1 (length M1 + 1)))) as H.
    rewrite EL in H. destruct (linkage_loop _ (map (map_edge f) M1)) as [L'|]; cbn in H; [now rewrite H|contradiction].
  - split; auto. split; auto. split; auto. exists M1. split; [now apply Permutation_sym|]. split; auto.
Qed.

(** ** The run *)
Section Run.
  Context {V P : WOrd} {D : Type}.
  Variables (search_lam lam : QInf -> V) (LA : LamArith V) (death_of : V -> D) (dzero : D) (garbage : nat -> nat) (garbage_lambda : nat -> D)
    (pzero : P) (accumulate : P -> nat -> nat -> D -> P) (argsort : list P -> list nat) (argsort_counts argsort_labels : list Z -> list nat)
    (sort_edges : list (edge QInf) -> list (edge QInf)).
  Hypothesis Hlam : forall x y : QInf, wle x y = true -> wle (lam y) (lam x) = true.
  Hypothesis Hpos : forall x, wle (la_zero LA) (lam x) = true.
  Hypothesis HLL : LamLaws LA.
  Hypothesis Hsort : argsorts argsort.
  Hypothesis HsortZ : argsorts_Z argsort_counts.
  Hypothesis HsortL : argsorts_Z argsort_labels.
  Hypothesis Hedges : sorts_edges (W := QInf) sort_edges.
  Variables (n : nat) (M : list (edge QInf)) (core : list QInf).
  Hypothesis HM : spanning_tree n M.

  Notation build := (build_cluster_layers search_lam lam LA death_of dzero garbage garbage_lambda pzero accumulate argsort argsort_counts sort_edges).
  Notation fit := (plscan_fit search_lam lam LA death_of dzero garbage garbage_lambda pzero accumulate argsort argsort_counts argsort_labels sort_edges).
  Notation lf f := (fun w : QInf => lam (f w)).

  Lemma unit_finite f x : unit_of core f -> f (Some x) <> None.
  Proof.
    intros (H1 & H2 & _) E. specialize (H1 None (Some x)). rewrite H2, E in H1. discriminate.
  Qed.

  (** One unit and one linkage tree serve all settings. *)
  Lemma plscan_tree : exists f L, unit_of core f /\ linkage_tree_of (W := QInf) n M L /\ forall m k t mx,
    build n m k t mx M core =
    layers_from_linkage_tree (W := QInf) (fun w => search_lam (f w)) (fun w => lam (f w)) LA death_of dzero garbage garbage_lambda pzero accumulate argsort argsort_counts L n m k t mx.
  Proof.
    pose proof (normal_unit core) as Hu. destruct (tree_of_changed (W := QInf) (normal core) sort_edges n M (proj1 Hu) Hedges HM) as (L & E & HL).
    exists (normal core), L. split; auto. split; auto. intros m k t mx. unfold build_cluster_layers. rewrite normalised_is.
    transitivity (bind (Ok (map (map_lrow (normal core)) L)) (fun u => layers_from_linkage_tree (W := QInf) search_lam lam LA death_of dzero garbage garbage_lambda pzero accumulate argsort argsort_counts u n m k t mx)).
    - f_equal. exact E.
    - cbn [bind]. apply (layers_change (W := QInf)).
  Qed.

  (** The unit and the linkage tree that the layers are made from. *)
  Definition layers_use (f : QInf -> QInf) (L : list (lrow QInf NatSize)) : Prop := forall m k t mx,
    build n m k t mx M core =
    layers_from_linkage_tree (W := QInf) (fun w => search_lam (f w)) (fun w => lam (f w)) LA death_of dzero garbage garbage_lambda pzero accumulate argsort argsort_counts L n m k t mx.
  (** Sorting the edges in the new unit as in the old one. *)
  Lemma plscan_use M1 : spanning_tree n M1 -> sorted_by (W := QInf) ewt M1 -> Permutation M M1 -> sort_edges (normalised_edges core M) = normalised_edges core M1 ->
    exists f L, unit_of core f /\ linkage_tree_of (W := QInf) n M L /\ layers_use f L /\ mst_to_linkage_tree M1 = Ok L.
  Proof.
    intros HM1 H2 HP ES. pose proof (normal_unit core) as Hu. destruct (c21 QInf n M1 HM1 H2) as (L & EL & A1 & A2 & A3 & A4 & _ & A5). exists (normal core), L. split; auto.
    split; [split; auto; split; auto; split; auto; exists M1; split; [now apply Permutation_sym|split; auto]|]. split; auto.
    intros m k t mx. unfold build_cluster_layers. rewrite ES, normalised_is.
    transitivity (bind (Ok (map (map_lrow (normal core)) L)) (fun u => layers_from_linkage_tree (W := QInf) search_lam lam LA death_of dzero garbage garbage_lambda pzero accumulate argsort argsort_counts u n m k t mx)).
    - f_equal. unfold mst_to_linkage_tree in *. rewrite map_length.
      pose proof (linkage_loop_map (Sz := NatSize) (normal core) M1 (create_linkage_merge_data (Sz := NatSize) (repeat 1 (length M1 + 1)))) as H.
      rewrite EL in H. destruct (linkage_loop _ (map (map_edge (normal core)) M1)) as [L'|]; cbn in H; [now rewrite H|contradiction].
    - cbn [bind]. apply (layers_change (W := QInf)).
  Qed.
  Lemma plscan_layers_for f L base_m threshold max_layers : unit_of core f -> linkage_tree_of (W := QInf) n M L -> layers_use f L -> 2 <= n -> 2 <= base_m ->
    exists T S b base ys,
      build n base_m None threshold max_layers M core = Ok ys /\ tree_of (lf f) n L base_m T /\
      (forall c, In c S <-> leaf_cluster n T c) /\ right_layer LA n T S (y_labels base) (y_strengths base) /\ y_persistence base = pzero /\
      (cluster_rows n T <> [] -> right_barcode n T death_of dzero base_m b) /\
      layer_stack LA pzero accumulate n T b threshold base_m max_layers base ys.
  Proof.
    intros Hu HL E Hn Hm. pose proof HL as (A1 & A2 & A3 & _). pose proof (proj1 Hu) as Hf.
    destruct (layers_ok LA (fun w : QInf => search_lam (f w)) (fun w : QInf => lam (f w)) death_of dzero garbage garbage_lambda pzero accumulate argsort argsort_counts n L A1 A2 A3
      ltac:(intros x y H; apply Hlam; now rewrite Hf) ltac:(intro x; apply Hpos) HLL Hsort HsortZ Hn base_m threshold max_layers Hm) as (T & S & b & base & ys & K & rest).
    exists T, S, b, base, ys. split; [now rewrite E|exact rest].
  Qed.
  Lemma plscan_layers base_m threshold max_layers : 2 <= n -> 2 <= base_m ->
    exists f L T S b base ys, unit_of core f /\ linkage_tree_of (W := QInf) n M L /\
      build n base_m None threshold max_layers M core = Ok ys /\ tree_of (lf f) n L base_m T /\
      (forall c, In c S <-> leaf_cluster n T c) /\ right_layer LA n T S (y_labels base) (y_strengths base) /\ y_persistence base = pzero /\
      (cluster_rows n T <> [] -> right_barcode n T death_of dzero base_m b) /\
      layer_stack LA pzero accumulate n T b threshold base_m max_layers base ys.
  Proof.
    intros Hn Hm. destruct plscan_tree as (f & L & Hu & HL & E). exists f, L.
    destruct (plscan_layers_for f L base_m threshold max_layers Hu HL E Hn Hm) as (T & S & b & base & ys & rest). exists T, S, b, base, ys. auto.
  Qed.

  Hypothesis Hdense : forall x : Qc, wle (lam (Some x)) (la_zero LA) = false.
  Hypothesis Hfin : forall e, In e M -> ewt e <> None.

  Lemma dense_rows f L (l : QInf -> V) : (forall x : Qc, wle (l (Some x)) (la_zero LA) = false) -> unit_of core f -> linkage_tree_of (W := QInf) n M L ->
    forall r, In r L -> wle (l (f (l_d r))) (la_zero LA) = false.
  Proof.
    intros Hd Hu (_ & _ & _ & M1 & HP & E & _) r Hr. pose proof (in_map l_d _ _ Hr) as H. rewrite E in H. apply in_map_iff in H as (e & Ee & He).
    pose proof (Hfin e (Permutation_in _ HP He)) as Hne. rewrite Ee in Hne. destruct (l_d r) as [x|]; [|contradiction].
    pose proof (unit_finite f x Hu) as Hx. destruct (f (Some x)) as [y|]; [apply Hd|contradiction].
  Qed.

  Lemma plscan_ends base_m threshold max_layers : 2 <= n -> 2 <= base_m ->
    exists ys rows d y, fit n base_m None threshold max_layers M core = Ok (ys, d, y) /\
      build n base_m None threshold max_layers M core = Ok ys /\
      right_tree (map y_labels ys) rows /\ right_dictionary rows d /\ nested_rows (map y_labels ys) rows /\
      In y ys /\ forall y', In y' ys -> wle (y_persistence y') (y_persistence y) = true.
  Proof.
    intros Hn Hm. destruct plscan_tree as (f & L & Hu & HL & E). pose proof HL as (A1 & A2 & A3 & _). pose proof (proj1 Hu) as Hf.
    destruct (run_result LA (fun w : QInf => search_lam (f w)) (fun w : QInf => lam (f w)) death_of dzero garbage garbage_lambda pzero accumulate argsort argsort_counts n L A1 A2 A3
      ltac:(intros x y H; apply Hlam; now rewrite Hf) ltac:(intro x; apply Hpos) HLL Hsort HsortZ (dense_rows f L lam Hdense Hu HL) base_m threshold max_layers argsort_labels Hn Hm HsortL)
      as (ys & rows & d & y & K1 & K2 & rest).
    exists ys, rows, d, y. split; [|split; [now rewrite E|exact rest]]. unfold plscan_fit. rewrite E, K1. cbn [bind]. rewrite K2. reflexivity.
  Qed.

  Hypothesis Hlam' : forall x y : QInf, wle x y = true -> wle (search_lam y) (search_lam x) = true.
  Hypothesis Hpos' : forall x, wle (la_zero LA) (search_lam x) = true.
  Hypothesis Hdense' : forall x : Qc, wle (search_lam (Some x)) (la_zero LA) = false.

  Lemma plscan_number_for f L base_m k threshold max_layers : unit_of core f -> linkage_tree_of (W := QInf) n M L -> layers_use f L -> 4 <= n ->
    exists j T0 S m T b base ys rows d y,
      fit n base_m (Some k) threshold max_layers M core = Ok (ys, d, y) /\
      best (fun w : QInf => search_lam (f w)) n L k j /\ tree_of (fun w : QInf => search_lam (f w)) n L j T0 /\ (forall c, In c S <-> leaf_cluster n T0 c) /\
      right_layer LA n T0 S (y_labels base) (y_strengths base) /\ y_persistence base = pzero /\
      2 <= m /\ smallest_cluster (y_labels base) m /\ tree_of (lf f) n L m T /\
      (cluster_rows n T <> [] -> right_barcode n T death_of dzero m b) /\
      layer_stack LA pzero accumulate n T b threshold m max_layers base ys /\
      right_tree (map y_labels ys) rows /\ right_dictionary rows d /\
      In y ys /\ forall y', In y' ys -> wle (y_persistence y') (y_persistence y) = true.
  Proof.
    intros Hu HL E Hn. pose proof HL as (A1 & A2 & A3 & _). pose proof (proj1 Hu) as Hf.
    assert (B1 : forall x y : QInf, wle x y = true -> wle (lam (f y)) (lam (f x)) = true) by (intros x y H; apply Hlam; now rewrite Hf).
    assert (B2 : forall x y : QInf, wle x y = true -> wle (search_lam (f y)) (search_lam (f x)) = true) by (intros x y H; apply Hlam'; now rewrite Hf).
    assert (B3 : forall x : QInf, wle (la_zero LA) (lam (f x)) = true) by (intro x; apply Hpos).
    assert (B4 : forall x : QInf, wle (la_zero LA) (search_lam (f x)) = true) by (intro x; apply Hpos').
    pose proof (dense_rows f L lam Hdense Hu HL) as B5. pose proof (dense_rows f L search_lam Hdense' Hu HL) as B6.
    destruct (run_number_result LA (fun w : QInf => search_lam (f w)) (fun w : QInf => lam (f w)) death_of dzero garbage garbage_lambda pzero accumulate argsort argsort_counts n L A1 A2 A3
      B1 B3 B2 B4 HLL Hsort HsortZ Hn B5 B6 base_m k threshold max_layers argsort_labels HsortL)
      as (ys & rows & d & y & K1 & K2 & rest).
    destruct (layers_number_ok LA (fun w : QInf => search_lam (f w)) (fun w : QInf => lam (f w)) death_of dzero garbage garbage_lambda pzero accumulate argsort argsort_counts n L A1 A2 A3
      B1 B3 B2 B4 HLL Hsort HsortZ Hn B6 base_m k threshold max_layers) as (j & T0 & S & m & T & b & base & ys' & K3 & R1 & R2 & R3 & R4 & R5 & R6 & R7 & R8 & R9 & R10).
    rewrite K1 in K3. injection K3 as <-. exists j, T0, S, m, T, b, base, ys, rows, d, y. split.
    { unfold plscan_fit. rewrite E, K1. cbn [bind]. rewrite K2. reflexivity. }
    do 10 (split; [assumption|]). exact rest.
  Qed.
  Lemma plscan_number base_m k threshold max_layers : 4 <= n ->
    exists f L j T0 S m T b base ys rows d y, unit_of core f /\ linkage_tree_of (W := QInf) n M L /\
      fit n base_m (Some k) threshold max_layers M core = Ok (ys, d, y) /\
      best (fun w : QInf => search_lam (f w)) n L k j /\ tree_of (fun w : QInf => search_lam (f w)) n L j T0 /\ (forall c, In c S <-> leaf_cluster n T0 c) /\
      right_layer LA n T0 S (y_labels base) (y_strengths base) /\ y_persistence base = pzero /\
      2 <= m /\ smallest_cluster (y_labels base) m /\ tree_of (lf f) n L m T /\
      (cluster_rows n T <> [] -> right_barcode n T death_of dzero m b) /\
      layer_stack LA pzero accumulate n T b threshold m max_layers base ys /\
      right_tree (map y_labels ys) rows /\ right_dictionary rows d /\
      In y ys /\ forall y', In y' ys -> wle (y_persistence y') (y_persistence y) = true.
  Proof.
    intros Hn. destruct plscan_tree as (f & L & Hu & HL & E).
    destruct (plscan_number_for f L base_m k threshold max_layers Hu HL E Hn) as (j & T0 & S & m & T & b & base & ys & rows & d & y & rest).
    exists f, L, j, T0, S, m, T, b, base, ys, rows, d, y. auto.
  Qed.
End Run.
