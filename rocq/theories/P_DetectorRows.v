(** What a detector reports about complete rows. *)
From Coq Require Import List Arith Lia Bool ZArith Permutation Relations Sorted.
From Verif Require Import Prelude Order Graph UF Size Num M_DisjointSet M_Kruskal M_Precomputed M_Linkage M_Condense M_Select M_Labels M_CoreGraph
  M_Pipeline M_Estimator M_Layers M_LayerTree M_SubClusters M_LensGraph S_Kruskal S_Precomputed S_CoreGraph S_Labels S_Pipeline S_LayerTree S_SubClusters
  P_PipelineEx P_SubClusters P_Branches P_LensGraph P_SubRun P_SubTop M_Detector S_Detector P_Detector S_DetectorRows.
Import ListNotations.
Local Open Scope nat_scope.

Section Rows.
  Context {W V : WOrd} {Row : Type} {Sz : SOrd}.
  Variables (round : W -> W) (sort_row : list (nat * W) -> list (nat * W)).
  Hypothesis Hsort : forall l, Permutation (sort_row l) l /\ sorted_by (fun cw : nat * W => snd cw) (sort_row l).
  Variables (lam : W -> V) (LA : LamArith V) (A : Arith V NatSize) (garbage : nat -> V) (by_parent : list (crow V NatSize) -> list (crow V NatSize))
    (st : settings V NatSize).
  Notation zero := (la_zero LA).
  Notation one := (la_one LA).
  Hypothesis HK : setting_ok lam LA A by_parent st.
  Hypothesis HR : root_ok st.
  Hypothesis HP : cluster_selection_persistence st = None.
  Notation cluster_of := (cluster_tree lam LA A garbage by_parent st).
  Variables (average : V -> V -> V) (no_lens : W) (propagate : joined V W * list (list nat * sub_result W V) -> res ((nat -> Z) * (nat -> Z))).
  Variables (data : list Row) (T : list (crow V Sz)) (labels : list Z) (strengths : list V) (neighbors : list (list (option nat))) (mst : list (edge W))
    (lens : lens_input W V Row) (value : list nat -> list W) (K : nat).
  Notation lens_callback := (fun k => value (members labels (Z.of_nat k))).
  Hypothesis HT : forall r, In r T -> wlt zero (c_lam r) = true.
  Hypothesis Hlens : lens_of no_lens lens (length data) None data strengths = Ok value.
  Hypothesis HLd : length labels = length data.
  Hypothesis HM : in_range (length labels) mst.
  Hypothesis HI : sub_input labels neighbors mst lens_callback K.
  Hypothesis Hpos : forall k a, k < K -> In a (lens_callback k) -> wlt zero (lam (round a)) = true.

  Lemma seen_at {B} (f : nat -> B) x y : x < length data -> nth x (map f (seq 0 (length data))) y = f x.
  Proof. intro H. rewrite nth_indep with (d' := f 0) by (now rewrite map_length, seq_length). rewrite map_nth. now rewrite seq_nth. Qed.

  Theorem rows_reported : exists d,
    detect round sort_row average zero one no_lens cluster_of propagate false data T labels strengths neighbors mst lens = Ok d /\
    reports round average zero one no_lens cluster_of labels strengths neighbors mst lens_callback K d.
  Proof.
    rewrite (detect_plain round sort_row average zero one no_lens cluster_of propagate false data T) by auto. rewrite Hlens. cbn [bind].
    assert (EN : num_clusters labels = Ok K) by (eapply num_clusters_ok; eauto).
    assert (EF : forallb (fun l => (l =? -1)%Z) labels = false) by (destruct (forallb _ labels) eqn:E; auto; unfold num_clusters in EN; rewrite E in EN; discriminate).
    rewrite EF. unfold detect_rows. rewrite EN. cbn [bind].
    assert (EC : check_endpoints labels mst = Ok tt).
    { unfold check_endpoints. replace (forallb _ mst) with true; auto. symmetry. apply forallb_forall. intros e He. destruct (HM e He). apply andb_true_iff. split; now apply Nat.ltb_lt. }
    rewrite EC. cbn [bind].
    destruct (run_ok round sort_row Hsort lam LA A garbage by_parent st HK HR HP labels neighbors mst lens_callback K HI Hpos average no_lens (fun x => nth x strengths zero))
      as (s & cs & E & Hcs & HO & HS & Href & Hcon).
    rewrite E. cbn [bind maybe_propagate fst snd]. eexists. split; [reflexivity|]. set (N := length data) in *.
    assert (Hin : forall k x, In x (members labels (Z.of_nat k)) -> x < N).
    { intros k x Hx. apply members_in in Hx. rewrite <- HLd. apply nth_error_Some. congruence. }
    assert (HLcs : length cs = K) by (rewrite <- (map_length fst), Hcs; unfold clusters; now rewrite map_length, seq_length).
    assert (Hpt : forall k pts, nth_error (map fst cs) k = Some pts -> k < K /\ pts = members labels (Z.of_nat k)).
    { intros k pts Hk. assert (Hlt : k < K) by (rewrite <- HLcs, <- (map_length fst); apply nth_error_Some; congruence). split; auto.
      destruct (HS k Hlt) as (r & Er & _). rewrite nth_error_map, Er in Hk. now injection Hk as <-. }
    assert (Hnoise : forall x, nth x labels (-1)%Z = (-1)%Z -> ~ In x (concat (clusters labels K))).
    { intros x Hl H. apply (clusters_in labels neighbors mst lens_callback K HI) in H as [_ H]. contradiction. }
    constructor; cbn [d_labels d_probs d_cluster d_cluster_probs d_sub d_sub_probs d_lens d_points d_parts]; auto.
    - rewrite !map_length, !seq_length. rewrite HLd. auto.
    - rewrite !map_length. split; auto. split; auto. intros k pts Hk. apply Hpt in Hk as [_ ->]. apply members_points.
    - pose proof (splits_of labels neighbors mst lens_callback K HI (fun _ x y => j_sub s x = j_sub s y) (j_labels s) ltac:(intros x _ Hl; apply HO; auto) Href Hcon) as [H1 H2 H3 H4].
      rewrite HLd in *. fold N in H1, H2, H3, H4. constructor; rewrite ?HLd; fold N.
      + intros x Hx Hl. rewrite (seen_at (j_labels s)); auto.
      + intros x y Hx Hy Lx Ly. rewrite !(seen_at (j_labels s)), !(seen_at (j_sub s)) by auto. auto.
      + intros x y Hx Hy Lx Hlt. rewrite !(seen_at (j_labels s)) by auto. auto.
      + destruct H4 as (K' & HK' & H4). exists K'. split; auto. intro l. rewrite H4. split; intros (x & Hx & Hl & Ex); exists x; split; auto; split; auto.
        * now rewrite (seen_at (j_labels s)).
        * now rewrite (seen_at (j_labels s)) in Ex.
    - intros k pts part Hk Hp. apply Hpt in Hk as [Hk ->]. destruct (HS k Hk) as (r & Er & (Hg & _ & (L1 & L2 & He)) & Hv).
      assert (part = r) as -> by (rewrite nth_error_map, Er in Hp; now injection Hp as <-). rewrite Hg.
      split; [apply (graph_edges round sort_row Hsort labels neighbors mst lens_callback K HI)|].
      assert (E1 : map (fun x => nth x (map (j_sub s) (seq 0 N)) 0%Z) (members labels (Z.of_nat k)) = sr_labels r).
      { rewrite (map_ext_in _ (j_sub s)) by (intros x Hx; rewrite (seen_at (j_sub s)); eauto).
        apply (sub_value labels s r k); auto. intros i x Hi. now apply Hv. }
      assert (E2 : map (fun x => nth x (map (j_sub_probs s) (seq 0 N)) zero) (members labels (Z.of_nat k)) = sr_probs r).
      { rewrite (map_ext_in _ (j_sub_probs s)) by (intros x Hx; rewrite (seen_at (j_sub_probs s)); eauto).
        apply (nth_ext _ _ zero zero); [now rewrite map_length|]. intros i Hi. rewrite map_length in Hi.
        destruct (nth_error (members labels (Z.of_nat k)) i) as [x|] eqn:Ex; [|apply nth_error_None in Ex; lia].
        destruct (Hv i x Ex) as (_ & Hq & _). rewrite (nth_error_nth _ _ _ Hq). apply nth_error_nth. now rewrite nth_error_map, Ex. }
      rewrite E1, E2. split; auto.
    - intros k pts Hk. apply Hpt in Hk as [Hk ->]. destruct (HS k Hk) as (r & Er & (_ & Hgf & (L1 & _)) & Hv).
      rewrite (map_ext_in _ (j_sub s)) by (intros x Hx; rewrite (seen_at (j_sub s)); eauto).
      rewrite (sub_value labels s r k); auto. intros i x Hi. now apply Hv.
    - intros k pts Hk. apply Hpt in Hk as [Hk ->]. destruct (HS k Hk) as (r & Er & _ & Hv).
      rewrite (map_ext_in _ (j_lens s)) by (intros x Hx; rewrite (seen_at (j_lens s)); eauto).
      assert (L : length (value (members labels (Z.of_nat k))) = length (members labels (Z.of_nat k))).
      { apply (si_lens _ _ _ _ _ HI k); [exact Hk|apply members_nodup|intro; apply members_in]. }
      apply (nth_ext _ _ no_lens no_lens); [now rewrite map_length|]. intros i Hi. rewrite map_length in Hi.
      destruct (nth_error (members labels (Z.of_nat k)) i) as [x|] eqn:Ex; [|apply nth_error_None in Ex; lia].
      destruct (Hv i x Ex) as (_ & _ & Hq & _). rewrite (nth_error_nth _ _ _ Hq). apply nth_error_nth. now rewrite nth_error_map, Ex.
    - intros x Hx Hl. rewrite HLd in Hx. rewrite !(seen_at (j_probs s)), !(seen_at (j_sub_probs s)) by auto.
      destruct (label_place labels neighbors mst lens_callback K HI x ltac:(lia) Hl) as (k & i & Hk & _ & Hi). destruct (HS k Hk) as (r & _ & _ & Hv). apply (Hv i x Hi).
    - intros x Hx Hl. rewrite HLd in Hx. rewrite (seen_at (j_sub s)), (seen_at (j_sub_probs s)), (seen_at (j_probs s)) by auto.
      destruct (HO x (Hnoise x Hl)) as (_ & -> & -> & -> & E5). split; auto. split; auto. split; auto.
      rewrite nth_error_map, (nth_error_nth' _ 0) by (rewrite seq_length; auto). rewrite seq_nth by auto. cbn. now rewrite E5.
  Qed.
End Rows.

(** ** Branches *)
Definition ascending (l : list nat) : Prop := forall i j x y, i < j -> nth_error l i = Some x -> nth_error l j = Some y -> x < y.
Lemma ascending_tail a l : ascending (a :: l) -> ascending l /\ forall x, In x l -> a < x.
Proof.
  intro H. split.
  - intros i j x y Hij Hx Hy. apply (H (S i) (S j)); auto. lia.
  - intros x Hx. apply In_nth_error in Hx as (i & Hi). apply (H 0 (S i)); auto. lia.
Qed.
Lemma ascending_unique l : forall l', ascending l -> ascending l' -> (forall x, In x l <-> In x l') -> l = l'.
Proof.
  induction l as [|a l IH]; intros l' H H' E.
  - destruct l' as [|b l']; auto. exfalso. apply (E b). now left.
  - destruct l' as [|b l']; [exfalso; apply (E a); now left|]. apply ascending_tail in H as [H1 H2]. apply ascending_tail in H' as [H1' H2'].
    assert (a = b).
    { destruct (proj1 (E a) (or_introl eq_refl)) as [->|Ha]; auto. destruct (proj2 (E b) (or_introl eq_refl)) as [->|Hb]; auto. apply H2 in Hb. apply H2' in Ha. lia. }
    subst b. f_equal. apply IH; auto. intro x. split; intro Hx.
    + destruct (proj1 (E x) (or_intror Hx)) as [->|K]; auto. apply H2 in Hx. lia.
    + destruct (proj2 (E x) (or_intror Hx)) as [->|K]; auto. apply H2' in Hx. lia.
Qed.
Lemma points_unique labels k p p' : cluster_points labels k p -> cluster_points labels k p' -> p = p'.
Proof. intros (_ & H1 & H2) (_ & H1' & H2'). apply ascending_unique; auto. intro x. now rewrite H1, H1'. Qed.

Lemma list_ext {A} (l : list A) : forall l', (forall k, nth_error l k = nth_error l' k) -> l = l'.
Proof.
  induction l as [|a l IH]; intros [|b l'] H; auto; try (specialize (H 0); discriminate).
  pose proof (H 0) as H0. cbn in H0. injection H0 as ->. f_equal. apply IH. intro k. apply (H (S k)).
Qed.

Section Branch.
  Context {W V : WOrd}.
  Variables (round : W -> W) (average : V -> V -> V) (zero one : V) (no_lens : W) (cluster_of : list (edge W) -> res (list Z * list V))
    (labels : list Z) (strengths : list V) (neighbors : list (list (option nat))) (mst : list (edge W)) (lens : nat -> list W) (K : nat) (d : detected W V).
  Hypothesis HI : sub_input labels neighbors mst lens K.
  Hypothesis HD : reports round average zero one no_lens cluster_of labels strengths neighbors mst lens K d.
  Variable sides : bool.
  Notation count := (if sides then 1 else 2).
  Notation sub x := (nth x (d_sub d) 0%Z).

  Lemma points_clusters : d_points d = clusters labels K.
  Proof.
    destruct (rp_points _ _ _ _ _ _ _ _ _ _ _ _ _ HD) as (L1 & _ & HP). apply list_ext. intro k. unfold clusters. rewrite nth_error_map.
    destruct (nth_error (d_points d) k) as [pts|] eqn:E.
    - assert (Hk : k < K) by (rewrite <- L1; apply nth_error_Some; congruence). rewrite (nth_error_nth' _ 0) by (now rewrite seq_length). rewrite seq_nth by auto. cbn. f_equal.
      apply (points_unique labels k); auto. apply members_points.
    - apply nth_error_None in E. symmetry. destruct (nth_error (seq 0 K) k) eqn:E2; auto. assert (k < length (seq 0 K)) by (apply nth_error_Some; congruence). rewrite seq_length in *. lia.
  Qed.

  Theorem branches_reported : exists b, branch_fit zero sides d = Ok b /\ reports_branches zero sides labels d b.
  Proof.
    destruct (rp_points _ _ _ _ _ _ _ _ _ _ _ _ _ HD) as (L1 & L2 & _). destruct (rp_lengths _ _ _ _ _ _ _ _ _ _ _ _ _ HD) as (M1 & M2 & M3 & M4 & M5).
    unfold branch_fit. set (cl := combine (d_points d) (map sr_tree (d_parts d))).
    assert (Hcl : forall k c, nth_error cl k = Some c -> exists pts part, nth_error (d_points d) k = Some pts /\ nth_error (d_parts d) k = Some part /\ c = (pts, sr_tree part)).
    { unfold cl. clear. revert d. intros d. generalize (d_points d) (d_parts d). induction l as [|a l IH]; intros [|b l0] k c H; destruct k; cbn in *; try discriminate.
      - injection H as <-. eauto.
      - auto. }
    assert (Hcl' : forall k pts part, nth_error (d_points d) k = Some pts -> nth_error (d_parts d) k = Some part -> nth_error cl k = Some (pts, sr_tree part)).
    { unfold cl. clear. generalize (d_points d) (d_parts d). induction l as [|a l IH]; intros [|b l0] k pts part H1 H2; destruct k; cbn in *; try discriminate.
      - congruence.
      - auto. }
    assert (Hmap : map fst cl = clusters labels K).
    { rewrite <- points_clusters. unfold cl. assert (HL : length (d_points d) = length (map sr_tree (d_parts d))) by (rewrite map_length; lia). revert HL.
      generalize (d_points d) (map sr_tree (d_parts d)). induction l as [|a l IH]; intros [|b l0] HL; cbn in *; auto; try discriminate. f_equal. apply IH. lia. }
    destruct (branches_ok count (fun x => sub x) (fun x => nth x (d_cluster_probs d) zero) cl (fun x => nth x (d_labels d) (-1)%Z) (fun x => nth x (d_probs d) zero))
      as (lab' & pr' & E & Ho & Hp & Hr & Hc).
    { rewrite Hmap. apply (clusters_separate round (fun l => l) cluster_of labels neighbors mst lens K HI). }
    { intros c Hc. apply In_nth_error in Hc as (k & Hc). apply Hcl in Hc as (pts & part & H1 & _ & ->). cbn [fst]. apply (rp_gaps _ _ _ _ _ _ _ _ _ _ _ _ _ HD k pts H1). }
    unfold apply_branch_threshold. rewrite E. cbn [bind fst snd]. eexists. split; [reflexivity|]. rewrite Hmap in *. rewrite M1.
    set (merge := fun k => exists c, nth_error cl k = Some c /\ snd c = true /\ few_labels count (fun y => sub y) (fst c)) in *.
    assert (Hseen : forall B (f : nat -> B) x y, x < length labels -> nth x (map f (seq 0 (length labels))) y = f x).
    { intros B f x y H. rewrite nth_indep with (d' := f 0) by (now rewrite map_length, seq_length). rewrite map_nth. now rewrite seq_nth. }
    assert (Hat : forall k, k < K -> exists part, nth_error (d_points d) k = Some (members labels (Z.of_nat k)) /\ nth_error (d_parts d) k = Some part /\
                     nth_error cl k = Some (members labels (Z.of_nat k), sr_tree part)).
    { intros k Hk. destruct (nth_error (d_parts d) k) as [part|] eqn:Ep; [|apply nth_error_None in Ep; lia]. exists part.
      assert (H : nth_error (d_points d) k = Some (members labels (Z.of_nat k))).
      { rewrite points_clusters. unfold clusters. rewrite nth_error_map, (nth_error_nth' _ 0) by (now rewrite seq_length). now rewrite seq_nth. }
      split; auto. }
    assert (Hwhole : forall x, x < length labels -> nth x labels (-1)%Z <> (-1)%Z -> (stays_whole count d x <-> merge (Z.to_nat (nth x labels (-1)%Z)))).
    { intros x Hx Hl. destruct (label_place labels neighbors mst lens K HI x Hx Hl) as (k & i & Hk & -> & Hi). rewrite Nat2Z.id. destruct (Hat k Hk) as (part & H1 & H2 & H3).
      apply nth_error_In in Hi. split.
      - intros (k' & pts & part' & P1 & P2 & P3 & P4 & P5).
        assert (k' = k).
        { assert (Hk' : k' < K) by (rewrite <- L1; apply nth_error_Some; congruence). destruct (Hat k' Hk') as (part'' & Q1 & _). rewrite Q1 in P1. injection P1 as <-.
          apply members_in in P3, Hi. rewrite P3 in Hi. injection Hi as Hi. lia. }
        subst k'. exists (pts, sr_tree part'). cbn [fst snd]. auto.
      - intros (c & E1 & E2 & E3). rewrite H3 in E1. injection E1 as <-. cbn [fst snd] in *. exists k, (members labels (Z.of_nat k)), part. auto. }
    assert (Hnoise : forall x, nth x labels (-1)%Z = (-1)%Z -> ~ In x (concat (clusters labels K))).
    { intros x Hl H. apply (clusters_in labels neighbors mst lens K HI) in H as [_ H]. contradiction. }
    constructor; cbn [d_labels d_probs d_cluster d_cluster_probs d_sub d_sub_probs d_lens d_points d_parts].
    - split; [now rewrite map_length, seq_length|].
      assert (Hn : forall x, x < length labels -> nth x labels (-1)%Z = (-1)%Z -> lab' x = (-1)%Z).
      { intros x Hx Hl. destruct (Ho x (Hnoise x Hl)) as [-> _]. destruct (rp_labels _ _ _ _ _ _ _ _ _ _ _ _ _ HD) as [H _ _ _]. auto. }
      pose proof (splits_of labels neighbors mst lens K HI (fun k x y => merge k \/ sub x = sub y) lab' Hn Hr Hc) as [H1 H2 H3 H4].
      constructor.
      + intros x Hx Hl. rewrite Hseen by auto. auto.
      + intros x y Hx Hy Lx Ly. rewrite !(Hseen _ lab') by auto. rewrite Hwhole by auto. auto.
      + intros x y Hx Hy Lx Hlt. rewrite !(Hseen _ lab') by auto. auto.
      + destruct H4 as (K' & HK' & H4). exists K'. split; auto. intro l. rewrite H4. split; intros (x & Hx & Hl & Ex); exists x; split; auto; split; auto.
        * now rewrite (Hseen _ lab').
        * now rewrite (Hseen _ lab') in Ex.
    - intros x Hx (k & pts & part & P1 & P2 & P3 & P4 & P5). rewrite Hseen by auto. apply (Hp (pts, sr_tree part)); cbn [fst snd]; auto. eapply nth_error_In; eauto.
    - intros x Hx Hs. rewrite Hseen by auto. destruct (Z.eq_dec (nth x labels (-1)%Z) (-1)) as [Hl|Hl]; [now apply Ho, Hnoise|].
      destruct (label_place labels neighbors mst lens K HI x Hx Hl) as (k & i & Hk & Ek & Hi). destruct (Hat k Hk) as (part & H1 & H2 & H3). apply nth_error_In in Hi.
      apply (Hp (members labels (Z.of_nat k), sr_tree part)); cbn [fst snd]; auto; [eapply nth_error_In; eauto|]. intros [H4 H5]. apply Hs. exists k, (members labels (Z.of_nat k)), part. auto.
    - repeat (split; auto).
  Qed.
End Branch.
