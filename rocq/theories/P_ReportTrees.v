(** The spanning trees a detector reports. *)
From Coq Require Import List Arith Lia Bool ZArith Permutation Sorted.
From Verif Require Import Prelude Order Graph Size Num P_Sort S_Kruskal M_Kruskal M_Precomputed M_Condense M_Linkage M_Pipeline M_Estimator M_Layers M_LayerTree M_CoreGraph S_CoreGraph S_LayerTree M_SubClusters S_SubClusters M_LensGraph
  M_Detector M_Report P_BackendsAgree P_LensGraph P_KruskalRun P_PipelineRun P_SubRun P_SubTop P_Detector P_DetectorTop P_ReportTop.
Import ListNotations.
Local Open Scope nat_scope.

Lemma map_res_nth {A B} (f : A -> res B) l : forall ys, map_res f l = Ok ys -> length ys = length l /\
  forall k y, nth_error ys k = Some y -> exists x, nth_error l k = Some x /\ f x = Ok y.
Proof.
  induction l as [|x l IH]; intros ys E; simpl in E.
  - injection E as <-. split; auto. intros [|k] y H; discriminate.
  - destruct (f x) as [y|] eqn:Ey; [|discriminate]. cbn [bind] in E. destruct (map_res f l) as [zs|]; [|discriminate]. injection E as <-.
    destruct (IH zs eq_refl) as [HL HN]. split; [simpl; auto|]. intros [|k] z H; simpl in *; [injection H as <-; eauto|auto].
Qed.

Section Trees.
  Context {W V : WOrd} {Sz : SOrd} {Row : Type}.
  Variables (round : W -> W) (sort_row : list (nat * W) -> list (nat * W)) (average : V -> V -> V) (zero one : V) (no_lens : W)
    (cluster_of : list (edge W) -> res (list Z * list V))
    (propagate : joined V W * list (list nat * sub_result W V) -> res ((nat -> Z) * (nat -> Z))).
  Hypothesis Hsort : forall l, Permutation (sort_row l) l /\ sorted_by (fun cw : nat * W => snd cw) (sort_row l).

  Lemma permuted_forest (E M M' : list (edge W)) : Permutation M' M -> spanning_forest E M -> spanning_forest E M'.
  Proof.
    intros HP HF. split.
    - intros e He. apply (sf_incl _ _ HF). eapply Permutation_in; eauto.
    - eapply acyclic_perm; [apply Permutation_sym; exact HP|apply HF].
    - intros x y. rewrite <- (sf_connected _ _ HF). split; apply connected_incl; intros e He; (eapply Permutation_in; [|exact He]); auto using Permutation_sym.
  Qed.

  Lemma one_tree neighbors mst lens r : let n := length neighbors in 2 <= n ->
    (forall i j, i < n -> linked neighbors mst i j -> j < n /\ j <> i) -> (forall i, i < n -> exists j, linked neighbors mst i j) ->
    core_graph_clusters round sort_row one cluster_of neighbors mst lens = Ok r ->
    let E := csr_entries (lens_graph round sort_row neighbors mst lens) in
    spanning_forest E (sr_mst r) /\ ((forall i j, i < n -> j < n -> connected E i j) -> sorted_by ewt (sr_mst r)).
  Proof.
    intros n Hn Hlinked Hall. unfold core_graph_clusters. set (g := lens_graph _ _ _ _ _).
    destruct (c14_forest g) as (labels & M & -> & HF & [HL HC] & _).
    { now apply lens_graph_stored. } { now apply lens_graph_sorted. } { now apply lens_graph_gap. } { now apply lens_graph_loops. }
    assert (Hg : csr_n g = n) by apply lens_graph_n. rewrite Hg in *.
    cbn [bind]. destruct (Nat.ltb_spec 1 (distinct labels)) as [H1|H1].
    - intro E. injection E as <-. cbn [sr_mst]. split; [exact HF|]. intro Hall'. exfalso. rewrite distinct_unique in H1.
      pose proof (unique_NoDup labels) as HN. destruct (unique labels) as [|u [|v us]] eqn:Eu; try (simpl in H1; lia).
      assert (Huv : u <> v) by (inversion_clear HN as [|? ? H2 _]; intro; apply H2; now left).
      assert (Hu : In u labels) by (apply unique_in; rewrite Eu; now left). assert (Hv : In v labels) by (apply unique_in; rewrite Eu; right; now left).
      apply (In_nth _ _ 0) in Hu as (i & Hi & Ei). apply (In_nth _ _ 0) in Hv as (j & Hj & Ej). rewrite HL in *.
      apply Huv. rewrite <- Ei, <- Ej. apply HC; auto.
    - destruct (cluster_of M) as [ls|]; [|discriminate]. cbn [bind]. intro E. injection E as <-. cbn [sr_mst].
      split; [eapply permuted_forest; [symmetry; apply sort_mst_perm|exact HF]|]. intros _. apply isort_sorted.
  Qed.

  Lemma rows_trees flag (data : list Row) labels probs neighbors mst (value : list nat -> list W) K d :
    sub_input labels neighbors mst (fun k => value (members labels (Z.of_nat k))) K ->
    detect_rows round sort_row average zero one no_lens cluster_of propagate flag data labels probs neighbors mst value = Ok d ->
    length (spanning_trees d) = K /\ length (d_points d) = K /\
    forall k, k < K -> cluster_points labels k (nth k (d_points d) []) /\
      exists E, lens_edges round neighbors mst (nth k (d_points d) []) (value (nth k (d_points d) [])) E /\ spanning_forest E (nth k (spanning_trees d) []) /\
        ((forall i j, i < length (nth k (d_points d) []) -> j < length (nth k (d_points d) []) -> connected E i j) -> sorted_by ewt (nth k (spanning_trees d) [])).
  Proof.
    intro HI. unfold detect_rows. pose proof (num_clusters_ok labels neighbors mst _ K HI) as EK. rewrite EK. cbn [bind].
    destruct (check_endpoints labels mst); [|discriminate]. cbn [bind].
    destruct (find_sub_clusters _ _ _ _ _ _ _ _ _ _ _ _) as [[s cs]|] eqn:EF; [|discriminate]. cbn [bind].
    destruct (maybe_propagate propagate flag (s, cs)) as [final|]; [|discriminate]. cbn [bind]. intro E. injection E as <-.
    unfold spanning_trees. cbn [d_parts d_points snd].
    unfold find_sub_clusters in EF. destruct (sub_clusters_per_cluster _ _ _ _ _ _ _ _) as [rs|] eqn:ER; [|discriminate]. cbn [bind] in EF.
    destruct (update_labels _ _ _ _ _) as [s'|] eqn:EU; [|discriminate]. cbn [bind] in EF. injection EF as _ <-.
    unfold sub_clusters_per_cluster in ER. rewrite EK in ER. cbn [bind] in ER. apply map_res_nth in ER as [HL HN]. rewrite seq_length in HL.
    assert (HC : forall k r, nth_error rs k = Some r -> nth_error (combine (seq 0 (length rs)) rs) k = Some (k, r)).
    { intros k r. assert (H : forall a, nth_error rs k = Some r -> nth_error (combine (seq a (length rs)) rs) k = Some (a + k, r)); [|apply (H 0)].
      clear. revert k. induction rs as [|r0 rs IH]; intros [|k] a Er; simpl in *; try discriminate.
      - injection Er as <-. now rewrite Nat.add_0_r.
      - rewrite (IH k (S a) Er). now rewrite Nat.add_succ_r. }
    rewrite !map_length, combine_length, seq_length, Nat.min_id. split; auto. split; auto. intros k Hk.
    destruct (nth_error rs k) as [r|] eqn:Er; [|apply nth_error_None in Er; lia]. pose proof (HC k r Er) as Hc.
    assert (E1 : nth k (map fst (map (fun kr : nat * sub_result W V => (members labels (Z.of_nat (fst kr)), snd kr)) (combine (seq 0 (length rs)) rs))) [] = members labels (Z.of_nat k)).
    { apply nth_error_nth. rewrite !nth_error_map, Hc. reflexivity. }
    assert (E2 : nth k (map sr_mst (map snd (map (fun kr : nat * sub_result W V => (members labels (Z.of_nat (fst kr)), snd kr)) (combine (seq 0 (length rs)) rs)))) [] = sr_mst r).
    { apply nth_error_nth. rewrite !nth_error_map, Hc. reflexivity. }
    rewrite E1, E2. split.
    - apply members_points.
    - destruct (HN k r Er) as (x & Hx & Ex). rewrite (nth_error_nth' _ 0), seq_nth in Hx by (rewrite ?seq_length; lia). injection Hx as <-.
      unfold sub_clusters_in_cluster in Ex. cbn [Nat.add] in Ex. apply one_tree in Ex as [X1 X2].
      + eexists. split; [|split; [exact X1|]]; [apply (graph_edges round sort_row Hsort labels neighbors mst _ K HI)|]. intro H. apply X2. now rewrite map_length.
      + rewrite map_length. eapply pts_two; eauto.
      + eapply sub_linked_range; eauto.
      + eapply sub_linked_all; eauto.
  Qed.

  Lemma detector_trees flag (data : list Row) (T : list (crow V Sz)) labels probs neighbors mst (lens : lens_input W V Row) (value : list nat -> list W) K d :
    (forall r, In r T -> wlt zero (c_lam r) = true) -> lens_of no_lens lens (length data) None data probs = Ok value ->
    sub_input labels neighbors mst (fun k => value (members labels (Z.of_nat k))) K ->
    detect round sort_row average zero one no_lens cluster_of propagate flag data T labels probs neighbors mst lens = Ok d ->
    length (spanning_trees d) = K /\ length (d_points d) = K /\
    forall k, k < K -> cluster_points labels k (nth k (d_points d) []) /\
      exists E, lens_edges round neighbors mst (nth k (d_points d) []) (value (nth k (d_points d) [])) E /\ spanning_forest E (nth k (spanning_trees d) []) /\
        ((forall i j, i < length (nth k (d_points d) []) -> j < length (nth k (d_points d) []) -> connected E i j) -> sorted_by ewt (nth k (spanning_trees d) [])).
  Proof.
    intros HT Hv HI. rewrite detect_plain by auto. destruct (forallb _ labels); [discriminate|]. rewrite Hv. cbn [bind]. now apply rows_trees.
  Qed.
End Trees.
