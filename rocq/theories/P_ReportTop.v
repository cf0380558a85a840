(** What a detector reports about the graphs of the clusters. *)
From Coq Require Import List Arith Lia Bool ZArith Permutation.
From Verif Require Import Prelude Order Graph Size Num M_Precomputed M_Linkage M_Condense M_Select M_Labels M_Pipeline S_Pipeline M_CoreGraph M_Estimator S_Estimator M_Layers M_LayerTree M_SubClusters M_LensGraph
  M_Detector M_Report M_Kruskal M_KruskalEntry S_Kruskal S_SubClusters S_Detector S_Report P_Sort P_CoreGraph P_LensGraph P_SubRun P_PipelineRun P_Estimator P_SubClusters P_Detector
  P_DetectorTop P_Report.
Import ListNotations.
Local Open Scope nat_scope.

(** ** Lens values *)
Lemma update_loop_lens {P Lens} (average : P -> P -> P) pieces : forall id (s s' : joined P Lens),
  update_loop average pieces id s = Ok s' -> NoDup (concat (map pc_points pieces)) ->
  (forall x, ~ In x (concat (map pc_points pieces)) -> j_lens s' x = j_lens s x) /\
  (forall c, In c pieces -> length (pc_lens c) = length (pc_points c) /\
     forall i x, nth_error (pc_points c) i = Some x -> nth_error (pc_lens c) i = Some (j_lens s' x)).
Proof.
  induction pieces as [|c pieces IH]; intros id s s' E HN.
  - injection E as <-. split; auto. intros c [].
  - cbn [update_loop] in E. destruct (noise_flag _) as [fl|]; [|discriminate]. cbn [bind] in E.
    destruct (put (j_labels s) _ _) as [l1|]; [|discriminate]. cbn [bind] in E. destruct (put (j_sub s) _ _) as [l2|]; [|discriminate]. cbn [bind] in E.
    destruct (put (j_sub_probs s) _ _) as [l3|]; [|discriminate]. cbn [bind] in E. destruct (put (j_probs s) _ _) as [l4|]; [|discriminate]. cbn [bind] in E.
    destruct (put (j_lens s) _ _) as [l5|] eqn:EP; [|discriminate]. cbn [bind] in E. unfold put in EP.
    destruct (Nat.eqb_spec (length (pc_points c)) (length (pc_lens c))) as [EL|]; [|discriminate]. injection EP as <-.
    simpl in HN. apply NoDup_app_iff in HN as (N1 & N2 & N3). destruct (IH _ _ _ E N2) as [IH1 IH2]. cbn [j_lens] in IH1. split.
    + intros x Hx. simpl in Hx. rewrite in_app_iff in Hx. rewrite IH1 by tauto. apply assign_out. tauto.
    + intros c' [<-|Hc']; [|auto]. split; [auto|]. intros i x Hi. assert (Hx : In x (pc_points c)) by (eapply nth_error_In; eauto).
      rewrite IH1 by (intro Hin; exact (N3 x Hx Hin)).
      destruct (nth_error (pc_lens c) i) as [v|] eqn:Ev.
      * f_equal. symmetry. eapply assign_in; eauto.
      * apply nth_error_None in Ev. assert (i < length (pc_points c)) by (apply nth_error_Some; congruence). lia.
Qed.

Lemma members_concat labels ks : NoDup ks -> NoDup (concat (map (fun k => members labels (Z.of_nat k)) ks)).
Proof.
  induction ks as [|k ks IH]; intro HN; simpl; [constructor|]. inversion HN as [|? ? Hk HN']; subst. apply NoDup_app_iff. split; [apply members_nodup|]. split; [auto|].
  intros x Hx Hc. apply members_in in Hx. apply in_concat in Hc as (l & Hl & Hc). apply in_map_iff in Hl as (k' & <- & Hk').
  apply members_in in Hc. rewrite Hx in Hc. injection Hc as Hc. assert (k = k') by lia. subst k'. contradiction.
Qed.

(** ** The links of a cluster *)
Section Cluster.
  Context {W : WOrd} (round : W -> W) (argsort : list W -> list nat).
  Hypothesis Hsort : argsorts argsort.
  Variables (labels : list Z) (neighbors : list (list (option nat))) (core : list W) (mst : list (edge W)).
  Hypothesis Hknown : forall x, x < length labels -> ~ In None (nth x neighbors []).
  Hypothesis Hone : single_edges mst.
  Variable k : nat.
  Let pts := members labels (Z.of_nat k).
  Let neighbors' := map (fun x => map (neighbor_in (length labels) pts) (nth x neighbors [])) pts.
  Let mst' := flat_map (edge_in labels (Z.of_nat k) pts) mst.

  Lemma member_label i x : nth_error pts i = Some x -> nth_error labels x = Some (Z.of_nat k) /\ x < length labels.
  Proof.
    intro H. assert (E : nth_error labels x = Some (Z.of_nat k)) by (apply members_in; eapply nth_error_In; eauto).
    split; auto. apply nth_error_Some. congruence.
  Qed.
  Lemma label_member x : nth_error labels x = Some (Z.of_nat k) -> exists i, nth_error pts i = Some x.
  Proof. intro H. apply members_in in H. now apply In_nth_error. Qed.

  Lemma neighbor_link i j x : nth_error pts i = Some x ->
    (In (Some j) (nth i neighbors' []) <-> exists y, nth_error pts j = Some y /\ In (Some y) (nth x neighbors [])).
  Proof.
    intro Hi. assert (E : nth i neighbors' [] = map (neighbor_in (length labels) pts) (nth x neighbors [])).
    { unfold neighbors'. apply nth_error_nth. now rewrite nth_error_map, Hi. }
    rewrite E, in_map_iff. split.
    - intros ([y|] & Ey & H).
      + exists y. split; auto. now apply place_some.
      + destruct (member_label i x Hi) as [_ Hx]. now destruct (Hknown x Hx).
    - intros (y & Hy & H). exists (Some y). split; auto. cbn. apply place_at; auto. apply members_nodup.
  Qed.

  Lemma edge_link i j x d : nth_error pts i = Some x -> (In (i, j, d) mst' <-> exists y, nth_error pts j = Some y /\ In (x, y, d) mst).
  Proof.
    intro Hi. unfold mst'. rewrite in_flat_map. split.
    - intros ([[a b] v] & He & H). unfold edge_in, esrc, edst, ewt in H. cbn [fst snd] in H. destruct (_ && _)%bool; [|destruct H].
      destruct (place_in pts a) as [p|] eqn:Ea; [|destruct H]. destruct (place_in pts b) as [q|] eqn:Eb; [|destruct H].
      destruct H as [H|[]]. injection H as -> -> ->. apply place_some in Ea, Eb. rewrite Hi in Ea. injection Ea as <-. eauto.
    - intros (y & Hj & H). exists (x, y, d). split; auto. unfold edge_in, esrc, edst, ewt. cbn [fst snd].
      destruct (member_label i x Hi) as [L1 _]. destruct (member_label j y Hj) as [L2 _]. rewrite (nth_error_nth _ _ _ L1), (nth_error_nth _ _ _ L2), Z.eqb_refl. cbn [andb].
      rewrite (place_at pts (members_nodup _ _) _ _ Hi), (place_at pts (members_nodup _ _) _ _ Hj). now left.
  Qed.

  Lemma single_inside : single_edges mst'.
  Proof.
    intros i j d d' H H'. assert (Hi : exists x, nth_error pts i = Some x).
    { unfold mst' in H. apply in_flat_map in H as ([[a b] v] & He & H). unfold edge_in, esrc, edst, ewt in H. cbn [fst snd] in H. destruct (_ && _)%bool; [|destruct H].
      destruct (place_in pts a) as [p|] eqn:Ea; [|destruct H]. destruct (place_in pts b) as [q|] eqn:Eb; [|destruct H].
      destruct H as [H|[]]. injection H as -> -> ->. apply place_some in Ea. eauto. }
    destruct Hi as (x & Hi). apply (edge_link i j x d Hi) in H as (y & Hy & H). apply (edge_link i j x d' Hi) in H' as (y' & Hy' & H').
    rewrite Hy in Hy'. injection Hy' as <-. eapply Hone; eauto.
  Qed.

  Let core' i := nth (nth i pts 0) core winf.
  Lemma links_inside i j x d : nth_error pts i = Some x ->
    (link_in neighbors' core' mst' i j d <-> exists y, nth_error pts j = Some y /\ link_distance neighbors core mst x y d).
  Proof.
    intro Hi. unfold link_in, link_distance. rewrite (neighbor_link i j x Hi), (edge_link i j x d Hi).
    unfold core'. rewrite (nth_error_nth _ _ 0 Hi). split.
    - intros [((y & Hy & H) & ->)|(Hn & y & Hy & H)]; exists y; (split; [auto|]).
      + left. now rewrite (nth_error_nth _ _ 0 Hy).
      + right. split; auto. intro Hin. apply Hn. eauto.
    - intros (y & Hy & [(H & ->)|(Hn & H)]).
      + left. rewrite (nth_error_nth _ _ 0 Hy). eauto.
      + right. split; [|eauto]. intros (y' & Hy' & H'). rewrite Hy in Hy'. injection Hy' as <-. auto.
  Qed.

  Variables (lens_callback : nat -> list W) (lens : list W).
  Hypothesis Hlens : forall i x, nth_error pts i = Some x -> nth i (lens_callback k) winf = nth x lens winf.
  Let g := cluster_graph round argsort labels neighbors core mst lens_callback k.

  Lemma cluster_edges : forall i j w d, In (i, j, w, d) (core_graph_to_edge_list g) <-> exists x y, nth_error pts i = Some x /\ nth_error pts j = Some y /\
                 w = round (wmax (nth x lens winf) (nth y lens winf)) /\ exists d', link_distance neighbors core mst x y d' /\ d = round d'.
  Proof.
    assert (HP : forall ws, Permutation (argsort ws) (seq 0 (length ws))) by (intro; apply Hsort).
    intros i j w d. change g with (lens_graph_full round argsort neighbors' core' mst' (fun i => nth i (lens_callback k) winf)).
      rewrite (graph_edges round argsort HP _ _ _ _ _ _ _ _ single_inside). replace (length neighbors') with (length pts) by (unfold neighbors'; now rewrite map_length). split.
      - intros (Hi & -> & d' & Hl & ->). destruct (nth_error pts i) as [x|] eqn:Ex; [|apply nth_error_None in Ex; lia].
        destruct (proj1 (links_inside i j x d' Ex) Hl) as (y & Hy & Hl'). exists x, y. rewrite (Hlens i x Ex), (Hlens j y Hy). eauto 8.
      - intros (x & y & Hx & Hy & -> & d' & Hl & ->). split; [apply nth_error_Some; congruence|]. rewrite (Hlens i x Hx), (Hlens j y Hy). split; auto.
        exists d'. split; auto. apply (links_inside i j x d' Hx). eauto. 
  Qed.

  Lemma cluster_links : reported_links round neighbors core mst labels lens k
    (map (fun e => let '(i, j, w, d) := e in (nth i pts 0, nth j pts 0, w, d)) (core_graph_to_edge_list g)).
  Proof.
    assert (HP : forall ws, Permutation (argsort ws) (seq 0 (length ws))) by (intro; apply Hsort).
    pose proof cluster_edges as HE.
    split.
    - rewrite map_map. pose proof (graph_edges_once round argsort HP _ core' mst' (fun i => nth i (lens_callback k) winf) single_inside : NoDup (map _ (core_graph_to_edge_list g))) as HN.
      assert (HI : forall e, In e (core_graph_to_edge_list g) -> (exists x, nth_error pts (fst (fst (fst e))) = Some x) /\ exists y, nth_error pts (snd (fst (fst e))) = Some y).
      { intros [[[i j] w] d] He. apply HE in He as (x & y & Hx & Hy & _). eauto. }
      clear HE. induction (core_graph_to_edge_list g) as [|[[[i j] w] d] l IH]; simpl; [constructor|]. simpl in HN. inversion HN as [|? ? Hno HN']; subst.
      constructor; [|apply IH; auto; intros e He; apply HI; now right].
      intro Hin. apply in_map_iff in Hin as ([[[i' j'] w'] d'] & E & Hin). cbn in E. injection E as E1 E2. apply Hno.
      apply in_map_iff. exists (i', j', w', d'). split; auto. cbn.
      destruct (HI _ (or_introl eq_refl)) as [(x & Hx) (y & Hy)]. destruct (HI _ (or_intror Hin)) as [(x' & Hx') (y' & Hy')]. cbn in Hx, Hy, Hx', Hy'.
      rewrite (nth_error_nth _ _ _ Hx), (nth_error_nth _ _ _ Hx') in E1. rewrite (nth_error_nth _ _ _ Hy), (nth_error_nth _ _ _ Hy') in E2. subst x' y'.
      assert (HNp := members_nodup labels k). fold pts in HNp. rewrite NoDup_nth_error in HNp.
      f_equal; apply HNp; try congruence; apply nth_error_Some; congruence.
    - intros x y w d. rewrite in_map_iff. split.
      + intros ([[[i j] w'] d0] & E & H). injection E as <- <- -> ->. apply HE in H as (x & y & Hx & Hy & -> & Hl).
        rewrite (nth_error_nth _ _ _ Hx), (nth_error_nth _ _ _ Hy). destruct (member_label i x Hx), (member_label j y Hy). auto.
      + intros (Lx & Ly & -> & Hl). destruct (label_member x Lx) as (i & Hi). destruct (label_member y Ly) as (j & Hj).
        exists (i, j, round (wmax (nth x lens winf) (nth y lens winf)), d). rewrite (nth_error_nth _ _ _ Hi), (nth_error_nth _ _ _ Hj). split; auto. apply HE. eauto 8.
  Qed.
End Cluster.

(** ** The detector *)
Lemma map_res_map {A B C} (f : A -> res B) (h : B -> C) (h' : A -> C) l : (forall x y, In x l -> f x = Ok y -> h y = h' x) ->
  forall ys, map_res f l = Ok ys -> map h ys = map h' l.
Proof.
  induction l as [|x l IH]; intros Hf ys E; simpl in E; [injection E as <-; auto|].
  destruct (f x) as [y|] eqn:Ey; [|discriminate]. cbn [bind] in E. destruct (map_res f l) as [zs|]; [|discriminate]. injection E as <-. simpl. f_equal.
  - apply Hf; simpl; auto.
  - apply IH; auto. intros; apply Hf; simpl; auto.
Qed.

Section Detect.
  Context {W V : WOrd} {Sz : SOrd} {Row : Type}.
  Variables (round : W -> W) (argsort : list W -> list nat) (average : V -> V -> V) (zero one : V) (no_lens : W)
    (cluster_of : list (edge W) -> res (list Z * list V))
    (propagate : joined V W * list (list nat * sub_result W V) -> res ((nat -> Z) * (nat -> Z))).
  Hypothesis Hsort : argsorts argsort.
  Notation detect := (detect round (sort_with argsort) average zero one no_lens cluster_of propagate).
  Notation detect_rows := (detect_rows round (sort_with argsort) average zero one no_lens cluster_of propagate).

  Lemma rows_report flag (data : list Row) labels probs neighbors core mst lens d :
    length labels = length data -> (forall x, x < length labels -> ~ In None (nth x neighbors [])) -> single_edges mst ->
    detect_rows flag data labels probs neighbors mst lens = Ok d ->
    exists gs, row_graphs round argsort labels neighbors core mst lens = Ok gs /\ map without_distances gs = map sr_graph (d_parts d) /\
      length gs = length (d_points d) /\
      (forall g pts, In (g, pts) (combine gs (d_points d)) -> forall e, In e (core_graph_to_edge_list g) -> fst (fst (fst e)) < length pts /\ snd (fst (fst e)) < length pts) /\
      forall k, k < length gs -> reported_links round neighbors core mst labels (d_lens d) k (nth k (approximation_graph gs (d_points d)) []).
  Proof.
    intros Hlen Hknown Hone. unfold M_Detector.detect_rows, row_graphs.
    destruct (num_clusters labels) as [K|] eqn:EK; [|discriminate]. cbn [bind]. destruct (check_endpoints labels mst); [|discriminate]. cbn [bind].
    destruct (find_sub_clusters _ _ _ _ _ _ _ _ _ _ _ _) as [[s cs]|] eqn:EF; [|discriminate]. cbn [bind].
    destruct (maybe_propagate propagate flag (s, cs)) as [final|]; [|discriminate]. cbn [bind]. intro E. injection E as <-.
    cbn [d_parts d_points d_lens fst snd]. eexists. split; [reflexivity|].
    unfold find_sub_clusters in EF. destruct (sub_clusters_per_cluster _ _ _ _ _ _ _ _) as [rs|] eqn:ER; [|discriminate]. cbn [bind] in EF.
    destruct (update_labels _ _ _ _ _) as [s'|] eqn:EU; [|discriminate]. cbn [bind] in EF. injection EF as <- <-.
    unfold sub_clusters_per_cluster in ER. rewrite EK in ER. cbn [bind] in ER.
    set (call := fun k => lens (members labels (Z.of_nat k))) in *.
    assert (HR : length rs = K).
    { assert (H : forall ys, map_res (sub_clusters_in_cluster round (sort_with argsort) one cluster_of labels neighbors mst call) (seq 0 K) = Ok ys -> length ys = K).
      { intros ys Ey. rewrite <- (seq_length K 0) at 1. rewrite <- (map_length (fun _ => tt) ys), <- (map_length (fun _ => tt) (seq 0 K)). f_equal.
        eapply map_res_map; [|exact Ey]. auto. }
      auto. }
    assert (HC : map (fun kr : nat * sub_result W V => snd kr) (combine (seq 0 (length rs)) rs) = rs).
    { clear. generalize 0. induction rs as [|r rs IH]; intro a; simpl; auto. now rewrite IH. }
    assert (HF : map (fun kr : nat * sub_result W V => fst kr) (combine (seq 0 (length rs)) rs) = seq 0 (length rs)).
    { clear. generalize 0. induction rs as [|r rs IH]; intro a; simpl; auto. now rewrite IH. }
    assert (HPts : map fst (map (fun kr : nat * sub_result W V => (members labels (Z.of_nat (fst kr)), snd kr)) (combine (seq 0 (length rs)) rs)) =
                   map (fun k => members labels (Z.of_nat k)) (seq 0 K)).
    { rewrite map_map. cbn [fst]. rewrite <- (map_map (fun kr : nat * sub_result W V => fst kr) (fun k => members labels (Z.of_nat k))). now rewrite HF, HR. }
    rewrite HPts. rewrite !map_map. cbn [snd].
    assert (EC : combine (map (cluster_graph round argsort labels neighbors core mst call) (seq 0 K)) (map (fun k => members labels (Z.of_nat k)) (seq 0 K)) =
                 map (fun k => (cluster_graph round argsort labels neighbors core mst call k, members labels (Z.of_nat k))) (seq 0 K)).
    { clear. induction (seq 0 K); simpl; auto. now f_equal. }
    assert (HLn : forall k i x, k < K -> nth_error (members labels (Z.of_nat k)) i = Some x ->
                  nth i (call k) winf = nth x (map (j_lens s') (seq 0 (length data))) winf).
    { intros k i x Hk Hi. unfold update_labels in EU. apply update_loop_lens in EU as [_ EU].
      2:{ rewrite map_map. cbn [piece_of pc_points].
          change (map (fun kr : nat * sub_result W V => members labels (Z.of_nat (fst kr))) (combine (seq 0 (length rs)) rs)) with
            (map (fun kr : nat * sub_result W V => members labels (Z.of_nat ((fun kr : nat * sub_result W V => fst kr) kr))) (combine (seq 0 (length rs)) rs)).
          rewrite <- (map_map (fun kr : nat * sub_result W V => fst kr) (fun k => members labels (Z.of_nat k))). rewrite HF. apply members_concat, seq_NoDup. }
      destruct (nth_error rs k) as [r|] eqn:Er; [|apply nth_error_None in Er; lia].
      destruct (EU (piece_of labels call (k, r))) as [_ HU].
      { apply in_map. apply (nth_error_In _ k). clear - Er. assert (H : forall a, nth_error (combine (seq a (length rs)) rs) k = Some (a + k, r)); [|apply (H 0)].
        revert k Er. induction rs as [|r0 rs IH]; intros [|k] Er a; simpl in *; try discriminate.
        - injection Er as <-. now rewrite Nat.add_0_r.
        - rewrite (IH k Er). now rewrite Nat.add_succ_r. }
      specialize (HU i x Hi). cbn [piece_of pc_lens fst] in HU. rewrite (nth_error_nth _ _ winf HU).
      destruct (member_label labels k i x Hi) as [_ Hx]. symmetry. apply nth_error_nth. rewrite nth_error_map.
      rewrite (nth_error_nth' _ 0) by (rewrite seq_length; lia). rewrite seq_nth by lia. reflexivity. }
    split; [|split; [|split]].
    - change (map (fun x : nat * sub_result W V => sr_graph (snd x)) (combine (seq 0 (length rs)) rs)) with
        (map (fun x : nat * sub_result W V => sr_graph ((fun kr : nat * sub_result W V => snd kr) x)) (combine (seq 0 (length rs)) rs)).
      rewrite <- (map_map (fun kr : nat * sub_result W V => snd kr) sr_graph). rewrite HC.
      symmetry. eapply map_res_map; [|exact ER]. intros k r _ Er. unfold sub_clusters_in_cluster, core_graph_clusters in Er.
      destruct (boruvka_mst _) as [[[nc cl] lm]|]; [|discriminate]. cbn [bind] in Er. unfold cluster_graph. rewrite full_forget by (intro; apply Hsort).
      destruct (1 <? nc); [injection Er as <-; reflexivity|]. destruct (cluster_of lm) as [ls|]; [|discriminate]. cbn [bind] in Er. injection Er as <-. reflexivity.
    - now rewrite !map_length, !seq_length.
    - rewrite EC. intros g pts Hin [[[i j] w] d] He. apply in_map_iff in Hin as (k & E & Hk). apply in_seq in Hk. injection E as <- <-.
      apply (cluster_edges round argsort Hsort labels neighbors core mst Hknown Hone k call _ (fun i x => HLn k i x (proj2 Hk))) in He as (x & y & Hx & Hy & _). cbn [fst snd].
      split; apply nth_error_Some; congruence.
    - intros k Hk. rewrite map_length, seq_length in Hk. unfold approximation_graph. rewrite EC, map_map. cbn [fst snd].
      set (rep := fun k => _). assert (EN : nth k (map rep (seq 0 K)) [] = rep k).
      { apply nth_error_nth. rewrite nth_error_map, (nth_error_nth' _ 0) by now rewrite seq_length. rewrite seq_nth by auto. reflexivity. }
      rewrite EN. unfold rep. apply cluster_links; auto.
  Qed.

  (** On data without missing values. *)
  Lemma detector_report flag (data : list Row) (T : list (crow V Sz)) labels probs neighbors core mst lens d :
    (forall r, In r T -> wlt zero (c_lam r) = true) ->
    length labels = length data -> (forall x, x < length labels -> ~ In None (nth x neighbors [])) -> single_edges mst ->
    detect flag data T labels probs neighbors mst lens = Ok d ->
    exists gs, stored_graphs round argsort zero no_lens data T labels probs neighbors core mst lens = Ok gs /\
      map without_distances gs = map sr_graph (d_parts d) /\ length gs = length (d_points d) /\
      (forall g pts, In (g, pts) (combine gs (d_points d)) -> forall e, In e (core_graph_to_edge_list g) -> fst (fst (fst e)) < length pts /\ snd (fst (fst e)) < length pts) /\
      forall k, k < length gs -> reported_links round neighbors core mst labels (d_lens d) k (nth k (approximation_graph gs (d_points d)) []).
  Proof.
    intros HT Hlen Hk Ho. rewrite detect_plain by auto. unfold stored_graphs. rewrite searchsorted_none by auto. cbn [Nat.eqb].
    destruct (forallb _ labels); [discriminate|]. destruct (lens_of no_lens lens (length data) None data probs) as [ln|]; [|discriminate]. cbn [bind].
    intro E. eapply rows_report; eauto.
  Qed.

  (** With missing values: the same graph, between the finite rows. *)
  Lemma stored_missing (ok : Row -> bool) (X : list Row) pos (T1 T2 T0 : list (crow V Sz)) :
    places ok X pos ->
    (forall r, In r T1 -> wlt zero (c_lam r) = false) -> (forall r, In r T2 -> wlt zero (c_lam r) = true) -> (forall r, In r T0 -> wlt zero (c_lam r) = true) ->
    (forall p, p < length X -> ((exists r, In r T1 /\ c_child r = p) <-> exists x, nth_error X p = Some x /\ ok x = false)) -> T1 <> [] ->
    forall labels labels0 probs probs0 neighbors core mst lens lens0,
    let n := length X in let m := length (filter ok X) in
    picked n m pos labels labels0 -> picked n m pos probs probs0 -> picked_lens n m pos lens lens0 ->
    stored_graphs round argsort zero no_lens X (T1 ++ T2) labels probs neighbors core mst lens =
    stored_graphs round argsort zero no_lens (filter ok X) T0 labels0 probs0 neighbors core mst lens0.
  Proof.
    intros HP HT1 HT2 HT0 Hout Hne labels labels0 probs probs0 neighbors core mst lens lens0 n m HL HPr HLe. unfold n, m in *. clear n m. unfold stored_graphs.
    rewrite (searchsorted_none zero T0) by auto. rewrite (searchsorted_split zero T1 T2) by auto.
    destruct (Nat.eqb_spec (length T1) 0) as [E0|_]; [destruct T1; [congruence|discriminate]|]. cbn [Nat.eqb].
    rewrite firstn_app, firstn_all, Nat.sub_diag, firstn_O, app_nil_r.
    rewrite (all_but_index ok X (map c_child T1)).
    2:{ intros p Hp. rewrite in_map_iff, in_index.
        assert (G : (exists r, c_child r = p /\ In r T1) <-> exists r, In r T1 /\ c_child r = p) by (split; intros (r & ? & ?); eauto).
        rewrite G, Hout by auto. clear G. split.
        - intros (x & E & Hx) (y & E' & Hy). congruence.
        - intro H. destruct (nth_error X p) as [x|] eqn:E; [|apply nth_error_None in E; lia]. exists x. split; auto.
          destruct (ok x) eqn:Ex; auto. exfalso. eauto. }
    rewrite (picked_gather ok X pos _ _ HP (rows_picked ok X pos HP)), (picked_gather ok X pos _ _ HP HL), (picked_gather ok X pos _ _ HP HPr). cbn [bind].
    now rewrite (lens_picked no_lens ok X pos lens lens0 probs0 HP HLe).
  Qed.
End Detect.

Lemma rename_graph {W : WOrd} (pos : nat -> nat) (gs : list (core_graph W)) (points : list (list nat)) :
  length gs = length points ->
  (forall g pts, In (g, pts) (combine gs points) -> forall e, In e (core_graph_to_edge_list g) -> fst (fst (fst e)) < length pts /\ snd (fst (fst e)) < length pts) ->
  approximation_graph gs (map (map pos) points) = map (map (rename pos)) (approximation_graph gs points).
Proof.
  revert points. induction gs as [|g gs IH]; intros [|pts points] HL HR; try discriminate; auto.
  unfold approximation_graph in *. cbn [map combine]. f_equal.
  - cbn [fst snd]. rewrite map_map. apply map_ext_in. intros [[[i j] w] d] He. destruct (HR g pts (or_introl eq_refl) _ He) as [H1 H2]. cbn in H1, H2. cbn.
    f_equal; f_equal; f_equal; rewrite (nth_indep _ 0 (pos 0)) by (rewrite map_length; auto); apply map_nth.
  - apply IH; [simpl in HL; lia|]. intros g' pts' Hin. apply HR. now right.
Qed.

(** ** Fitted to data with missing values *)
Section Fit.
  Context {W V : WOrd} {Sz : SOrd} {Row : Type}.
  Variables (round : W -> W) (argsort : list W -> list nat) (average : V -> V -> V) (zero one : V) (no_lens : W)
    (cluster_of : list (edge W) -> res (list Z * list V))
    (propagate : joined V W * list (list nat * sub_result W V) -> res ((nat -> Z) * (nat -> Z))).
  Hypothesis Hsort : argsorts argsort.
  Notation detect := (detect round (sort_with argsort) average zero one no_lens cluster_of propagate).
  Notation stored := (stored_graphs round argsort zero no_lens).

  Lemma fit_report (ok : Row -> bool) set_list (run : list Row -> res (fitted W V Sz)) X r0 r pos :
    (forall l, Permutation (set_list l) l) -> forallb ok X = false -> run (filter ok X) = Ok r0 -> fit zero ok set_list run X = Ok r ->
    (forall q, In q (f_condensed r0) -> wlt zero (c_lam q) = true) -> places ok X pos ->
    forall labels labels0 probs probs0 neighbors core lens lens0 flag d0,
    let n := length X in let m := length (filter ok X) in
    picked n m pos labels labels0 -> picked n m pos probs probs0 -> picked_lens n m pos lens lens0 ->
    (forall x, x < m -> ~ In None (nth x neighbors [])) -> single_edges (f_mst r0) ->
    detect flag (filter ok X) (f_condensed r0) labels0 probs0 neighbors (f_mst r0) lens0 = Ok d0 ->
    exists d gs, detect flag X (f_condensed r) labels probs neighbors (f_mst r) lens = Ok d /\
      stored X (f_condensed r) labels probs neighbors core (f_mst r) lens = Ok gs /\
      stored (filter ok X) (f_condensed r0) labels0 probs0 neighbors core (f_mst r0) lens0 = Ok gs /\
      approximation_graph gs (d_points d) = map (map (rename pos)) (approximation_graph gs (d_points d0)).
  Proof.
    intros Hset Hs Hr Hf Hpos HP labels labels0 probs probs0 neighbors core lens lens0 flag d0 n m HL HPr HLe Hk Ho ED.
    pose proof (fit_detect round (sort_with argsort) average zero one no_lens cluster_of propagate ok set_list run X r0 r pos Hset Hs Hr Hf Hpos HP
                  labels labels0 probs probs0 neighbors lens lens0 flag HL HPr HLe) as HD. rewrite ED in HD. destruct HD as (d & Ed & Hd).
    destruct (fit_tree zero ok set_list run X r0 r Hset Hs Hr Hf) as (Em & T1 & T2 & ET & Hne & H1 & H2 & H3).
    destruct (detector_report round argsort average zero one no_lens cluster_of propagate Hsort flag (filter ok X) (f_condensed r0) labels0 probs0 neighbors core
                (f_mst r0) lens0 d0) as (gs & Eg & _ & Lg & Rg & _); auto.
    { apply HL. }
    { destruct HL as (_ & -> & _). auto. }
    exists d, gs. split; auto. split; [|split; auto].
    - rewrite ET, Em. rewrite (stored_missing round argsort zero no_lens ok X pos T1 T2 (f_condensed r0)) with (labels0 := labels0) (probs0 := probs0) (lens0 := lens0); auto.
      + intros q Hq. rewrite (H1 q Hq). apply wlt_irrefl.
      + intros q Hq. destruct (H2 q Hq) as (q0 & Hq0 & ->). auto.
    - rewrite (sp_points _ _ _ _ _ _ _ _ Hd). apply rename_graph; auto.
  Qed.
End Fit.

(** ** Fitting, and then detecting *)
Lemma report_after_fit {W V : WOrd} {Row : Type} (lam : W -> V) (LA : LamArith V) (garbage : nat -> V) (mst_of : list Row -> res (list (edge W)))
    (ok : Row -> bool) (set_list : list nat -> list nat) (X : list Row) :
  (forall l, Permutation (set_list l) l) -> forallb ok X = false -> 3 <= length (filter ok X) ->
  forall (round : W -> W) (argsort : list W -> list nat) (average : V -> V -> V) (one : V) (no_lens : W)
    (cluster_of : list (edge W) -> res (list Z * list V))
    (propagate : joined V W * list (list nat * sub_result W V) -> res ((nat -> Z) * (nat -> Z)))
    (A : Arith V NatSize) by_parent (st : settings V NatSize) M r0 r pos,
  argsorts argsort -> setting_ok lam LA A by_parent st -> mst_of (filter ok X) = Ok M -> spanning_tree (length (filter ok X)) M ->
  (forall e, In e M -> wlt (la_zero LA) (lam (ewt e)) = true) ->
  let run := fast_hdbscan lam LA garbage mst_of A by_parent st in
  run (filter ok X) = Ok r0 -> fit (la_zero LA) ok set_list run X = Ok r -> places ok X pos ->
  forall neighbors core lens lens0 flag d0,
  picked_lens (length X) (length (filter ok X)) pos lens lens0 -> (forall x, x < length (filter ok X) -> ~ In None (nth x neighbors [])) ->
  let detect := detect (Sz := NatSize) round (sort_with argsort) average (la_zero LA) one no_lens cluster_of propagate in
  detect flag (filter ok X) (f_condensed r0) (f_labels r0) (f_probabilities r0) neighbors (f_mst r0) lens0 = Ok d0 ->
  exists d gs, detect flag X (f_condensed r) (f_labels r) (f_probabilities r) neighbors (f_mst r) lens = Ok d /\
    stored_graphs round argsort (la_zero LA) no_lens X (f_condensed r) (f_labels r) (f_probabilities r) neighbors core (f_mst r) lens = Ok gs /\
    length gs = length (d_points d) /\
    forall k, k < length gs -> exists R, reported_links round neighbors core (f_mst r0) (f_labels r0) (d_lens d0) k R /\
      nth k (approximation_graph gs (d_points d)) [] = map (rename pos) R.
Proof.
  intros Hset Hs H3 round argsort average one no_lens cluster_of propagate A by_parent st M r0 r pos Ha HK EM HM Hpos run E0 E HP neighbors core lens lens0 flag d0 HLe Hk det ED.
  destruct (fit_picked _ ok set_list run X r0 r pos Hs E0 E HP) as [P1 P2].
  assert (H2 : 2 <= length (filter ok X)) by lia.
  destruct (fast_positive lam LA garbage mst_of A by_parent st _ M r0 HK H2 EM HM Hpos E0) as [EM0 HQ].
  assert (Ho : single_edges M).
  { destruct HM as [_ HA _ _]. intros x y d d' H H'. apply in_split in H as (l1 & l2 & ->). apply in_app_iff in H' as [H'|[H'|H']].
    - exfalso. apply (HA l1 (x, y, d) l2 eq_refl). apply (connected_edge (l1 ++ l2) (x, y, d')). apply in_app_iff. auto.
    - injection H' as <-. auto.
    - exfalso. apply (HA l1 (x, y, d) l2 eq_refl). apply (connected_edge (l1 ++ l2) (x, y, d')). apply in_app_iff. auto. }
  assert (Ho' : single_edges (f_mst r0)).
  { rewrite EM0. intros x y d d' H H'. apply (Ho x y); (eapply Permutation_in; [apply Permutation_sym, sort_mst_perm|eassumption]). }
  unfold det in *.
  destruct (fit_report round argsort average (la_zero LA) one no_lens cluster_of propagate Ha ok set_list run X r0 r pos Hset Hs E0 E HQ HP
              (f_labels r) (f_labels r0) (f_probabilities r) (f_probabilities r0) neighbors core lens lens0 flag d0 P1 P2 HLe Hk) as (d & gs & Ed & Eg & Eg0 & Er); auto.
  assert (PL : length (f_labels r0) = length (filter ok X)) by apply P1.
  destruct (detector_report round argsort average (la_zero LA) one no_lens cluster_of propagate Ha flag (filter ok X) (f_condensed r0) (f_labels r0) (f_probabilities r0)
              neighbors core (f_mst r0) lens0 d0) as (gs' & Eg' & _ & Lg & _ & HR); auto.
  { now rewrite PL. }
  rewrite Eg0 in Eg'. injection Eg' as <-.
  exists d, gs. split; auto. split; auto.
  assert (Ln : length gs = length (d_points d)).
  { pose proof (f_equal (fun l => length l) Er) as L. unfold approximation_graph in L. rewrite !map_length, !combine_length, Lg, Nat.min_id in L.
    pose proof (fit_detect round (sort_with argsort) average (la_zero LA) one no_lens cluster_of propagate ok set_list run X r0 r pos Hset Hs E0 E HQ HP
                  (f_labels r) (f_labels r0) (f_probabilities r) (f_probabilities r0) neighbors lens lens0 flag P1 P2 HLe) as HD. rewrite ED in HD. destruct HD as (d' & Ed' & Hd).
    rewrite Ed in Ed'. injection Ed' as <-. rewrite (sp_points _ _ _ _ _ _ _ _ Hd), map_length. auto. }
  split; auto. intros k Hlt. exists (nth k (approximation_graph gs (d_points d0)) []). split; [apply HR; auto|].
  rewrite Er. change (@nil (nat * nat * W * W)) with (map (rename pos) (@nil (nat * nat * W * W))) at 1. apply map_nth.
Qed.
