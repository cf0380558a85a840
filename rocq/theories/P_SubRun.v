(** Sub-clusters of all clusters, from the neighbours to the labels. *)
From Coq Require Import List Arith Lia Bool ZArith Permutation Relations Sorted.
From Verif Require Import Prelude Order Graph UF M_DisjointSet M_Kruskal M_Precomputed M_Linkage M_Select M_CoreGraph
  M_Pipeline M_Estimator M_Layers M_LayerTree M_SubClusters M_LensGraph S_Kruskal S_Precomputed S_CoreGraph S_LayerTree S_SubClusters
  P_Sort P_Forest P_KruskalRun P_CoreGraph P_CoreGraphRun P_PrecomputedBoruvka P_BackendsAgree P_LayerCurve P_LayerTree P_LayersTop
  P_SubClusters P_LensGraph.
Import ListNotations.
Local Open Scope nat_scope.

(** ** Renumbered components *)
Section Relabel.
  Variable labels : list nat.
  Let us := unique labels.
  Let R := map Z.of_nat (relabel 0 us labels).

  Lemma relabel_rank : R = map (fun l => match place_in us l with Some p => Z.of_nat p | None => Z.of_nat l end) labels.
  Proof.
    unfold R. rewrite relabel_map.
    - rewrite map_map. apply map_ext. intro l. now destruct (place_in us l).
    - apply unique_ssorted.
    - intros; lia.
  Qed.

  Lemma rank_of i l : nth_error labels i = Some l -> exists p, place_in us l = Some p /\ nth_error us p = Some l /\ nth_error R i = Some (Z.of_nat p).
  Proof.
    intro Hi. assert (Hl : In l us) by (apply unique_in; eapply nth_error_In; eauto).
    destruct (place_in us l) as [p|] eqn:E; [|apply place_none in E; contradiction].
    exists p. split; auto. split; [now apply place_some|]. rewrite relabel_rank, nth_error_map, Hi. cbn. now rewrite E.
  Qed.

  Lemma relabel_length : length R = length labels.
  Proof. rewrite relabel_rank. apply map_length. Qed.

  Lemma relabel_same i j : i < length labels -> j < length labels -> (nth i R 0%Z = nth j R 0%Z <-> nth i labels 0 = nth j labels 0).
  Proof.
    intros Hi Hj. destruct (nth_error labels i) as [a|] eqn:Ea; [|apply nth_error_None in Ea; lia].
    destruct (nth_error labels j) as [b|] eqn:Eb; [|apply nth_error_None in Eb; lia].
    destruct (rank_of i a Ea) as (p & Pp & Pu & Pr). destruct (rank_of j b Eb) as (q & Qp & Qu & Qr).
    rewrite (nth_error_nth _ _ 0%Z Pr), (nth_error_nth _ _ 0%Z Qr), (nth_error_nth _ _ 0 Ea), (nth_error_nth _ _ 0 Eb).
    split; intro E; [assert (p = q) by lia; congruence|]. subst b. congruence.
  Qed.

  Lemma relabel_range l : In l R -> (0 <= l)%Z.
  Proof.
    rewrite relabel_rank. intro H. apply in_map_iff in H as (a & <- & _). destruct (place_in us a); lia.
  Qed.

  Lemma relabel_gap_free : gap_free R.
  Proof.
    intros l Hl. pose proof (relabel_range l Hl). split; [lia|]. intros k Hk.
    apply In_nth_error in Hl as (i & Hi). assert (i < length labels) by (rewrite <- relabel_length; apply nth_error_Some; congruence).
    destruct (nth_error labels i) as [a|] eqn:Ea; [|apply nth_error_None in Ea; lia].
    destruct (rank_of i a Ea) as (p & Pp & Pu & Pr). rewrite Hi in Pr. injection Pr as ->.
    assert (p < length us) by (apply nth_error_Some; congruence).
    destruct (nth_error us (Z.to_nat k)) as [u|] eqn:Eu; [|apply nth_error_None in Eu; lia].
    pose proof (nth_error_In _ _ Eu) as Hu. apply (proj1 (unique_in u labels)) in Hu. apply In_nth_error in Hu as (j & Hj).
    destruct (rank_of j u Hj) as (q & Qp & Qu & Qr).
    rewrite (place_at us (unique_NoDup _) u _ Eu) in Qp. injection Qp as <-. rewrite Z2Nat.id in Qr by lia. eapply nth_error_In; eauto.
  Qed.
End Relabel.

Lemma forall2_len {A B} (R : A -> B -> Prop) l1 l2 : Forall2 R l1 l2 -> length l1 = length l2.
Proof. induction 1; simpl; auto. Qed.

Lemma forall2_at {A B} (R : A -> B -> Prop) l1 l2 : Forall2 R l1 l2 ->
  forall i a b, nth_error l1 i = Some a -> nth_error l2 i = Some b -> R a b.
Proof. induction 1; intros [|i] p q Hp Hq; simpl in *; try discriminate; [congruence|eauto]. Qed.

Section Run.
  Context {W V : WOrd}.
  Variables (round : W -> W) (sort_row : list (nat * W) -> list (nat * W)) (one : V).
  Hypothesis Hsort : forall l, Permutation (sort_row l) l /\ sorted_by (fun cw : nat * W => snd cw) (sort_row l).

  (** ** One cluster *)
  Section One.
    Variable cluster_of : list (edge W) -> res (list Z * list V).
    Variables (neighbors : list (list (option nat))) (mst : list (edge W)) (lens : nat -> W).
    Let n := length neighbors.
    Hypothesis Hn : 2 <= n.
    Hypothesis Hlinked : forall i j, i < n -> linked neighbors mst i j -> j < n /\ j <> i.
    Hypothesis Hall : forall i, i < n -> exists j, linked neighbors mst i j.
    Let g := lens_graph round sort_row neighbors mst lens.
    Let E := csr_entries g.

    Hypothesis Hcluster : forall M, spanning_tree n M -> incl M E -> exists ls ps, cluster_of M = Ok (ls, ps) /\ length ls = n /\ length ps = n /\ gap_free ls.

    Lemma core_graph_clusters_ok : exists r, core_graph_clusters round sort_row one cluster_of neighbors mst lens = Ok r /\
      sr_graph r = g /\ gap_free (sr_labels r) /\ explained one cluster_of n E (sr_labels r) (sr_probs r) (sr_tree r).
    Proof.
      unfold core_graph_clusters. fold g.
      destruct (c14_forest g) as (labels & M & -> & HF & [HL HC] & Hcount & _).
      { now apply lens_graph_stored. } { now apply lens_graph_sorted. } { now apply lens_graph_gap. } { now apply lens_graph_loops. }
      assert (Hg : csr_n g = n) by apply lens_graph_n. rewrite Hg in *. fold E in HF, HC. cbn [bind].
      rewrite (distinct_unique labels) in *.
      assert (HU : unique labels <> []).
      { intro E0. destruct labels as [|a l]; [simpl in HL; lia|]. assert (In a (unique (a :: l))) by (apply unique_in; now left). rewrite E0 in *. contradiction. }
      destruct (Nat.ltb_spec 1 (length (unique labels))) as [H1|H1].
      - eexists. split; [reflexivity|]. cbn [sr_graph sr_labels sr_probs sr_tree]. split; auto.
        split; [apply relabel_gap_free|]. split; [now rewrite relabel_length|]. split; [now rewrite repeat_length|]. left. split; auto.
        split; [|split].
        + pose proof (unique_NoDup labels) as HN. destruct (unique labels) as [|u [|v us]] eqn:Eu; try (simpl in H1; lia).
          assert (Huv : u <> v) by (inversion_clear HN as [|? ? H2 _]; intro; apply H2; now left).
          assert (Hu : In u labels) by (apply unique_in; rewrite Eu; now left). assert (Hv : In v labels) by (apply unique_in; rewrite Eu; right; now left).
          apply (In_nth _ _ 0) in Hu as (i & Hi & Ei). apply (In_nth _ _ 0) in Hv as (j & Hj & Ej). exists i, j. rewrite HL in *. split; auto. split; auto.
          intro Hc. apply HC in Hc; auto. congruence.
        + intros i j Hi Hj. rewrite relabel_same by lia. now apply HC.
        + intros i Hi. split.
          * assert (Hin : In (nth i (map Z.of_nat (relabel 0 (unique labels) labels)) 0%Z) (map Z.of_nat (relabel 0 (unique labels) labels))) by (apply nth_In; rewrite relabel_length; lia).
            apply relabel_range in Hin. lia.
          * apply nth_repeat.
      - assert (H1' : length (unique labels) = 1) by (destruct (unique labels); [congruence|simpl in *; lia]).
        assert (Hconn : forall i j, i < n -> j < n -> connected E i j).
        { intros i j Hi Hj. apply HC; auto. destruct (unique labels) as [|u [|? ?]] eqn:Eu; try (simpl in H1'; lia).
          assert (K : forall i, i < n -> nth i labels 0 = u).
          { intros i' Hi'. assert (Hin : In (nth i' labels 0) (unique labels)) by (apply unique_in, nth_In; lia). rewrite Eu in Hin. destruct Hin as [<-|[]]; auto. }
          now rewrite !K. }
        assert (HM : spanning_tree n M).
        { split; [|apply HF| |lia].
          - eapply in_range_incl; [apply HF|]. rewrite <- Hg. apply columns_range. now apply lens_graph_stored.
          - intros x y Hx Hy. apply (sf_connected _ _ HF). auto. }
        destruct (Hcluster M HM (sf_incl _ _ HF)) as (ls & ps & Ec & Ll & Lp & Hgf). rewrite Ec. cbn [bind]. eexists. split; [reflexivity|]. cbn [sr_graph sr_labels sr_probs sr_tree fst snd].
        split; auto. split; auto. split; auto. split; auto. right. split; [apply Nat.ltb_lt; lia|]. split; auto. exists M. auto.
    Qed.
  End One.

  (** ** Samples of a cluster *)
  Section Members.
    Variable labels : list Z.

    Lemma members_in k x : In x (members labels (Z.of_nat k)) <-> nth_error labels x = Some (Z.of_nat k).
    Proof.
      unfold members. rewrite filter_In, in_seq, Z.eqb_eq. split.
      - intros [Hx E]. rewrite <- E. apply nth_error_nth'. lia.
      - intro H. assert (x < length labels) by (apply nth_error_Some; congruence). split; [lia|]. now apply nth_error_nth.
    Qed.

    Lemma members_nodup k : NoDup (members labels (Z.of_nat k)).
    Proof. apply NoDup_filter, seq_NoDup. Qed.

    Lemma members_separate K : (forall k, k < K -> members labels (Z.of_nat k) <> []) ->
      separate (map (fun k => members labels (Z.of_nat k)) (seq 0 K)).
    Proof.
      intro Hne. split.
      - assert (H : forall ks, NoDup ks -> NoDup (concat (map (fun k => members labels (Z.of_nat k)) ks))).
        { induction ks as [|k ks IH]; intro HN; [constructor|]. inversion_clear HN as [|? ? Hk HN']. cbn [map concat]. apply P_Below.NoDup_app_intro'; auto.
          - apply members_nodup.
          - intros x Hx Hc. apply members_in in Hx. apply in_concat in Hc as (l & Hl & Hc). apply in_map_iff in Hl as (k' & <- & Hk').
            apply members_in in Hc. rewrite Hx in Hc. injection Hc as Hc. assert (k = k') by lia. subst k'. contradiction. }
        apply H, seq_NoDup.
      - intro H. apply in_map_iff in H as (k & E & Hk). apply in_seq in Hk. apply (Hne k); [lia|auto].
    Qed.
  End Members.

  (** ** All clusters *)
  Section All.
    Variable cluster_of : list (edge W) -> res (list Z * list V).
    Variables (labels : list Z) (neighbors : list (list (option nat))) (mst : list (edge W)) (lens_callback : nat -> list W) (K : nat).
    Hypothesis HI : sub_input labels neighbors mst lens_callback K.
    Let N := length labels.
    Let pts (k : nat) := members labels (Z.of_nat k).
    Let nbrs (k : nat) := map (fun x => map (neighbor_in N (pts k)) (nth x neighbors [])) (pts k).
    Let edges (k : nat) := flat_map (edge_in labels (Z.of_nat k) (pts k)) mst.
    Let lens (k i : nat) := nth i (lens_callback k) winf.
    Let graph (k : nat) := lens_graph round sort_row (nbrs k) (edges k) (lens k).

    Lemma pts_in k x : In x (pts k) <-> nth_error labels x = Some (Z.of_nat k).
    Proof. apply members_in. Qed.

    Lemma pts_bound k x : In x (pts k) -> x < N.
    Proof. intro H. apply pts_in in H. apply nth_error_Some. congruence. Qed.

    Lemma pts_two k : k < K -> 2 <= length (pts k).
    Proof.
      intro Hk. destruct (si_pair _ _ _ _ _ HI k Hk) as (x & y & Hne & Hx & Hy).
      apply pts_in in Hx, Hy. assert (Hinc : incl [x; y] (pts k)) by (intros z [<-|[<-|[]]]; auto).
      apply NoDup_incl_length in Hinc; [exact Hinc|]. repeat constructor; simpl; intuition.
    Qed.

    Lemma sub_linked k i j : linked (nbrs k) (edges k) i j <->
      exists x y, nth_error (pts k) i = Some x /\ nth_error (pts k) j = Some y /\ linked neighbors mst x y.
    Proof.
      unfold linked at 1. split.
      - intros [H|(d & H)].
        + destruct (nth_error (pts k) i) as [x|] eqn:Ex.
          * assert (E : nth i (nbrs k) [] = map (neighbor_in N (pts k)) (nth x neighbors [])).
            { apply nth_error_nth. unfold nbrs. rewrite nth_error_map, Ex. reflexivity. }
            rewrite E in H. apply in_map_iff in H as (c & Hc & H). assert (Hx : x < N) by (apply (pts_bound k); eapply nth_error_In; eauto).
            destruct c as [y|]; [|exfalso; apply (si_known _ _ _ _ _ HI x Hx H)]. cbn in Hc. apply place_some in Hc.
            exists x, y. split; auto. split; auto. left. auto.
          * exfalso. rewrite nth_overflow in H; [destruct H|]. unfold nbrs. rewrite map_length. now apply nth_error_None.
        + unfold edges in H. apply in_flat_map in H as ([[a b] w] & He & H). unfold edge_in in H. unfold esrc, edst, ewt in H. cbn [fst snd] in H.
          destruct (_ && _); [|destruct H]. destruct (place_in (pts k) a) as [p|] eqn:Ea; [|destruct H]. destruct (place_in (pts k) b) as [q|] eqn:Eb; [|destruct H].
          destruct H as [H|[]]. injection H as -> -> ->. exists a, b. split; [now apply place_some|]. split; [now apply place_some|]. right. eauto.
      - intros (x & y & Hx & Hy & [H|(d & H)]).
        + left. assert (E : nth i (nbrs k) [] = map (neighbor_in N (pts k)) (nth x neighbors [])).
          { apply nth_error_nth. unfold nbrs. rewrite nth_error_map, Hx. reflexivity. }
          rewrite E. apply in_map_iff. exists (Some y). split; auto. cbn. now apply place_at; [apply members_nodup|].
        + right. exists d. unfold edges. apply in_flat_map. exists (x, y, d). split; auto. unfold edge_in, esrc, edst, ewt. cbn [fst snd].
          assert (Lx : nth_error labels x = Some (Z.of_nat k)) by (apply pts_in; eapply nth_error_In; eauto).
          assert (Ly : nth_error labels y = Some (Z.of_nat k)) by (apply pts_in; eapply nth_error_In; eauto).
          rewrite (nth_error_nth _ _ _ Lx), (nth_error_nth _ _ _ Ly), !Z.eqb_refl. cbn [andb].
          rewrite (place_at (pts k) (members_nodup _ _) _ _ Hx), (place_at (pts k) (members_nodup _ _) _ _ Hy). now left.
    Qed.

    Lemma nbrs_length k : length (nbrs k) = length (pts k).
    Proof. unfold nbrs. apply map_length. Qed.

    Lemma sub_linked_range k i j : i < length (nbrs k) -> linked (nbrs k) (edges k) i j -> j < length (nbrs k) /\ j <> i.
    Proof.
      intros Hi H. rewrite nbrs_length in *. apply sub_linked in H as (x & y & Hx & Hy & H). split; [apply nth_error_Some; congruence|].
      intros ->. rewrite Hx in Hy. injection Hy as ->. apply (si_linked _ _ _ _ _ HI) in H; [lia|].
      apply (pts_bound k). eapply nth_error_In; eauto.
    Qed.

    Lemma sub_linked_all k i : i < length (nbrs k) -> exists j, linked (nbrs k) (edges k) i j.
    Proof.
      intro Hi. rewrite nbrs_length in Hi. destruct (nth_error (pts k) i) as [x|] eqn:Ex; [|apply nth_error_None in Ex; lia].
      assert (Hx : nth_error labels x = Some (Z.of_nat k)) by (apply pts_in; eapply nth_error_In; eauto).
      destruct (si_inside _ _ _ _ _ HI x k Hx) as (y & Hl & Hy). apply pts_in in Hy. apply In_nth_error in Hy as (j & Hj).
      exists j. apply sub_linked. eauto.
    Qed.

    (** The edges of the graph of cluster [k]. *)
    Lemma graph_edges k : lens_edges round neighbors mst (pts k) (lens_callback k) (csr_entries (graph k)).
    Proof.
      intros i j w. unfold graph. rewrite lens_graph_entries; auto; [|apply sub_linked_range]. rewrite nbrs_length, sub_linked. split.
      - intros (Hi & (x & y & Hx & Hy & H) & ->). exists x, y. auto.
      - intros (x & y & Hx & Hy & H & ->). split; [apply nth_error_Some; congruence|]. split; eauto.
    Qed.

    Lemma graph_range k : in_range (length (pts k)) (csr_entries (graph k)).
    Proof.
      intros [[i j] w] H. apply graph_edges in H as (x & y & Hx & Hy & _). unfold esrc, edst. cbn. split; apply nth_error_Some; congruence.
    Qed.

    Hypothesis Hcluster : forall k M, k < K -> spanning_tree (length (pts k)) M -> incl M (csr_entries (graph k)) ->
      exists ls ps, cluster_of M = Ok (ls, ps) /\ length ls = length (pts k) /\ length ps = length (pts k) /\ gap_free ls.

    Lemma num_clusters_ok : num_clusters labels = Ok K.
    Proof.
      pose proof (si_some _ _ _ _ _ HI) as HK. unfold num_clusters.
      destruct (si_pair _ _ _ _ _ HI (K - 1) ltac:(lia)) as (x & y & _ & Hx & _). apply nth_error_In in Hx.
      replace (forallb _ labels) with false.
      2:{ symmetry. apply not_true_is_false. rewrite forallb_forall. intro H. apply H in Hx. apply Z.eqb_eq in Hx. lia. }
      destruct (zmax_ok labels) as (top & Et & Ht & Hm); [intro E0; rewrite E0 in Hx; destruct Hx|]. rewrite Et. cbn [bind]. f_equal.
      apply (si_range _ _ _ _ _ HI) in Ht. apply Hm in Hx. lia.
    Qed.

    Definition sound_result (k : nat) (r : sub_result W V) : Prop :=
      sr_graph r = graph k /\ gap_free (sr_labels r) /\
      explained one cluster_of (length (pts k)) (csr_entries (graph k)) (sr_labels r) (sr_probs r) (sr_tree r).

    Lemma per_cluster_ok : exists rs, sub_clusters_per_cluster round sort_row one cluster_of labels neighbors mst lens_callback = Ok rs /\
      Forall2 sound_result (seq 0 K) rs.
    Proof.
      unfold sub_clusters_per_cluster. rewrite num_clusters_ok. cbn [bind]. apply map_res_all. intros k Hk. apply in_seq in Hk.
      unfold sub_clusters_in_cluster. fold (pts k). fold N. fold (nbrs k). fold (edges k). fold (lens k).
      destruct (core_graph_clusters_ok cluster_of (nbrs k) (edges k) (lens k)) as (r & Er & H1 & H2 & H3).
      - rewrite nbrs_length. apply pts_two. lia.
      - apply sub_linked_range.
      - apply sub_linked_all.
      - intros M HM Hi. rewrite nbrs_length in *. apply (Hcluster k); auto. lia.
      - exists r. split; auto. rewrite nbrs_length in H3. split; auto.
    Qed.

    Lemma forall2_combine rs : Forall2 sound_result (seq 0 K) rs ->
      length rs = K /\ forall k r, In (k, r) (combine (seq 0 (length rs)) rs) <-> nth_error rs k = Some r.
    Proof.
      intro HF. assert (HL : length rs = K) by (rewrite <- (forall2_len _ _ _ HF); apply seq_length). split; auto. intros k r. clear HF HL.
      assert (H : forall s, In (k, r) (combine (seq s (length rs)) rs) <-> s <= k /\ nth_error rs (k - s) = Some r).
      { induction rs as [|a rs IH]; intro s; [simpl; split; [tauto|]; intros [_ H]; destruct (k - s); discriminate|].
        cbn [length seq combine In]. rewrite IH. split.
        - intros [H|[Hs H]]; [injection H as <- <-; rewrite Nat.sub_diag; auto|]. split; [lia|]. replace (k - s) with (S (k - S s)) by lia. auto.
        - intros [Hs H]. destruct (Nat.eq_dec s k) as [->|Hne]; [rewrite Nat.sub_diag in H; injection H as ->; auto|]. right. split; [lia|].
          replace (k - s) with (S (k - S s)) in H by lia. auto. }
      rewrite H, Nat.sub_0_r. intuition lia.
    Qed.

    Definition clusters := map pts (seq 0 K).

    Lemma clusters_separate : separate clusters.
    Proof. apply members_separate. intros k Hk E. pose proof (pts_two k Hk) as H. unfold pts in H. rewrite E in H. simpl in H. lia. Qed.

    Lemma clusters_nth k : k < K -> nth_error clusters k = Some (pts k).
    Proof. intro Hk. unfold clusters. rewrite nth_error_map, (nth_error_nth' _ 0) by (rewrite seq_length; lia). cbn. now rewrite seq_nth. Qed.

    Lemma clusters_place k i x : at_place clusters k i x <-> k < K /\ nth_error (pts k) i = Some x.
    Proof.
      split.
      - intros (p & Hk & Hi). assert (H : k < K) by (replace K with (length clusters) by (unfold clusters; rewrite map_length; apply seq_length); apply nth_error_Some; congruence).
        split; auto. rewrite clusters_nth in Hk by auto. injection Hk as <-. auto.
      - intros [Hk Hi]. exists (pts k). split; auto. now apply clusters_nth.
    Qed.

    Lemma clusters_in x : In x (concat clusters) <-> x < N /\ nth x labels (-1)%Z <> (-1)%Z.
    Proof.
      rewrite in_concat. split.
      - intros (l & Hl & Hx). unfold clusters in Hl. apply in_map_iff in Hl as (k & <- & _). split; [now apply (pts_bound k)|].
        apply pts_in in Hx. rewrite (nth_error_nth _ _ _ Hx). lia.
      - intros [Hx Hl]. pose proof (nth_In _ (-1)%Z Hx) as Hin. apply (si_range _ _ _ _ _ HI) in Hin.
        exists (pts (Z.to_nat (nth x labels (-1)%Z))). split.
        + unfold clusters. apply in_map, in_seq. lia.
        + apply pts_in. rewrite Z2Nat.id by lia. now apply nth_error_nth'.
    Qed.

    Lemma clusters_combine {B} (rs : list B) : length rs = K -> map (fun kr => pts (fst kr)) (combine (seq 0 (length rs)) rs) = clusters.
    Proof.
      intro HL. unfold clusters. rewrite <- HL. assert (Hc : forall s, map (fun kr : nat * B => pts (fst kr)) (combine (seq s (length rs)) rs) = map pts (seq s (length rs))).
      { clear HL. induction rs as [|r rs IH]; intro s; [reflexivity|]. cbn. now rewrite IH. }
      apply Hc.
    Qed.

    Variables (average : V -> V -> V) (zero : V) (no_lens : W) (probabilities : nat -> V).

    (** Everything found. *)
    Lemma found_ok : exists s rs, find_sub_clusters round sort_row average zero one no_lens cluster_of labels probabilities neighbors mst lens_callback =
        Ok (s, map (fun kr => (pts (fst kr), snd kr)) (combine (seq 0 (length rs)) rs)) /\ length rs = K /\
      (forall x, ~ In x (concat clusters) -> j_labels s x = (-1)%Z /\ j_sub s x = 0%Z /\ j_sub_probs s x = zero /\ j_probs s x = probabilities x /\ j_lens s x = no_lens) /\
      (forall k, k < K -> exists r, nth_error rs k = Some r /\ sound_result k r /\
         forall i x, nth_error (pts k) i = Some x -> nth_error (sr_labels r) i = Some (j_sub s x) /\ nth_error (sr_probs r) i = Some (j_sub_probs s x) /\
           nth_error (lens_callback k) i = Some (j_lens s x) /\ j_probs s x = average (probabilities x) (j_sub_probs s x)) /\
      refines clusters (fun _ x y => j_sub s x = j_sub s y) (j_labels s) /\ consecutive clusters (j_labels s).
    Proof.
      destruct per_cluster_ok as (rs & Ers & HF). destruct (forall2_combine rs HF) as [HL Hcom].
      assert (Hsound : forall k r, nth_error rs k = Some r -> sound_result k r).
      { intros k r Hr. clear Ers Hcom. assert (Hk : k < K) by (rewrite <- HL; apply nth_error_Some; congruence).
        apply (forall2_at _ _ _ HF k); auto. rewrite (nth_error_nth' _ 0) by (rewrite seq_length; lia). now rewrite seq_nth. }
      set (pieces := map (piece_of labels lens_callback) (combine (seq 0 (length rs)) rs)).
      assert (Hpts : map pc_points pieces = clusters) by (unfold pieces; rewrite map_map; apply (clusters_combine rs HL)).
      destruct (update_labels_ok average zero no_lens probabilities pieces) as (s & Es & HO & HIn & HR & HC).
      { rewrite Hpts. apply clusters_separate. }
      { intros c Hc. unfold pieces in Hc. apply in_map_iff in Hc as ([k r] & <- & Hkr). apply Hcom in Hkr. pose proof (Hsound k r Hkr) as (_ & Hg & Hl & Hp & _).
        unfold good_piece, piece_of. cbn [pc_points pc_labels pc_probs pc_lens fst snd]. fold (pts k). split; auto. split; auto. split; auto.
        apply (si_lens _ _ _ _ _ HI); [rewrite <- HL; apply nth_error_Some; congruence|apply members_nodup|]. intro x. apply pts_in. }
      rewrite Hpts in HR, HC, HO. exists s, rs. split; [unfold find_sub_clusters; rewrite Ers; cbn [bind]; fold pieces; rewrite Es; reflexivity|].
      split; auto. split; auto. split; [|auto]. intros k Hk. destruct (nth_error rs k) as [r|] eqn:Er; [|apply nth_error_None in Er; lia].
      exists r. split; auto. split; auto. intros i x Hi. apply (HIn (piece_of labels lens_callback (k, r)) i x); auto.
      unfold pieces. apply in_map, Hcom. auto.
    Qed.
  End All.
End Run.
