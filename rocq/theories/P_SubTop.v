(** Sub-clusters, label propagation and branches of a whole clustering. *)
From Coq Require Import List Arith Lia Bool ZArith Permutation Relations Sorted.
From Verif Require Import Prelude Order Graph UF Size Num M_DisjointSet M_Kruskal M_Precomputed M_Linkage M_Condense M_Select M_Labels M_CoreGraph
  M_Pipeline M_Estimator M_Layers M_LayerTree M_SubClusters M_LensGraph S_Kruskal S_Precomputed S_CoreGraph S_Labels S_Pipeline S_LayerTree S_SubClusters
  P_Sort P_Forest P_KruskalRun P_CoreGraph P_CoreGraphRun P_PrecomputedBoruvka P_BackendsAgree P_LayerCurve P_LayerTree P_LayersTop P_LayersBase P_PipelineEx
  P_SubClusters P_Propagate P_PropagateTop P_Branches P_LensGraph P_SubRun.
Import ListNotations.
Local Open Scope nat_scope.

Section Top.
  Context {W V : WOrd}.
  Variables (round : W -> W) (sort_row : list (nat * W) -> list (nat * W)).
  Hypothesis Hsort : forall l, Permutation (sort_row l) l /\ sorted_by (fun cw : nat * W => snd cw) (sort_row l).
  Variables (lam : W -> V) (LA : LamArith V) (A : Arith V NatSize) (garbage : nat -> V) (by_parent : list (crow V NatSize) -> list (crow V NatSize))
    (st : settings V NatSize).
  Notation zero := (la_zero LA).
  Notation one := (la_one LA).
  Hypothesis HK : setting_ok lam LA A by_parent st.
  Hypothesis HR : root_ok st.
  Hypothesis HP : cluster_selection_persistence st = None.

  Definition cluster_tree (M : list (edge W)) : res (list Z * list V) :=
    let* r := clusters_from_spanning_tree lam LA A garbage by_parent st M in Ok (fst r).

  Lemma numbered_gap_free ls : numbered (length ls) ls -> gap_free ls.
  Proof.
    intros (k & Hk) l Hl. apply (In_nth _ _ 0%Z) in Hl as (x & Hx & E).
    destruct (Z.eq_dec l (-1)) as [->|Hn].
    - split; [lia|]. intros v Hv. lia.
    - assert (Hl : (0 <= l < Z.of_nat k)%Z) by (apply Hk; split; auto; exists x; auto). split; [lia|]. intros v Hv.
      destruct (proj1 (Hk v)) as (_ & y & Hy & <-); [lia|]. now apply nth_In.
  Qed.

  Lemma cluster_tree_ok n M : 2 <= n -> spanning_tree n M -> (forall e, In e M -> wlt zero (lam (ewt e)) = true) ->
    exists ls ps, cluster_tree M = Ok (ls, ps) /\ length ls = n /\ length ps = n /\ gap_free ls /\
      forall p, In p ps -> wle zero p = true /\ wle p one = true.
  Proof.
    intros Hn HM Hpos. destruct (plain_total lam LA A garbage by_parent st n M HK HM Hn) as [(ls & ps & T & E & HC & _)|[H _]]; [|congruence].
    exists ls, ps. unfold cluster_tree. rewrite E. cbn [bind fst]. split; auto.
    pose proof (cl_labels _ _ _ _ _ HC) as L1. pose proof (cl_strengths _ _ _ _ _ HC) as L2. split; auto. split; auto. split.
    - apply numbered_gap_free. rewrite L1. eapply plain_sizes; eauto.
    - intros p Hp. apply (In_nth _ _ zero) in Hp as (x & Hx & <-). apply (cl_unit _ _ _ _ _ HC). lia.
  Qed.

  Variables (labels : list Z) (neighbors : list (list (option nat))) (mst : list (edge W)) (lens_callback : nat -> list W) (K : nat).
  Hypothesis HI : sub_input labels neighbors mst lens_callback K.
  Hypothesis Hpos : forall k a, k < K -> In a (lens_callback k) -> wlt zero (lam (round a)) = true.
  Let N := length labels.
  Let pts (k : nat) := members labels (Z.of_nat k).

  Lemma members_points k : cluster_points labels k (members labels (Z.of_nat k)).
  Proof.
    split; [apply members_nodup|]. split; [apply members_in|]. unfold members.
    assert (H : forall l, StronglySorted lt l -> StronglySorted lt (filter (fun x => (nth x labels (-1) =? Z.of_nat k)%Z) l)).
    { induction 1 as [|a l H1 IH H2]; [constructor|]. cbn [filter]. destruct (_ =? _)%Z; auto. constructor; auto.
      rewrite Forall_forall in *. intros x Hx. apply filter_In in Hx. apply H2, Hx. }
    assert (Hs : forall n s, StronglySorted lt (seq s n)).
    { induction n as [|n IH]; intro s; cbn [seq]; constructor; auto. apply Forall_forall. intros x Hx. apply in_seq in Hx. lia. }
    specialize (H _ (Hs (length labels) 0)). clear - H. induction H as [|a l H1 IH H2]; intros i j x y Hij Hx Hy; [destruct i; discriminate|].
    rewrite Forall_forall in H2. destruct i as [|i]; destruct j as [|j]; try lia.
    - injection Hx as <-. apply H2. eapply nth_error_In; eauto.
    - cbn in Hx, Hy. eapply IH; [|eauto|eauto]. lia.
  Qed.

  Let graph (k : nat) := lens_graph round sort_row (map (fun x => map (neighbor_in N (pts k)) (nth x neighbors [])) (pts k))
                           (flat_map (edge_in labels (Z.of_nat k) (pts k)) mst) (fun i => nth i (lens_callback k) winf).

  Lemma graph_positive k e : k < K -> In e (csr_entries (graph k)) -> wlt zero (lam (ewt e)) = true.
  Proof.
    intros Hk He. destruct e as [[i j] w].
    pose proof (graph_edges round sort_row Hsort labels neighbors mst lens_callback K HI k i j w) as Hg. apply Hg in He.
    destruct He as (x & y & Hx & Hy & _ & ->). unfold ewt. cbn [snd].
    assert (L : length (lens_callback k) = length (pts k)) by (apply (si_lens _ _ _ _ _ HI); [exact Hk|apply members_nodup|intro; apply members_in]).
    assert (Hin : forall i x, nth_error (pts k) i = Some x -> In (nth i (lens_callback k) winf) (lens_callback k)).
    { intros i0 x0 H0. apply nth_In. rewrite L. apply nth_error_Some. congruence. }
    destruct (wmax_cases (nth i (lens_callback k) winf) (nth j (lens_callback k) winf)) as [-> | ->]; apply (Hpos k); eauto.
  Qed.

  Lemma tree_ok k M : k < K -> spanning_tree (length (pts k)) M -> incl M (csr_entries (graph k)) ->
    exists ls ps, cluster_tree M = Ok (ls, ps) /\ length ls = length (pts k) /\ length ps = length (pts k) /\ gap_free ls.
  Proof.
    intros Hk HM Hi. destruct (cluster_tree_ok (length (pts k)) M) as (ls & ps & H1 & H2 & H3 & H4 & _); eauto 6.
    - eapply (pts_two round sort_row cluster_tree); eauto.
    - intros e He. apply (graph_positive k); auto.
  Qed.

  Lemma label_place x : x < N -> nth x labels (-1)%Z <> (-1)%Z ->
    exists k i, k < K /\ nth x labels (-1)%Z = Z.of_nat k /\ nth_error (pts k) i = Some x.
  Proof.
    intros Hx Hl. pose proof (nth_In _ (-1)%Z Hx) as Hin. apply (si_range _ _ _ _ _ HI) in Hin.
    exists (Z.to_nat (nth x labels (-1)%Z)). assert (E : Z.of_nat (Z.to_nat (nth x labels (-1)%Z)) = nth x labels (-1)%Z) by lia.
    assert (Hp : In x (pts (Z.to_nat (nth x labels (-1)%Z)))). { apply members_in. rewrite E. now apply nth_error_nth'. }
    apply In_nth_error in Hp as (i & Hi). exists i. split; [lia|]. auto.
  Qed.

  (** From clusters to labels. *)
  Lemma splits_of same final : (forall x, x < N -> nth x labels (-1)%Z = (-1)%Z -> final x = (-1)%Z) ->
    refines (clusters labels K) same final -> consecutive (clusters labels K) final ->
    splits labels (fun x y => same (Z.to_nat (nth x labels (-1)%Z)) x y) final.
  Proof.
    intros H1 H2 [H3 H4]. pose proof (clusters_place labels K) as HPl.
    split; auto.
    - intros x y Hx Hy Lx Ly. destruct (label_place x Hx Lx) as (k & i & Hk & Ek & Hi). destruct (label_place y Hy Ly) as (k' & i' & Hk' & Ek' & Hi').
      rewrite (H2 k i x k' i' y); [|apply HPl; auto|apply HPl; auto]. rewrite Ek, Ek', Nat2Z.id. split; intros [E S]; split; auto; lia.
    - intros x y Hx Hy Lx Hlt. pose proof (nth_In _ (-1)%Z Hx) as Hin. apply (si_range _ _ _ _ _ HI) in Hin.
      destruct (label_place x Hx Lx) as (k & i & Hk & Ek & Hi). destruct (label_place y Hy) as (k' & i' & Hk' & Ek' & Hi'); [lia|].
      apply (H4 k i x k' i' y); [apply HPl; auto|apply HPl; auto|lia].
    - destruct H3 as (K' & HK' & H3). exists K'. split; auto. intro l. rewrite H3. split.
      + intros (x & Hx & E). apply (clusters_in labels neighbors mst lens_callback K HI) in Hx as [Hx Hl]. eauto.
      + intros (x & Hx & Hl & E). exists x. split; auto. apply (clusters_in labels neighbors mst lens_callback K HI). auto.
  Qed.

  Variables (average : V -> V -> V) (no_lens : W) (probabilities : nat -> V).
  Notation run := (find_sub_clusters round sort_row average zero one no_lens cluster_tree labels probabilities neighbors mst lens_callback).

  Let unit (p : V) := wle zero p = true /\ wle p one = true.

  (** What one run finds, in terms of the run. *)
  Lemma run_ok : exists s cs, run = Ok (s, cs) /\ map fst cs = clusters labels K /\
    (forall x, ~ In x (concat (clusters labels K)) -> j_labels s x = (-1)%Z /\ j_sub s x = 0%Z /\ j_sub_probs s x = zero /\ j_probs s x = probabilities x /\ j_lens s x = no_lens) /\
    (forall k, k < K -> exists r, nth_error cs k = Some (pts k, r) /\ sound_result round sort_row one cluster_tree labels neighbors mst lens_callback k r /\
         forall i x, nth_error (pts k) i = Some x -> nth_error (sr_labels r) i = Some (j_sub s x) /\ nth_error (sr_probs r) i = Some (j_sub_probs s x) /\
           nth_error (lens_callback k) i = Some (j_lens s x) /\ j_probs s x = average (probabilities x) (j_sub_probs s x)) /\
    refines (clusters labels K) (fun _ x y => j_sub s x = j_sub s y) (j_labels s) /\ consecutive (clusters labels K) (j_labels s).
  Proof.
    destruct (found_ok round sort_row one Hsort cluster_tree labels neighbors mst lens_callback K HI tree_ok average zero no_lens probabilities)
      as (s & rs & E & HL & HO & HS & Hr & Hc).
    eexists s, _. split; [exact E|]. split; [rewrite map_map; apply (clusters_combine labels K rs HL)|]. split; auto. split; [|auto].
    intros k Hk. destruct (HS k Hk) as (r & Er & Hs & Hv). exists r. split; [|auto].
    assert (Hcomb : forall s0 (l : list (sub_result W V)) k, nth_error l k = Some r -> nth_error (combine (seq s0 (length l)) l) k = Some (s0 + k, r)).
    { intros s0 l. revert s0. induction l as [|a l IH]; intros s0 k0 H; [destruct k0; discriminate|]. destruct k0 as [|k0]; cbn in *.
      - injection H as ->. now rewrite Nat.add_0_r.
      - rewrite (IH (S s0) k0 H). do 2 f_equal. lia. }
    rewrite nth_error_map, (Hcomb 0 rs k Er). reflexivity.
  Qed.

  Lemma sub_value (s : joined V W) (r : sub_result W V) k : (forall i x, nth_error (pts k) i = Some x -> nth_error (sr_labels r) i = Some (j_sub s x)) ->
    length (sr_labels r) = length (pts k) -> map (j_sub s) (pts k) = sr_labels r.
  Proof.
    intros H HL. apply (nth_ext _ _ 0%Z 0%Z); [now rewrite map_length|]. intros i Hi. rewrite map_length in Hi.
    destruct (nth_error (pts k) i) as [x|] eqn:Ex; [|apply nth_error_None in Ex; lia].
    rewrite (nth_error_nth _ _ _ (H i x Ex)). apply nth_error_nth. now rewrite nth_error_map, Ex.
  Qed.

  (** The sub-cluster labels of a run. *)
  Theorem find_ok : exists s cs, run = Ok (s, cs) /\
    splits labels (fun x y => j_sub s x = j_sub s y) (j_labels s) /\
    (forall k, k < K -> exists p E tree, cluster_points labels k p /\ lens_edges round neighbors mst p (lens_callback k) E /\
       explained one cluster_tree (length p) E (map (j_sub s) p) (map (j_sub_probs s) p) tree) /\
    (forall x, x < N -> nth x labels (-1)%Z = (-1)%Z -> j_probs s x = probabilities x) /\
    (forall x, x < N -> nth x labels (-1)%Z <> (-1)%Z -> j_probs s x = average (probabilities x) (j_sub_probs s x)).
  Proof.
    destruct run_ok as (s & cs & E & Hcs & HO & HS & Href & Hcon). exists s, cs. split; auto.
    assert (Hnoise : forall x, nth x labels (-1)%Z = (-1)%Z -> ~ In x (concat (clusters labels K))).
    { intros x Hl H. apply (clusters_in labels neighbors mst lens_callback K HI) in H as [_ H]. contradiction. }
    split; [apply (splits_of (fun _ x y => j_sub s x = j_sub s y)); auto; intros x _ Hl; apply HO; auto|].
    split.
    { intros k Hk. destruct (HS k Hk) as (r & _ & (Hg & Hgf & He) & Hv). destruct He as (L1 & L2 & He).
      assert (E1 : map (j_sub s) (pts k) = sr_labels r) by (apply sub_value; auto; intros; now apply Hv).
      assert (E2 : map (j_sub_probs s) (pts k) = sr_probs r).
      { apply (nth_ext _ _ zero zero); [now rewrite map_length|]. intros i Hi. rewrite map_length in Hi.
        destruct (nth_error (pts k) i) as [x|] eqn:Ex; [|apply nth_error_None in Ex; lia].
        destruct (Hv i x Ex) as (_ & Hp & _). rewrite (nth_error_nth _ _ _ Hp). apply nth_error_nth. now rewrite nth_error_map, Ex. }
      exists (pts k), (csr_entries (graph k)), (sr_tree r). split; [apply members_points|]. split; [apply (graph_edges round sort_row Hsort labels neighbors mst lens_callback K HI)|].
      rewrite E1, E2. split; auto. }
    split; [intros x _ Hl; apply HO; auto|].
    intros x Hx Hl. destruct (label_place x Hx Hl) as (k & i & Hk & _ & Hi). destruct (HS k Hk) as (r & _ & _ & Hv). apply (Hv i x Hi).
  Qed.

  (** Probabilities stay between zero and one. *)
  Theorem find_unit s cs : run = Ok (s, cs) -> (forall p q, unit p -> unit q -> unit (average p q)) -> wle zero one = true ->
    (forall x, unit (probabilities x)) -> forall x, unit (j_probs s x) /\ unit (j_sub_probs s x).
  Proof.
    intros E Ha H01 Hp. destruct run_ok as (s' & cs' & E' & _ & HO & HS & _). rewrite E in E'. injection E' as <- <-.
    intro x. destruct (in_dec Nat.eq_dec x (concat (clusters labels K))) as [Hin|Hout].
    - apply (clusters_in labels neighbors mst lens_callback K HI) in Hin as [Hx Hl]. destruct (label_place x Hx Hl) as (k & i & Hk & _ & Hi).
      destruct (HS k Hk) as (r & _ & (_ & _ & L1 & L2 & He) & Hv). destruct (Hv i x Hi) as (_ & Hq & _ & ->).
      assert (Hi' : i < length (pts k)) by (apply nth_error_Some; congruence).
      assert (Hu : unit (j_sub_probs s x)).
      { destruct He as [(_ & _ & _ & H)|(_ & _ & M & HF & HM & Ec)].
        - destruct (H i Hi') as [_ H1]. rewrite (nth_error_nth _ _ _ Hq) in H1. rewrite H1. split; [auto|apply wle_refl].
        - destruct (cluster_tree_ok _ M (pts_two round sort_row cluster_tree labels neighbors mst lens_callback K HI k Hk) HM) as (ls & ps & Ec' & _ & _ & _ & Hu).
          + intros e He. apply (graph_positive k); auto. apply (sf_incl _ _ HF). auto.
          + rewrite Ec in Ec'. injection Ec' as <- <-. apply Hu. eapply nth_error_In; eauto. }
      split; auto.
    - destruct (HO x Hout) as (_ & _ & -> & -> & _). split; auto. split; [apply wle_refl|auto].
  Qed.

  (** ** Propagation *)
  Section Propagate.
    Context {Nu : WOrd}.
    Variables (inv : W -> res Nu) (nadd : Nu -> Nu -> Nu) (nzero : Nu).
    Hypothesis Hinv : forall k a, k < K -> In a (lens_callback k) -> exists v, inv (round a) = Ok v.
    Hypothesis Hsame : forall a b, wle a b = true -> wle b a = true -> inv (round a) = inv (round b).

    Let vote (k i j : nat) : Nu := match inv (round (wmax (nth i (lens_callback k) winf) (nth j (lens_callback k) winf))) with Ok v => v | Err _ => nzero end.

    Lemma inv_sym a b : inv (round (wmax a b)) = inv (round (wmax b a)).
    Proof. apply Hsame; apply wmax_lub; auto using wmax_l, wmax_r. Qed.

    Lemma votes_ok k E : k < K -> lens_edges round neighbors mst (pts k) (lens_callback k) E -> votes_are inv E (vote k).
    Proof.
      intros Hk HE i j w H. apply HE in H as (x & y & Hx & Hy & _ & ->).
      assert (L : length (lens_callback k) = length (pts k)) by (apply (si_lens _ _ _ _ _ HI); [exact Hk|apply members_nodup|intro; apply members_in]).
      assert (Hv : exists v, inv (round (wmax (nth i (lens_callback k) winf) (nth j (lens_callback k) winf))) = Ok v).
      { destruct (wmax_cases (nth i (lens_callback k) winf) (nth j (lens_callback k) winf)) as [-> | ->]; apply (Hinv k); auto;
          apply nth_In; rewrite L; apply nth_error_Some; congruence. }
      unfold vote. rewrite (inv_sym (nth j _ _)). destruct Hv as (v & ->). auto.
    Qed.

    Theorem propagated_ok s cs fuel : run = Ok (s, cs) -> N <= fuel ->
      (forall k, k < K -> exists x, nth_error labels x = Some (Z.of_nat k) /\ j_sub s x <> (-1)%Z) ->
      exists labels' sub', propagated inv nadd nzero fuel (s, cs) = Ok (labels', sub') /\
        splits labels (fun x y => sub' x = sub' y) labels' /\
        (forall x, x < N -> nth x labels (-1)%Z <> (-1)%Z -> sub' x <> (-1)%Z /\ (j_sub s x <> (-1)%Z -> sub' x = j_sub s x)) /\
        (forall k, k < K -> exists p E v, cluster_points labels k p /\ lens_edges round neighbors mst p (lens_callback k) E /\
           votes_are inv E v /\ votes_lead nadd nzero E v (fun i => nth i (map (j_sub s) p) 0%Z) (fun i => nth i (map sub' p) 0%Z)).
    Proof.
      intros Erun Hf Hsome. destruct run_ok as (s' & cs' & E' & Hcs & HO & HS & Href & Hcon). rewrite Erun in E'. injection E' as <- <-.
      unfold propagated. cbn [fst snd].
      assert (Hmap : map fst (map (fun c : list nat * sub_result W V => (fst c, sr_graph (snd c))) cs) = clusters labels K) by (rewrite map_map; exact Hcs).
      assert (HcsK : length cs = K) by (rewrite <- (map_length fst), Hcs; unfold clusters; now rewrite map_length, seq_length).
      assert (Hnth : forall c, In c (map (fun c : list nat * sub_result W V => (fst c, sr_graph (snd c))) cs) <-> exists k, k < K /\ c = (pts k, graph k)).
      { intro c. rewrite in_map_iff. split.
        - intros ([p r] & <- & Hc). apply In_nth_error in Hc as (k & Hc). assert (Hk : k < K) by (rewrite <- HcsK; apply nth_error_Some; congruence).
          exists k. split; auto. destruct (HS k Hk) as (r' & Er & (Hg & _) & _). rewrite Er in Hc. injection Hc as <- <-. cbn [fst snd]. now rewrite Hg.
        - intros (k & Hk & ->). destruct (HS k Hk) as (r & Er & (Hg & _) & _). exists (pts k, r). cbn [fst snd]. rewrite Hg. split; auto. eapply nth_error_In; eauto. }
      assert (Hval : forall k, k < K -> exists r, sound_result round sort_row one cluster_tree labels neighbors mst lens_callback k r /\ map (j_sub s) (pts k) = sr_labels r).
      { intros k Hk. destruct (HS k Hk) as (r & _ & Hsr & Hv). exists r. split; auto. destruct Hsr as (_ & _ & L & _). apply sub_value; auto. intros i x Hi. now apply Hv. }
      destruct (propagate_ok inv nadd nzero fuel (map (fun c : list nat * sub_result W V => (fst c, sr_graph (snd c))) cs) (j_labels s) (j_sub s)) as (lab' & sub' & E & Ho & Hvo & Hr & Hc).
      { rewrite Hmap. apply (clusters_separate round sort_row cluster_tree labels neighbors mst lens_callback K HI). }
      { intros c Hc. apply Hnth in Hc as (k & Hk & ->). unfold good_graph. cbn [fst snd]. destruct (Hval k Hk) as (r & (Hg & Hgf & L1 & L2 & He) & Ev).
        split; [now rewrite Ev|]. split.
        { destruct (Hsome k Hk) as (x & Hx & Hl). exists (j_sub s x). split; auto. apply in_map, members_in. auto. }
        intro Hn. rewrite map_length. split; [apply (graph_range round sort_row Hsort labels neighbors mst lens_callback K HI)|].
        split; [exists (vote k); apply votes_ok; auto; apply (graph_edges round sort_row Hsort labels neighbors mst lens_callback K HI)|].
        split.
        - intros i Hi _. destruct (Hsome k Hk) as (x & Hx & Hl). apply members_in in Hx. apply In_nth_error in Hx as (j & Hj). change (nth_error (pts k) j = Some x) in Hj.
          assert (Hjl : j < length (pts k)) by (apply nth_error_Some; congruence). exists j. split; [exact Hjl|]. split.
          + destruct He as [(_ & _ & _ & H)|(_ & H & _)].
            * exfalso. rewrite Ev in Hn. apply (In_nth _ _ 0%Z) in Hn as (q & Hq & Hm). destruct (H q) as [H' _]; [lia|contradiction].
            * apply H; auto.
          + unfold values. replace (nth j (map (j_sub s) (pts k)) 0%Z) with (j_sub s x); auto. symmetry. apply nth_error_nth. rewrite nth_error_map. now rewrite Hj.
        - etransitivity; [|exact Hf]. unfold pts, members. etransitivity; [apply filter_length_le|]. rewrite seq_length. apply Nat.le_refl. }
      rewrite Hmap in *. exists lab', sub'. split; [exact E|]. split; [|split].
      - apply (splits_of (fun _ x y => sub' x = sub' y)); auto. intros x _ Hl.
        assert (Hx : ~ In x (concat (clusters labels K))) by (intro H; apply (clusters_in labels neighbors mst lens_callback K HI) in H as [_ H]; contradiction).
        destruct (Ho x Hx) as [-> _]. apply HO; auto.
      - intros x Hx Hl. destruct (label_place x Hx Hl) as (k & i & Hk & _ & Hi). destruct (Hvo (pts k, graph k)) as (H1 & H2 & _); [apply Hnth; eauto|].
        apply nth_error_In in Hi. cbn [fst] in *. split; [apply H1; auto|auto].
      - intros k Hk. exists (pts k), (csr_entries (graph k)), (vote k). pose proof (graph_edges round sort_row Hsort labels neighbors mst lens_callback K HI k) as Hge.
        split; [apply members_points|]. split; auto. split; [apply votes_ok; auto|]. destruct (Hvo (pts k, graph k)) as (_ & _ & H3); [apply Hnth; eauto|].
        apply H3. apply votes_ok; auto.
    Qed.
  End Propagate.

  (** ** Branches *)
  Theorem branches_run_ok sides (cluster_probabilities : nat -> V) s cs : run = Ok (s, cs) ->
    exists labels' probs' (merge : nat -> Prop), branches sides cluster_probabilities (s, cs) = Ok (labels', probs') /\
      splits labels (fun x y => merge (Z.to_nat (nth x labels (-1)%Z)) \/ j_sub s x = j_sub s y) labels' /\
      (forall x, x < N -> nth x labels (-1)%Z <> (-1)%Z ->
         (merge (Z.to_nat (nth x labels (-1)%Z)) -> probs' x = cluster_probabilities x) /\
         (~ merge (Z.to_nat (nth x labels (-1)%Z)) -> probs' x = j_probs s x)) /\
      (forall k, k < K -> exists p E, cluster_points labels k p /\ lens_edges round neighbors mst p (lens_callback k) E /\
         (merge k <-> (forall i j, i < length p -> j < length p -> connected E i j) /\ few_labels (if sides then 1 else 2) (j_sub s) p)).
  Proof.
    intros Erun. destruct run_ok as (s' & cs' & E' & Hcs & HO & HS & Href & Hcon). rewrite Erun in E'. injection E' as <- <-.
    unfold branches. cbn [fst snd]. unfold apply_branch_threshold.
    set (cl := map (fun c : list nat * sub_result W V => (fst c, sr_tree (snd c))) cs). set (count := if sides then 1 else 2).
    assert (Hmap : map fst cl = clusters labels K) by (unfold cl; rewrite map_map; exact Hcs).
    assert (HcsK : length cs = K) by (rewrite <- (map_length fst), Hcs; unfold clusters; now rewrite map_length, seq_length).
    assert (Hcl : forall k, k < K -> exists r, nth_error cl k = Some (pts k, sr_tree r) /\ sound_result round sort_row one cluster_tree labels neighbors mst lens_callback k r /\
                    map (j_sub s) (pts k) = sr_labels r).
    { intros k Hk. destruct (HS k Hk) as (r & Er & Hsr & Hv). exists r. split; [unfold cl; now rewrite nth_error_map, Er|]. split; auto.
      destruct Hsr as (_ & _ & L & _). apply sub_value; auto. intros i x Hi. now apply Hv. }
    assert (Hin : forall c, In c cl -> exists k, k < K /\ nth_error cl k = Some c).
    { intros c Hc. apply In_nth_error in Hc as (k & Hc). exists k. split; auto. rewrite <- HcsK. replace (length cs) with (length cl) by apply map_length. apply nth_error_Some. congruence. }
    destruct (branches_ok count (j_sub s) cluster_probabilities cl (j_labels s) (j_probs s)) as (lab' & pr' & E & Ho & Hp & Hr & Hc).
    { rewrite Hmap. apply (clusters_separate round sort_row cluster_tree labels neighbors mst lens_callback K HI). }
    { intros c Hc. destruct (Hin c Hc) as (k & Hk & Ek). destruct (Hcl k Hk) as (r & Er & (_ & Hgf & _) & Ev). rewrite Er in Ek. injection Ek as <-. cbn [fst]. now rewrite Ev. }
    rewrite Hmap in *.
    exists lab', pr', (fun k => exists c, nth_error cl k = Some c /\ snd c = true /\ few_labels count (j_sub s) (fst c)). split; [exact E|]. split; [|split].
    - apply (splits_of (fun k x y => (exists c, nth_error cl k = Some c /\ snd c = true /\ few_labels count (j_sub s) (fst c)) \/ j_sub s x = j_sub s y)); auto. intros x _ Hl.
      assert (Hx : ~ In x (concat (clusters labels K))) by (intro H; apply (clusters_in labels neighbors mst lens_callback K HI) in H as [_ H]; contradiction).
      destruct (Ho x Hx) as [-> _]. apply HO; auto.
    - intros x Hx Hl. destruct (label_place x Hx Hl) as (k & i & Hk & -> & Hi). rewrite Nat2Z.id. destruct (Hcl k Hk) as (r & Er & _). apply nth_error_In in Hi.
      destruct (Hp (pts k, sr_tree r) x (nth_error_In _ _ Er) Hi) as [H1 H2]. cbn [fst snd] in *. split.
      + intros (c & Hc' & H). rewrite Er in Hc'. injection Hc' as <-. auto.
      + intro H. apply H2. intros [H3 H4]. apply H. exists (pts k, sr_tree r). auto.
    - intros k Hk. exists (pts k), (csr_entries (graph k)). split; [apply members_points|].
      split; [apply (graph_edges round sort_row Hsort labels neighbors mst lens_callback K HI)|].
      destruct (Hcl k Hk) as (r & Er & (_ & _ & _ & _ & He) & _). split.
      + intros (c & Hc' & H1 & H2). rewrite Er in Hc'. injection Hc' as <-. cbn [fst snd] in *. split; auto.
        destruct He as [(H & _)|(_ & H & _)]; [congruence|auto].
      + intros [H1 H2]. exists (pts k, sr_tree r). split; auto. cbn [fst snd]. split; auto.
        destruct He as [(_ & (i & j & Hi & Hj & H) & _)|(H & _)]; auto.
  Qed.
End Top.
