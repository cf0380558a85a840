(** Entry points built on the Kruskal core: CSR, precomputed, brute force, kNN. *)
From Coq Require Import List Arith Lia Bool Permutation Sorted ZArith.
From Verif Require Import Prelude Order Graph UF M_Kruskal M_Precomputed M_KruskalEntry S_Kruskal S_Precomputed
  P_Sort P_Kruskal P_Forest P_KruskalCL P_Precomputed P_Precomputed2 P_KruskalRun.
Import ListNotations.

Section Entry.
  Context {W : WOrd}.
  Implicit Types M E : list (edge W).

  Lemma labels_one n labels (R : nat -> nat -> Prop) :
    labels_classes n labels R -> distinct labels = 1 -> forall x y, x < n -> y < n -> R x y.
  Proof.
    intros [HL HC] H1 x y Hx Hy. apply HC; auto. rewrite distinct_unique in H1.
    assert (Hx' : In (nth x labels 0) (unique labels)) by (apply unique_in, nth_In; lia).
    assert (Hy' : In (nth y labels 0) (unique labels)) by (apply unique_in, nth_In; lia).
    destruct (unique labels) as [|u [|v l]]; simpl in *; try lia.
  Qed.

  Lemma distinct_pos n labels R : 0 < n -> labels_classes n labels R -> 1 <= distinct labels.
  Proof.
    intros Hn [HL _]. rewrite distinct_unique.
    assert (In (nth 0 labels 0) (unique labels)) by (apply unique_in, nth_In; lia).
    destruct (unique labels); simpl in *; [tauto|lia].
  Qed.

  Lemma maybe_bridge_ok n CL E M labels :
    0 < n -> constrained_forest CL E M -> in_range n M ->
    labels_classes n labels (connected M) ->
    exists T, (if 1 <? length (unique labels) then bridge_forest_with_inf M labels else Ok M) = Ok T /\
      bridged_result n CL E T.
  Proof.
    intros Hn HC HR HL. pose proof HC as [_ HA _ _].
    destruct (bridge_ok n M labels Hn HA HR HL) as (B & HB & HT & HF).
    destruct (Nat.ltb_spec 1 (length (unique labels))) as [H1|H1].
    - exists (M ++ B). split; auto. exists M, B. auto.
    - exists M. split; auto. exists M, []. rewrite app_nil_r. split; auto. split; auto.
      split; [|constructor].
      pose proof (labels_count n M labels HA HR HL). pose proof (distinct_pos n labels _ Hn HL) as Hp.
      rewrite distinct_unique in Hp. split; auto; [|lia].
      eapply labels_one; eauto. rewrite distinct_unique. lia.
  Qed.

  Lemma from_csr_ok (g : csr W) core cl CL :
    0 < csr_n g -> in_range (csr_n g) (csr_entries g) -> denotes (csr_n g) cl CL ->
    exists labels M, kruskal_mst_from_csr g core cl = Ok (distinct labels, labels, M) /\
      constrained_forest CL (mrd_entries core g) M /\ in_range (csr_n g) M /\
      labels_classes (csr_n g) labels (connected M) /\ distinct labels + length M = csr_n g.
  Proof.
    intros Hn HR Hd.
    destruct (run_full (csr_n g) (mrd_entries core g) (argsort (mrd_entries core g)) cl CL)
      as (M & p & labels & H1 & H2 & H3); auto using argsort_sorts, mrd_entries_in_range.
    exists labels, M. split; auto. unfold kruskal_mst_from_csr. rewrite H1. cbn [bind].
    rewrite H2. cbn [bind]. now rewrite distinct_unique.
  Qed.

  Lemma precomputed_ok (zero : W) entries n ms cl CL :
    0 < n -> in_range n entries -> denotes n cl CL ->
    exists T nbrs core, precomputed_kruskal zero entries n ms cl = Ok (T, nbrs, core) /\
      (nbrs, core) = core_distances_csr zero (symmetrize_min entries n) ms /\
      bridged_result n CL (mrd_entries core (symmetrize_min entries n)) T.
  Proof.
    intros Hn HR Hd. unfold precomputed_kruskal.
    destruct (symmetrize_min_ok entries n HR) as (Gn & _ & GR & _).
    set (g := symmetrize_min entries n) in *.
    destruct (core_distances_csr zero g ms) as [nbrs core].
    destruct (from_csr_ok g core cl CL) as (labels & M & -> & H3 & H4 & H5 & _);
      [lia|now rewrite Gn|now rewrite Gn|].
    rewrite Gn in *. cbn [bind].
    destruct (maybe_bridge_ok n CL (mrd_entries core g) M labels) as (T & HT & HB); auto.
    rewrite distinct_unique. rewrite HT. cbn [bind]. exists T, nbrs, core. auto.
  Qed.

  Lemma finish_ok n (edges : list (edge W)) order cl CL :
    0 < n -> in_range n edges -> sorts edges order -> denotes n cl CL ->
    exists M p T, run_kruskal_core n edges order cl = Ok (M, p) /\ finish_mst n M p = Ok T /\
      bridged_result n CL edges T.
  Proof.
    intros Hn HR Hs Hd.
    destruct (run_full n edges order cl CL) as (M & p & labels & H1 & H2 & H3 & H4 & H5 & _); auto.
    destruct (maybe_bridge_ok n CL edges M labels) as (T & HT & HB); auto.
    exists M, p, T. split; auto. split; auto. unfold finish_mst. rewrite H2. auto.
  Qed.

  (** ** Brute force *)
  Lemma brute_edges_in zero (D : nat -> nat -> W) n ms i j w :
    In (i, j, w) (brute_edges zero D n ms) <->
    i < j /\ j < n /\ w = mrd3 (brute_core zero D n ms i) (brute_core zero D n ms j) (D i j).
  Proof.
    unfold brute_edges. rewrite in_flat_map. split.
    - intros (a & Ha & H). apply in_map_iff in H as (b & [= -> -> ->] & Hb).
      apply in_seq in Ha, Hb. split; [lia|]. split; auto. lia.
    - intros (H1 & H2 & ->). exists i. split; [apply in_seq; lia|].
      apply in_map_iff. exists j. split; auto. apply in_seq. lia.
  Qed.

  Lemma brute_edges_range zero (D : nat -> nat -> W) n ms : in_range n (brute_edges zero D n ms).
  Proof.
    intros [[i j] w] He. apply brute_edges_in in He as (H1 & H2 & _). unfold esrc, edst; simpl. lia.
  Qed.

  Lemma brute_ok zero (D : nat -> nat -> W) n ms cl CL :
    0 < n -> denotes n cl CL ->
    exists T nbrs core, kruskal_mst_brute zero D n ms cl = Ok (T, nbrs, core) /\
      core = map (brute_core zero D n ms) (seq 0 n) /\
      bridged_result n CL (brute_edges zero D n ms) T.
  Proof.
    intros Hn Hd. unfold kruskal_mst_brute.
    destruct (finish_ok n (brute_edges zero D n ms) (argsort (brute_edges zero D n ms)) cl CL)
      as (M & p & T & H1 & H2 & H3); auto using brute_edges_range, argsort_sorts.
    rewrite H1. cbn [bind]. rewrite H2. cbn [bind]. eexists T, _, _. split; [reflexivity|auto].
  Qed.

  (** Without constraints the complete graph is connected, so the result is a
      minimum spanning tree of all mutual reachability edges. *)
  Lemma bridged_connected n E T :
    (forall x y, x < n -> y < n -> connected E x y) -> in_range n E ->
    bridged_result n no_constraint E T -> min_spanning_forest E T /\ spanning_tree n T.
  Proof.
    intros HC HR (M & B & -> & HM & HT & _). split; auto.
    apply constrained_msf in HM. pose proof HM as [MI MA ML].
    destruct B as [|e B]; [now rewrite app_nil_r|]. exfalso.
    destruct HT as [TR TA TC _]. 
    assert (He : esrc e < n /\ edst e < n) by (apply TR, in_app_iff; simpl; auto).
    apply (TA M e B eq_refl). eapply connected_incl; [apply incl_appl, incl_refl|].
    specialize (ML _ threshold_all (esrc e) (edst e)). rewrite !passing_all in ML.
    apply ML. apply HC; tauto.
  Qed.

  Lemma brute_connected zero (D : nat -> nat -> W) n ms x y :
    x < n -> y < n -> connected (brute_edges zero D n ms) x y.
  Proof.
    intros Hx Hy. destruct (Nat.lt_trichotomy x y) as [L|[->|L]].
    - eapply (connected_edge _ (x, y, _)). apply brute_edges_in. eauto.
    - apply connected_refl.
    - apply connected_sym. eapply (connected_edge _ (y, x, _)). apply brute_edges_in. eauto.
  Qed.

  Lemma brute_core_ok zero (D : nat -> nat -> W) n ms i :
    (ms <= 1 -> brute_core zero D n ms i = zero) /\
    (1 < ms -> ms < n -> kth_smallest (S ms) (map (D i) (seq 0 n)) (brute_core zero D n ms i)) /\
    (1 < ms -> n <= ms -> brute_core zero D n ms i = winf).
  Proof.
    unfold brute_core. destruct (Nat.leb_spec ms 1); destruct (Nat.ltb_spec ms n);
      (split; [|split]); intros; try lia; auto.
    pose proof (nth_sorted_kth (fun w : W => w) (map (D i) (seq 0 n)) (S ms) winf) as K.
    rewrite map_id in K. replace (S ms - 1) with ms in K by lia. apply K; [lia|].
    rewrite map_length, seq_length. lia.
  Qed.

  (** ** kNN graph *)
  Lemma knn_edges_in (knn : list (list (option nat * W))) core i j w :
    i <> j ->
    (In (i, j, w) (knn_edges knn core) <->
     i < length knn /\ exists d, In (Some j, d) (nth i knn []) /\
       w = mrd3 (nth i core winf) (nth j core winf) d).
  Proof.
    intro Hij. unfold knn_edges. rewrite in_flat_map. split.
    - intros (a & Ha & H). apply in_map_iff in H as ([o d] & E & Hin). apply in_seq in Ha.
      cbn [fst snd] in E. destruct o as [b|]; injection E as -> -> <-; [|congruence].
      split; [lia|]. eauto.
    - intros (Hi & d & Hin & ->). exists i. split; [apply in_seq; lia|].
      apply in_map_iff. exists (Some j, d). auto.
  Qed.

  Lemma knn_ok (zero : W) query ms knn_k cl CL n :
    let k := if 1 <? ms then Nat.max knn_k ms + 1 else knn_k + 1 in
    0 < n -> length (query k) = n ->
    (forall row j d, In row (query k) -> In (Some j, d) row -> j < n) ->
    denotes n cl CL ->
    exists T nbrs core, kruskal_mst_knn zero query ms knn_k cl = Ok (T, nbrs, core) /\
      core = map (fun row => if 1 <? ms then snd (nth ms row (None, winf)) else zero) (query k) /\
      bridged_result n CL
        (filter (fun e => negb (esrc e =? edst e) && wfinite (ewt e))
                (knn_edges (map (skipn 1) (query k)) core)) T.
  Proof.
    intros k Hn HL Hr Hd. unfold kruskal_mst_knn. fold k. rewrite HL.
    set (core := map (fun row => if 1 <? ms then snd (nth ms row (None, winf)) else zero) (query k)). set (knn := map (skipn 1) (query k)).
    set (edges := filter _ (knn_edges knn core)).
    assert (HR : in_range n edges).
    { intros [[i j] w] He. apply filter_In in He as [He Hne]. apply andb_true_iff in Hne as [Hne _].
      apply negb_true_iff, Nat.eqb_neq in Hne. unfold esrc, edst in *. cbn [fst snd] in *.
      apply knn_edges_in in He as (Hi & d & Hin & _); auto.
      unfold knn in Hi, Hin. rewrite map_length in Hi. split; [lia|].
      rewrite (nth_indep _ [] (skipn 1 [])) in Hin by (rewrite map_length; lia).
      rewrite map_nth in Hin.
      apply (Hr (nth i (query k) []) j d).
      - apply nth_In. auto.
      - rewrite <- (firstn_skipn 1). apply in_app_iff. auto. }
    destruct (finish_ok n edges (argsort edges) cl CL) as (M & p & T & H1 & H2 & H3);
      auto using argsort_sorts.
    rewrite H1. cbn [bind]. rewrite H2. cbn [bind]. eexists T, _, core. split; [reflexivity|auto].
  Qed.

  (** ** Thresholds below infinity do not see the bridges *)
  Lemma bridges_invisible n CL E T t :
    wlt t winf = true -> bridged_result n CL E T ->
    exists M, constrained_forest CL E M /\
      forall x y, connected (passing (fun w => wle w t) T) x y <-> connected (passing (fun w => wle w t) M) x y.
  Proof.
    intros Ht (M & B & -> & HM & _ & HF). exists M. split; auto. intros x y.
    assert (passing (fun w => wle w t) (M ++ B) = passing (fun w => wle w t) M) as ->; [|tauto].
    unfold passing. rewrite filter_app.
    assert (filter (fun e => wle (ewt e) t) B = []) as ->; [|apply app_nil_r].
    rewrite Forall_forall in HF. clear -HF Ht. induction B as [|e B IH]; auto. simpl.
    destruct (HF e) as [E _]; [simpl; auto|]. rewrite E.
    rewrite (proj1 (wlt_nle _ _) Ht). apply IH. intros; apply HF; simpl; auto.
  Qed.

  (** A bridged tree never puts a constrained pair together at a finite level. *)
  Lemma bridged_respects n CL E T t :
    wlt t winf = true -> bridged_result n CL E T ->
    respects CL (passing (fun w => wle w t) T).
  Proof.
    intros Ht H x y Hxy Hc. destruct (bridges_invisible n CL E T t Ht H) as (M & [_ _ HR _] & HE).
    apply HE in Hc. apply (HR x y Hxy). eapply connected_incl; [|exact Hc].
    intros e He. now apply in_passing in He.
  Qed.
End Entry.
