(** Precomputed distances: what the tree says about the stored entries. *)
From Coq Require Import List Arith Lia Bool Permutation ZArith.
From Verif Require Import Prelude Order Graph Size Num S_Kruskal S_Precomputed M_Kruskal M_Precomputed M_KruskalEntry P_Kruskal P_Forest P_Precomputed P_Precomputed2 P_KruskalRun P_KruskalEntry
  M_CoreGraph S_CoreGraph P_PrecomputedBoruvka P_BackendsAgree P_UniqueTree
  M_Linkage S_Linkage M_Condense S_Condense M_Select M_Labels M_Pipeline S_Pipeline S_Dbscan P_Dbscan S_Join P_JoinTop S_GraphCut.
Import ListNotations.
Local Open Scope nat_scope.

Lemma not_below_infinity {W : WOrd} (eps : W) : wlt winf eps = false.
Proof. unfold wlt. now rewrite winf_top. Qed.

(** Bridges are invisible below infinity. *)
Lemma bridged_below {W : WOrd} n (E T : list (edge W)) eps : bridged_result n no_constraint E T ->
  spanning_tree n T /\ forall x y, connected (passing (fun w => wlt w eps) T) x y <-> connected (passing (fun w => wlt w eps) E) x y.
Proof.
  intros (M & B & -> & C & ST & F). split; auto. intros x y. apply constrained_msf in C.
  replace (passing (fun w => wlt w eps) (M ++ B)) with (passing (fun w => wlt w eps) M); [apply (msf_levels _ _ C _ (threshold_lt eps) x y)|].
  unfold passing. rewrite filter_app. replace (filter (fun e => wlt (ewt e) eps) B) with (@nil (edge W)); [now rewrite app_nil_r|].
  clear -F. induction F as [|e B [He _] F IH]; auto. cbn [filter]. now rewrite He, not_below_infinity.
Qed.

Section Graph.
  Context {W : WOrd}.
  Variables (zero : W) (entries : list (edge W)) (n ms : nat) (D : nat -> nat -> W) (eps : W).
  Hypothesis HR : in_range n entries.
  Hypothesis HD : graph_distance n entries D.
  Hypothesis Least : forall e, In e entries -> wle zero (ewt e) = true.
  Notation g := (symmetrize_min entries n).
  Notation core := (snd (core_distances_csr zero g ms)).
  Notation core_of i := (nth i core winf).

  Lemma row_entries i j d : i < n -> (In (j, d) (csr_row g i) <-> In (i, j, d) (csr_entries g)).
  Proof.
    intro Hi. destruct (symmetrize_min_ok entries n HR) as (Gn & _). unfold csr_entries. rewrite Gn. rewrite in_flat_map. split.
    - intro H. exists i. split; [apply in_seq; lia|]. apply in_map_iff. exists (j, d). auto.
    - intros (k & _ & H). apply in_map_iff in H as ([c w] & E & H). injection E as -> -> ->. exact H.
  Qed.
  Lemma row_nodup i : i < n -> NoDup (map fst (csr_row g i)).
  Proof.
    intro Hi. destruct (symmetrize_min_ok entries n HR) as (Gn & N & _). unfold csr_entries in N. rewrite Gn in N.
    assert (K : forall l, In i l -> NoDup (map (fun e => (esrc e, edst e)) (flat_map (fun i => map (fun cw => (i, fst cw, snd cw)) (csr_row g i)) l)) -> NoDup (map fst (csr_row g i))).
    { induction l as [|k l IH]; [intros []|]. intros Hin H. cbn [flat_map] in H. rewrite map_app in H. apply NoDup_app_iff in H as (H1 & H2 & _).
      destruct Hin as [->|Hin]; auto. rewrite map_map in H1. cbn in H1. rewrite <- (map_map fst (fun c => (i, c))) in H1. eapply NoDup_map_inv. exact H1. }
    apply (K (seq 0 n)); auto. apply in_seq. lia.
  Qed.
  Lemma stored_near i j d : i < n -> In (i, j, d) (csr_entries g) -> j < n /\ i <> j /\ wle (D i j) d = true /\ wle d (D i j) = true.
  Proof.
    intros Hi H. destruct (symmetrize_min_ok entries n HR) as (_ & _ & R & L & _ & _). destruct (L _ _ _ H) as [Hne LB].
    destruct (R _ H) as [_ Hj]. unfold edst in Hj. cbn in Hj. destruct HD as [_ HD2]. split; auto. split; auto.
    destruct (HD2 i j Hi Hj Hne) as [LB'|[_ K]].
    - destruct LB as [I1 M1], LB' as [I2 M2]. auto.
    - destruct LB as [[I|I] _]; destruct (K d); contradiction.
  Qed.
  Lemma near_stored i j : i < n -> j < n -> i <> j -> wlt (D i j) eps = true -> exists d, In (i, j, d) (csr_entries g) /\ wle d (D i j) = true.
  Proof.
    intros Hi Hj Hne H. destruct HD as [_ HD2]. destruct (HD2 i j Hi Hj Hne) as [[I _]|[E _]]; [|rewrite E, not_below_infinity in H; discriminate].
    destruct (symmetrize_min_ok entries n HR) as (_ & _ & _ & _ & L & _). destruct (L i j _ Hne I) as (m & Hm). exists m. split; auto. now apply (stored_near i j m).
  Qed.
  Lemma nonnegative i j d : In (i, j, d) (csr_entries g) -> wle zero d = true.
  Proof.
    intro H. destruct (symmetrize_min_ok entries n HR) as (_ & _ & _ & L & _). destruct (L _ _ _ H) as [_ [[I|I] _]]; apply (Least _ I).
  Qed.

  Lemma graph_core i : i < n -> 1 < ms -> (wlt (core_of i) eps = true <-> core_sample D n ms eps i).
  Proof.
    intros Hi Hm. destruct (core_distances_ok zero g ms) as [_ HC]. destruct (symmetrize_min_ok entries n HR) as (Gn & _). rewrite Gn in HC.
    specialize (HC i Hi). cbv zeta in HC. destruct HC as (_ & H1 & H2). rewrite map_length in H1, H2. pose proof (row_nodup i Hi) as N. split.
    - intro L. right. destruct (le_lt_dec ms (length (csr_row g i))) as [Hl|Hl]; [|rewrite (H2 Hm Hl), not_below_infinity in L; discriminate].
      destruct (H1 Hm Hl) as (_ & _ & C). rewrite countp_map, countp_filter in C. set (d := core_of i) in *.
      set (f := filter (fun x => wle (snd x) d) (csr_row g i)) in *. assert (Nf : NoDup (map fst f)).
      { unfold f. clear -N. induction (csr_row g i) as [|[j w] l IH]; cbn [filter map fst] in *; [constructor|]. inversion_clear N as [|? ? N1 N2].
        destruct (wle (snd (j, w)) d); auto. cbn [map fst]. constructor; auto. intro K. apply N1. apply in_map_iff in K as (x & <- & Hx). apply filter_In in Hx as [Hx _]. now apply in_map. }
      exists (firstn ms (map fst f)). split; [|split].
      + rewrite <- (firstn_skipn ms (map fst f)) in Nf. apply NoDup_app_iff in Nf. tauto.
      + rewrite firstn_length, map_length. lia.
      + intros j Hj. assert (Hin : In j (map fst f)) by (rewrite <- (firstn_skipn ms (map fst f)); apply in_or_app; auto).
        apply in_map_iff in Hin as ([j' w] & E & Hw). cbn in E. subst j'. apply filter_In in Hw as [Hw Hle]. apply (row_entries i j w Hi) in Hw.
        destruct (stored_near i j w Hi Hw) as (Q1 & Q2 & Q3 & _). split; auto. split; auto. eapply wle_lt_trans; [exact Q3|]. eapply wle_lt_trans; [exact Hle|exact L].
    - intros [K|(near & Nn & Ln & Hn)]; [lia|].
      assert (Q : forall l : list (nat * W), (forall j, In j near -> In j (map fst l)) -> ms <= length l).
      { intros l Hl. rewrite <- Ln, <- (map_length fst l). apply NoDup_incl_length; auto. }
      assert (Hin : forall j, In j near -> exists w, In (j, w) (csr_row g i) /\ wlt w eps = true).
      { intros j Hj. destruct (Hn j Hj) as (Q1 & Q2 & Q3). destruct (near_stored i j Hi Q1 ltac:(auto) Q3) as (w & Hw & Hle). exists w. split; [now apply row_entries|]. eapply wle_lt_trans; eauto. }
      assert (Hl : ms <= length (csr_row g i)).
      { apply Q. intros j Hj. destruct (Hin j Hj) as (w & Hw & _). now apply (in_map fst) in Hw. }
      destruct (H1 Hm Hl) as (_ & C & _). destruct (wlt (core_of i) eps) eqn:L; auto. exfalso.
      assert (Led : wle eps (core_of i) = true) by (destruct (wle eps (core_of i)) eqn:R; auto; apply wlt_nle in R; congruence).
      rewrite countp_map, countp_filter in C. enough (ms <= length (filter (fun x => wlt (snd x) (core_of i)) (csr_row g i))) by lia.
      apply Q. intros j Hj. destruct (Hin j Hj) as (w & Hw & Hlt). apply in_map_iff. exists (j, w). split; auto. apply filter_In. split; auto. eapply wlt_le_trans; eauto.
  Qed.
  Lemma core_sample_least i j : i < n -> j < n -> ms <= 1 -> wlt (D i j) eps = true -> i <> j -> wlt (core_of i) eps = true.
  Proof.
    intros Hi Hj Hm H Hne. destruct (core_distances_ok zero g ms) as [_ HC]. destruct (symmetrize_min_ok entries n HR) as (Gn & _). rewrite Gn in HC.
    destruct (HC i Hi) as (-> & _); auto. destruct (near_stored i j Hi Hj Hne H) as (d & Hd & Hle). eapply wle_lt_trans; [|exact H]. eapply wle_trans; [|exact Hle]. eapply nonnegative; eauto.
  Qed.

  Lemma entries_dc x y : connected (passing (fun w => wlt w eps) (mrd_entries core g)) x y <-> density_connected D n ms eps x y.
  Proof.
    apply graph_dc; [apply HD|..].
    - intros e He Hw. unfold mrd_entries in He. apply in_map_iff in He as ([[i j] d] & <- & He). unfold esrc, edst, ewt in *. cbn [fst snd] in *.
      apply three_below in Hw as (Ci & Cj & Hd). destruct (symmetrize_min_ok entries n HR) as (_ & _ & R & _). destruct (R _ He) as [Hi Hj]. unfold esrc, edst in Hi, Hj. cbn in Hi, Hj.
      split; auto. split; auto. destruct (stored_near i j d Hi He) as (_ & Hne & Hle & _).
      eapply dc_next; [constructor|auto|auto| | |eapply wle_lt_trans; eauto];
        (destruct (le_lt_dec ms 1) as [Hm|Hm]; [now left|apply graph_core; auto]).
    - intros i j Hi Hj Hne Ci Cj L. destruct (near_stored i j Hi Hj Hne L) as (d & Hd & Hle).
      eapply (connected_edge _ (i, j, mrd3 (core_of i) (core_of j) d)). apply in_passing. split.
      + unfold mrd_entries. apply in_map_iff. exists (i, j, d). auto.
      + unfold ewt. cbn [snd]. apply three_below. destruct (le_lt_dec ms 1) as [Hm|Hm].
        * split; [now apply (core_sample_least i j)|]. split; [|eapply wle_lt_trans; eauto].
          apply (core_sample_least j i); auto. destruct HD as [Sym _]. now rewrite Sym.
        * split; [now apply graph_core|]. split; [now apply graph_core|]. eapply wle_lt_trans; eauto.
  Qed.
End Graph.

(** What any correct tree of the graph gives. *)
Section Tree.
  Context {W : WOrd}.
  Variables (zero : W) (entries : list (edge W)) (n ms : nat) (D : nat -> nat -> W) (T : list (edge W)).
  Hypothesis HR : in_range n entries.
  Hypothesis HD : graph_distance n entries D.
  Hypothesis Least : forall e, In e entries -> wle zero (ewt e) = true.
  Hypothesis HB : bridged_result n no_constraint (mrd_entries (snd (core_distances_csr zero (symmetrize_min entries n) ms)) (symmetrize_min entries n)) T.

  Lemma bridged_dc eps x y : connected (passing (fun w => wlt w eps) T) x y <-> density_connected D n ms eps x y.
  Proof. destruct (bridged_below n _ T eps HB) as [_ H]. rewrite H. now apply entries_dc. Qed.
  Lemma bridged_cut eps : exists L labels, mst_to_linkage_tree (sort_mst T) = Ok L /\ get_cluster_labelling_at_cut L eps ms = Ok labels /\ dbscan_star D n ms eps labels.
  Proof. apply tree_dbscan; [eapply bridged_below; eauto; exact winf|]. apply bridged_dc. Qed.
  Lemma bridged_density {V : WOrd} (lam : W -> V) (LA : LamArith V) A garbage by_parent (st : settings V NatSize) ls ps C :
    setting_ok lam LA A by_parent st -> 2 <= n -> min_cluster_size st <= n -> cluster_selection_persistence st = None ->
    clusters_from_spanning_tree lam LA A garbage by_parent st T = Ok (ls, ps, C) ->
    forall q, In q C -> c_child q < n -> exists d, joins_at D n ms (min_cluster_size st) (c_child q) d /\ c_lam q = lam d.
  Proof.
    intros HK Hn Hm Hp ER q Hq Hc. assert (ST : spanning_tree n T) by (eapply bridged_below; eauto; exact winf).
    destruct (plain_density lam LA A garbage by_parent st n T ls ps C HK ST Hn Hm ER Hp q Hq Hc) as (d & Hd & Ed). exists d. split; auto.
    eapply joins_data; [|exact Hd]. intros eps. apply bridged_dc.
  Qed.
End Tree.
