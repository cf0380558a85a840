(** Clusters of precomputed distances in terms of the stored entries. *)
From Coq Require Import List Arith Lia Bool Permutation ZArith.
From Verif Require Import Prelude Order Graph Size Num S_Kruskal S_Precomputed M_Kruskal M_Precomputed P_KruskalEntry M_CoreGraph S_CoreGraph P_BackendsAgree
  M_Linkage S_Linkage M_Condense S_Condense M_Select M_Labels M_Pipeline S_Pipeline P_PipelineRun P_PipelineMeaning P_PipelineEx S_Dbscan S_Level P_LevelTop S_Join P_JoinTop
  P_GraphLevel S_GraphCut P_GraphCut.
Import ListNotations.
Local Open Scope nat_scope.

Lemma stored_ok {W : WOrd} n (entries : list (edge W)) : graph_distance n entries (stored_distance entries).
Proof.
  assert (HS : forall i j, stored_distance entries i j = stored_distance entries j i).
  { intros i j. unfold stored_distance. induction entries as [|e l IH]; cbn; auto. rewrite IH, orb_comm. reflexivity. }
  split; auto. intros i j _ _ _. clear HS. induction entries as [|[[a b] w] l IH]; [right; split; auto; intros w; split; intros []|].
  cbn [stored_distance fold_right]. fold (stored_distance l i j). change (esrc (a, b, w)) with a. change (edst (a, b, w)) with b. change (ewt (a, b, w)) with w.
  set (m := stored_distance l i j) in *.
  assert (HM : ((a =? i) && (b =? j) || (a =? j) && (b =? i)) = true <-> (a = i /\ b = j) \/ (a = j /\ b = i)).
  { rewrite orb_true_iff, !andb_true_iff, !Nat.eqb_eq. tauto. }
  assert (HC : forall b : bool, b = true \/ b = false) by (intros []; auto).
  destruct (HC ((a =? i) && (b =? j) || (a =? j) && (b =? i))) as [E|E]; rewrite E; cbn [andb].
  - apply HM in E. destruct (HC (wle w m)) as [Ew|Ew]; rewrite Ew.
    + left. split.
      * destruct E as [[-> ->]|[-> ->]]; [left|right]; now left.
      * intros v Hv. assert (HV : v = w \/ In (i, j, v) l \/ In (j, i, v) l).
        { destruct Hv as [[Hv|Hv]|[Hv|Hv]]; auto; injection Hv; auto. }
        destruct HV as [->|HV]; [apply wle_refl|]. destruct IH as [[_ IH]|[_ IH]].
        -- eapply wle_trans; [exact Ew|]. now apply IH.
        -- destruct (IH v) as [I1 I2]. tauto.
    + destruct IH as [[I1 I2]|[I1 I2]].
      * left. split; [destruct I1; [left|right]; now right|]. intros v Hv. assert (HV : v = w \/ In (i, j, v) l \/ In (j, i, v) l).
        { destruct Hv as [[Hv|Hv]|[Hv|Hv]]; auto; injection Hv; auto. }
        destruct HV as [->|HV]; auto. destruct (wle_total _ w m) as [K|K]; auto; congruence.
      * rewrite I1, winf_top in Ew. discriminate.
  - assert (HN : ~ ((a = i /\ b = j) \/ (a = j /\ b = i))) by (rewrite <- HM, E; discriminate).
    destruct IH as [[I1 I2]|[I1 I2]].
    + left. split; [destruct I1; [left|right]; now right|]. intros v Hv. apply I2. destruct Hv as [[Hv|Hv]|[Hv|Hv]]; auto; exfalso; apply HN; injection Hv; auto.
    + right. split; auto. intros v. destruct (I2 v) as [I3 I4]. split; intros [Hv|Hv]; auto; apply HN; injection Hv; auto.
Qed.

Lemma plain_positive_level {W V : WOrd} (lam : W -> V) (LA : LamArith V) A garbage by_parent (st : settings V NatSize) n M Z N P ls ps T :
  setting_ok lam LA A by_parent st -> ScoreLaws lam A (la_zero LA) Z N P -> cluster_selection_persistence st = None -> root_ok st ->
  spanning_tree n M -> 2 <= n -> min_cluster_size st <= n ->
  clusters_from_spanning_tree lam LA A garbage by_parent st M = Ok (ls, ps, T) ->
  forall x, x < n -> nth x ls 0%Z <> (-1)%Z ->
  exists d, wlt (la_zero LA) (lam d) = true /\ level n M (fun y => y < n /\ nth y ls 0%Z = nth x ls 0%Z) d.
Proof.
  intros HK HS Hp Hr HM Hn Hm ER. destruct (c45 lam LA A garbage by_parent st n M ls ps T HK HM Hn ER) as (L & T0 & S & E & HX).
  eapply (cluster_at_positive_level lam LA st n (fun _ => 1 : NatSize) M ls ps T L T0 S E HX); auto; try apply HK; try (now apply all_ones).
  intros x y Hx Hy Hl El. eapply plain_together; eauto.
Qed.

Section Precomputed.
  Context {W : WOrd}.
  Variables (zero huge : W) (round : W -> W) (entries : list (edge W)) (n ms : nat) (D : nat -> nat -> W) (T : list (edge W)).
  Hypothesis Hn : 2 <= n.
  Hypothesis HR : in_range n entries.
  Hypothesis HD : graph_distance n entries D.
  Hypothesis Least : forall e, In e entries -> wle zero (ewt e) = true.
  Hypothesis HP : precomputed_tree zero huge round entries n ms T.

  Lemma tree_bridged : bridged_result n no_constraint (mrd_entries (snd (core_distances_csr zero (symmetrize_min entries n) ms)) (symmetrize_min entries n)) T.
  Proof.
    destruct HP as [(nbrs & core & E)|(H1 & H2 & H3 & H4 & H5 & nbrs & core & E)].
    - destruct (precomputed_ok zero entries n ms CLNone no_constraint ltac:(lia) HR) as (T' & nbrs' & core' & E' & C & B); [intros x y; simpl; tauto|].
      rewrite E in E'. injection E' as <- <- <-. rewrite <- C. exact B.
    - destruct (c15_boruvka zero huge round entries n ms ltac:(lia) HR H1 H2 H3 H4 H5) as (T' & nbrs' & E' & C & B).
      rewrite E in E'. injection E' as <- _ _. exact B.
  Qed.
  Lemma precomputed_spanning : spanning_tree n T.
  Proof. exact (proj1 (bridged_below n _ T winf tree_bridged)). Qed.

  Lemma precomputed_cut eps : exists L labels, mst_to_linkage_tree (sort_mst T) = Ok L /\ get_cluster_labelling_at_cut L eps ms = Ok labels /\ dbscan_star D n ms eps labels.
  Proof. eapply bridged_cut; eauto. apply tree_bridged. Qed.

  Section Run.
    Context {V : WOrd}.
    Variables (lam : W -> V) (LA : LamArith V) (A : Arith V NatSize) (garbage : nat -> V) (by_parent : list (crow V NatSize) -> list (crow V NatSize))
      (st : settings V NatSize) (ls : list Z) (ps : list V) (C : list (crow V NatSize)).
    Hypothesis HK : setting_ok lam LA A by_parent st.
    Hypothesis Hm : min_cluster_size st <= n.
    Hypothesis Hper : cluster_selection_persistence st = None.
    Hypothesis ER : clusters_from_spanning_tree lam LA A garbage by_parent st T = Ok (ls, ps, C).

    Lemma precomputed_density q : In q C -> c_child q < n -> exists d, joins_at D n ms (min_cluster_size st) (c_child q) d /\ c_lam q = lam d.
    Proof. eapply bridged_density; eauto. apply tree_bridged. Qed.

    Lemma precomputed_groups (Z N P : num A -> Prop) : ScoreLaws lam A (la_zero LA) Z N P -> root_ok st -> wle (lam winf) (la_zero LA) = true ->
      forall x, x < n -> nth x ls 0%Z <> (-1)%Z -> exists d, dense_group D n ms (fun y => y < n /\ nth y ls 0%Z = nth x ls 0%Z) d.
    Proof.
      intros HS Hr Hi x Hx Hl.
      destruct (plain_positive_level lam LA A garbage by_parent st n T Z N P ls ps C HK HS Hper Hr precomputed_spanning Hn Hm ER x Hx Hl) as (d & Hd & Hlev).
      exists d. eapply level_group; eauto.
      - intros eps a b. eapply bridged_dc; eauto. apply tree_bridged.
      - eapply positive_finite; eauto. apply HK.
    Qed.
  End Run.
End Precomputed.
