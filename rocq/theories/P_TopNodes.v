(** The clusters of a condensed tree are the heads of the dendrogram. *)
From Coq Require Import List Arith Lia Bool Sorted Permutation.
From Verif Require Import Prelude Order Size Forest M_Linkage S_Linkage P_Dendro M_Condense S_Condense P_Condense M_Select S_Select P_CTree P_Below P_SelectTop S_Layers P_DendroNodes
  M_Layers P_Barcode P_LayerSets.
Import ListNotations.
Local Open Scope nat_scope.

Section Mono.
  Context {W : WOrd}.
  Variables (n : nat) (L : list (lrow W NatSize)) (wt : nat -> NatSize).
  Hypothesis HG : dendrogram n L.
  Hypothesis HS : sizes_are n wt L.
  Notation rc := (reach n L).

  Lemma weight_up i r c s t : nth_error L i = Some r -> c = l_a r \/ c = l_b r -> weight_of n L wt c s -> weight_of n L wt (n + i) t -> s <= t.
  Proof.
    intros Hi Hc Hs Ht. pose proof (ch_le n L HG i r c Hi Hc). pose proof (row_node_le n L HG i r Hi). pose proof (len_n n L HG).
    apply (weight_sum n L wt HG HS) in Hs; [|lia]. apply (weight_sum n L wt HG HS) in Ht; [|lia].
    rewrite (lv_node n L i r (dg_down _ _ HG) Hi), map_app, (@ssum_app NatSize) in Ht. cbn in Ht. destruct Hc; subst; cbn in *; lia.
  Qed.
  Lemma weight_mono u v : rc u v -> u <= 2 * n - 2 -> forall s t, weight_of n L wt u s -> weight_of n L wt v t -> t <= s.
  Proof.
    induction 1 as [|i r c H IH Hi Hc]; intros Hu s t Hs Ht.
    - rewrite (weight_inj _ _ _ _ _ _ Hs Ht). auto.
    - pose proof (row_node_le n L HG i r Hi). pose proof (len_n n L HG). destruct (weight_ex n L wt (n + i)) as (m & Hm); [lia|].
      specialize (IH Hu s m Hs Hm). pose proof (weight_up i r c t m Hi Hc Ht Hm). lia.
  Qed.
  Lemma large_up mcs u v : rc u v -> u <= 2 * n - 2 -> large n L wt mcs v -> large n L wt mcs u.
  Proof.
    intros H Hu (t & Ht & Hm). pose proof (len_n n L HG). destruct (weight_ex n L wt u) as (s & Hs); [lia|]. exists s. split; auto. cbn in *.
    apply Nat.leb_le in Hm. apply Nat.leb_le. pose proof (weight_mono u v H Hu s t Hs Ht). lia.
  Qed.
  Lemma small_large mcs v : small n L wt mcs v -> large n L wt mcs v -> False.
  Proof. intros (s & Hs & E) (t & Ht & E'). rewrite (weight_inj _ _ _ _ _ _ Hs Ht) in E. congruence. Qed.
End Mono.

Section Tops.
  Context {W V : WOrd}.
  Variables (n : nat) (L : list (lrow W NatSize)) (wt : nat -> NatSize) (mcs : NatSize) (lam : W -> V) (T : list (crow V NatSize)).
  Hypothesis HG : dendrogram n L.
  Hypothesis HS : sizes_are n wt L.
  Hypothesis Hn : 2 <= n.
  Hypothesis HT : condensed (Sz := NatSize) n wt mcs T.
  Variable top : nat -> nat.
  Notation rc := (reach n L).
  Notation seg := (segment n L wt mcs None).
  Notation split := (true_split n L wt mcs None).
  Hypothesis top_root : top n = 2 * n - 2.
  Hypothesis top_below : forall c x, is_cluster n T c -> (below n T c x <-> under n L (top c) x).
  Hypothesis top_samples : forall q, In q T -> c_child q < n ->
         exists i r v, seg (top (c_parent q)) (n + i) /\ nth_error L i = Some r /\
           c_lam q = lam (l_d r) /\ (v = l_a r \/ v = l_b r) /\ small n L wt mcs v /\ under n L v (c_child q).
  Hypothesis top_clusters : forall q, In q T -> n <= c_child q ->
         exists i r, seg (top (c_parent q)) (n + i) /\ nth_error L i = Some r /\ split r /\
           c_lam q = lam (l_d r) /\ (top (c_child q) = l_a r \/ top (c_child q) = l_b r) /\
           weight_of n L wt (top (c_child q)) (c_size q).

  Lemma cluster_row c : is_cluster n T c -> c = n \/ exists q, In q T /\ c_child q = c /\ n < c.
  Proof.
    intros [->|(Hc & q & Hq & E)]; auto. right. exists q. split; auto. split; auto.
    pose proof (ct_child_in n wt mcs T HT q (in_ct n T q Hq ltac:(lia))). lia.
  Qed.
  Lemma parent_is_cluster q : In q T -> is_cluster n T (c_parent q).
  Proof.
    intro Hq. apply in_split in Hq as (T1 & T2 & E). destruct (ct_order _ _ _ _ HT _ _ _ E) as [->|(H1 & r & Hr & Er)]; [now left|].
    right. split; [lia|]. exists r. split; auto. rewrite E. apply in_or_app. auto.
  Qed.
  Lemma child_is_cluster q : In q T -> n <= c_child q -> is_cluster n T (c_child q).
  Proof. intros Hq Hc. right. eauto. Qed.

  Lemma top_le c : is_cluster n T c -> top c <= 2 * n - 2.
  Proof.
    intro Hc. destruct (cluster_row c Hc) as [->|(q & Hq & E & Hlt)]; [rewrite top_root; auto|].
    destruct (top_clusters q Hq ltac:(lia)) as (i & r & _ & Hi & _ & _ & Ht & _). rewrite <- E. eapply ch_le; eauto.
  Qed.

  Lemma child_top q : In q T -> n <= c_child q -> rc (top (c_parent q)) (top (c_child q)) /\ top (c_child q) < top (c_parent q).
  Proof.
    intros Hq Hc. destruct (top_clusters q Hq Hc) as (i & r & Hs & Hi & _ & _ & Ht & _). apply seg_reach in Hs.
    split; [econstructor 2; eauto|]. pose proof (ch_lt n L HG _ _ _ Hi Ht). pose proof (reach_le n L HG _ _ Hs). lia.
  Qed.
  Lemma desc_top c d : descends n T c d -> rc (top c) (top d) /\ top d < top c.
  Proof.
    induction 1 as [q Hq Hc|c d e _ [H1 H2] _ [H3 H4]]; [now apply child_top|]. split; [eapply reach_trans; eauto|lia].
  Qed.

  Lemma nested c d : is_cluster n T c -> is_cluster n T d -> rc (top c) (top d) -> c = d \/ descends n T c d.
  Proof.
    intros Hc Hd Hr. destruct (some_under n L HG (top d) (top_le d Hd)) as (x & Hx).
    pose proof (under_up n L _ _ _ Hr Hx) as Hx'. apply top_below in Hx; auto. apply top_below in Hx'; auto.
    destruct (Nat.eq_dec c d) as [|Hne]; auto. right.
    destruct (below_nested n wt mcs T HT c d x Hx' Hx) as [H|H].
    - assert (Hdc : descends n T d c) by (apply (descends_sub n wt mcs T HT); split; auto).
      apply desc_top in Hdc as [_ H2]. apply reach_le in Hr; auto. lia.
    - apply (descends_sub n wt mcs T HT). split; auto.
  Qed.
  Lemma top_inj c d : is_cluster n T c -> is_cluster n T d -> top c = top d -> c = d.
  Proof.
    intros Hc Hd E. destruct (nested c d Hc Hd) as [|H]; auto; [rewrite E; constructor|]. apply desc_top in H as [_ H]. lia.
  Qed.

  (** A split reached by a cluster makes clusters of both sides. *)
  Lemma split_side c i r v : is_cluster n T c -> seg (top c) (n + i) -> nth_error L i = Some r -> split r -> v = l_a r \/ v = l_b r ->
    exists q, In q T /\ n <= c_child q /\ c_parent q = c /\ top (c_child q) = v.
  Proof.
    intros Hc Hs Hi Hsp Hv. destruct (some_under n L HG v (ch_le n L HG i r v Hi Hv)) as (x & Hx).
    pose proof (seg_reach n L wt mcs _ _ Hs) as Hr0. assert (Hrv : rc (n + i) v) by (econstructor 2; [constructor|eauto|auto]).
    assert (Hcx : below n T c x) by (apply top_below; auto; eapply under_up; [eapply reach_trans; eauto|auto]).
    assert (Hlv : large n L wt mcs v) by (apply split_iff in Hsp; destruct Hv as [->| ->]; tauto).
    inversion Hcx as [q y Hq Ey Hlt Ec Ey'|q y Hq Hge Hb Ec Ey']; subst.
    - (* the sample would leave above the split *)
      exfalso. destruct (top_samples q Hq ltac:(lia)) as (j & s & u & Hsj & Hj & _ & Hu & Hsm & Hux).
      assert (Hvu : rc v u).
      { destruct (under_comparable n L HG v u (c_child q) Hx Hux) as [H|H]; auto. exfalso.
        eapply small_large; eauto. eapply large_up; eauto. eapply ch_le; eauto. }
      assert (Hne : v <> u) by (intros ->; eapply small_large; eauto).
      destruct (reach_strict n L _ _ Hvu Hne) as (j' & s' & Hj' & Hc' & Hr').
      assert (j = j') as <- by (eapply one_parent; eauto).
      destruct (seg_between n L HG wt mcs _ _ Hsj (n + i)) as (k & t & Ek & Hk & Hns); auto.
      + eapply reach_trans; eauto.
      + pose proof (reach_le n L HG _ _ Hr'). pose proof (ch_lt n L HG _ _ _ Hi Hv). lia.
      + assert (k = i) as -> by lia. congruence.
    - exists q. split; auto. split; auto. split; auto.
      destruct (top_clusters q Hq Hge) as (j & s & Hsj & Hj & Hspj & _ & Ht & _).
      assert (i = j) as <- by (eapply (seg_splits n L HG wt mcs _ i r j s); eauto). assert (r = s) as <- by congruence.
      apply (top_below _ x (child_is_cluster q Hq Hge)) in Hb.
      destruct Ht as [Ht|Ht], Hv as [->| ->]; auto; exfalso; rewrite Ht in Hb; eapply siblings_apart; eauto.
  Qed.

  Lemma large_seg : forall k v, v <= 2 * n - 2 -> 2 * n - 2 <= v + k -> large n L wt mcs v -> exists c, is_cluster n T c /\ seg (top c) v.
  Proof.
    induction k as [|k IH]; intros v Hv Hk Hl.
    - exists n. split; [now left|]. rewrite top_root. replace v with (2 * n - 2) by lia. constructor.
    - destruct (Nat.eq_dec (2 * n - 2) v) as [<-|Hne]; [exists n; split; [now left|rewrite top_root; constructor]|].
      destruct (reach_strict n L _ _ (root_reaches n L HG v Hv) Hne) as (i & r & Hi & Hc & Hr).
      pose proof (ch_lt n L HG _ _ _ Hi Hc). pose proof (row_node_le n L HG _ _ Hi) as Hle.
      destruct (IH (n + i)) as (c & Hcc & Hs); [lia|lia|eapply large_up; eauto; econstructor 2; [constructor|eauto|auto]|].
      destruct (split_dec n L HG wt mcs i r Hi) as [Hsp|Hns].
      + destruct (split_side c i r v Hcc Hs Hi Hsp Hc) as (q & Hq & Hge & _ & E). exists (c_child q). split; [now apply child_is_cluster|]. rewrite E. constructor.
      + exists c. split; auto. econstructor 2; eauto.
  Qed.

  (** A split of the dendrogram: its two sides are the two clusters of one split
      of the condensed tree. *)
  Lemma split_represented i r : nth_error L i = Some r -> split r ->
    exists c q1 q2, is_cluster n T c /\ seg (top c) (n + i) /\ In q1 T /\ In q2 T /\ n <= c_child q1 /\ n <= c_child q2 /\ c_parent q1 = c /\ c_parent q2 = c /\
      top (c_child q1) = l_a r /\ top (c_child q2) = l_b r.
  Proof.
    intros Hi Hsp. pose proof (row_node_le n L HG _ _ Hi) as Hle.
    destruct (large_seg (2 * n - 2) (n + i)) as (c & Hc & Hs); [lia|lia| |].
    { apply (large_up n L wt HG HS mcs _ (l_a r)); auto; [econstructor 2; [constructor|eauto|auto]|]. apply split_iff in Hsp. tauto. }
    destruct (split_side c i r (l_a r) Hc Hs Hi Hsp (or_introl eq_refl)) as (q1 & A1 & A2 & A3 & A4).
    destruct (split_side c i r (l_b r) Hc Hs Hi Hsp (or_intror eq_refl)) as (q2 & B1 & B2 & B3 & B4).
    exists c, q1, q2. auto 12.
  Qed.

  Lemma head_cluster v : head n L wt mcs v <-> exists c, is_cluster n T c /\ top c = v.
  Proof.
    split.
    - intros [->|(i & r & Hi & Hsp & Hv)]; [exists n; split; [now left|auto]|].
      destruct (split_represented i r Hi Hsp) as (c & q1 & q2 & _ & _ & A1 & A2 & A3 & A4 & _ & _ & A5 & A6).
      destruct Hv as [->| ->]; [exists (c_child q1)|exists (c_child q2)]; (split; [now apply child_is_cluster|auto]).
    - intros (c & Hc & <-). destruct (cluster_row c Hc) as [->|(q & Hq & <- & Hlt)]; [now left|].
      destruct (top_clusters q Hq ltac:(lia)) as (i & r & _ & Hi & Hsp & _ & Ht & _). right. eauto.
  Qed.

  Lemma leaf_top c : is_cluster n T c -> (leaf_cluster n T c <-> leaf_node n L wt mcs (top c)).
  Proof.
    intro Hc. split.
    - intros [_ Hl]. split; [apply head_cluster; eauto|]. intros i r Hr Hi Hsp.
      destruct (split_represented i r Hi Hsp) as (d & q1 & q2 & Hd & _ & A1 & _ & A3 & _ & _ & _ & A5 & _).
      assert (He : is_cluster n T (c_child q1)) by now apply child_is_cluster.
      assert (Hre : rc (top c) (top (c_child q1))) by (rewrite A5; econstructor 2; eauto).
      destruct (nested c (c_child q1) Hc He Hre) as [E|H].
      + assert (Hlt : top (c_child q1) < n + i) by (rewrite A5; eapply (ch_lt n L HG); eauto). apply reach_le in Hr; auto. rewrite E in Hr. lia.
      + apply (desc_cases n T) in H as (q & Hq & Ep & _). apply (Hl q); auto; [eapply ct_in; eauto|].
        pose proof (ct_child_in n wt mcs T HT q Hq). lia.
    - intros [_ Hl]. split; auto. intros q Hq Hge E. subst c.
      destruct (top_clusters q Hq Hge) as (i & r & Hs & Hi & Hsp & _). apply seg_reach in Hs. now apply (Hl i r).
  Qed.

  Lemma leaf_node_cluster v : leaf_node n L wt mcs v <-> exists c, leaf_cluster n T c /\ top c = v.
  Proof.
    split.
    - intro H. destruct H as [Hh Hl]. pose proof Hh as Hh'. apply head_cluster in Hh' as (c & Hc & <-). exists c. split; auto. apply leaf_top; auto. split; auto.
    - intros (c & Hl & <-). apply leaf_top; auto. apply Hl.
  Qed.

  (** ** Pairs of rows and their merge *)
  Lemma pair_merge j r q : pair n T j r q -> exists i m, nth_error L i = Some m /\ split m /\ seg (top (c_parent r)) (n + i) /\
    ((top (c_child r) = l_a m /\ top (c_child q) = l_b m) \/ (top (c_child r) = l_b m /\ top (c_child q) = l_a m)) /\
    weight_of n L wt (top (c_child r)) (c_size r) /\ weight_of n L wt (top (c_child q)) (c_size q).
  Proof.
    intro Hp. destruct (pair_facts n wt mcs T HT _ _ _ Hp) as (C1 & C2 & P1 & _ & _ & I1 & I2).
    assert (Hr : In r T) by (eapply ct_in; eauto). assert (Hq : In q T) by (eapply ct_in; eauto).
    destruct (top_clusters r Hr ltac:(lia)) as (i & m & Hs & Hi & Hsp & _ & Ht & Hw).
    destruct (top_clusters q Hq ltac:(lia)) as (i' & m' & Hs' & Hi' & Hsp' & _ & Ht' & Hw').
    rewrite <- P1 in Hs'. assert (i = i') as <- by (eapply (seg_splits n L HG wt mcs); eauto). assert (m = m') as <- by congruence.
    assert (Hne : top (c_child r) <> top (c_child q)).
    { intro E. apply top_inj in E; [lia| |]; apply child_is_cluster; auto; lia. }
    exists i, m. split; auto. split; auto. split; auto. split; [|auto]. destruct Ht, Ht'; auto; exfalso; apply Hne; congruence.
  Qed.

  Lemma split_weaken s m : mcs <= s -> true_split n L wt (S s : NatSize) None m -> split m.
  Proof.
    intros Hle Hsp. apply split_iff. apply split_iff in Hsp. destruct Hsp as [(a & H1 & H2) (b & H3 & H4)]. apply Nat.leb_le in H2, H4.
    split; [exists a|exists b]; (split; auto); apply Nat.leb_le; lia.
  Qed.

  Lemma merge_split s i m : mcs <= s -> nth_error L i = Some m -> true_split n L wt (S s : NatSize) None m ->
    exists d k, splits_at n T d k /\ s < k /\ is_cluster n T d /\ seg (top d) (n + i).
  Proof.
    intros Hle Hi Hsp. assert (Hsp0 : split m) by now apply (split_weaken s).
    destruct (split_represented i m Hi Hsp0) as (c & q1 & q2 & Hc & Hs & A1 & A2 & A3 & A4 & A5 & A6 & A7 & A8).
    destruct (row_pair n wt mcs T HT q1) as (j & r & q & Hp & Hor); [apply in_ct; auto|].
    destruct (pair_merge j r q Hp) as (i' & m' & Hi' & _ & Hs' & Hor' & Hw1 & Hw2).
    destruct (pair_facts n wt mcs T HT _ _ _ Hp) as (C1 & C2 & P1 & _ & _ & I1 & I2).
    assert (Ei : i = i').
    { apply (one_parent n L HG i m i' m' (l_a m) Hi Hi'); auto. rewrite <- A7. destruct Hor as [->| ->], Hor' as [[? ?]|[? ?]]; auto. }
    subst i'. assert (m = m') as <- by congruence.
    exists c, (Nat.min (c_size r) (c_size q)). split; [|split; [|split; auto]].
    - exists r, q. split; [apply split_pair; eauto|]. split; auto. destruct Hor as [<-|<-]; congruence.
    - apply split_iff in Hsp. destruct Hsp as [(a & H1 & H2) (b & H3 & H4)]. apply Nat.leb_le in H2, H4.
      assert (Hm : forall x, weight_of n L wt (l_a m) x \/ weight_of n L wt (l_b m) x -> s < x).
      { intros x [Hx|Hx]; [rewrite (weight_inj _ _ _ _ _ _ Hx H1)|rewrite (weight_inj _ _ _ _ _ _ Hx H3)]; lia. }
      apply Nat.min_glb_lt; apply Hm; destruct Hor' as [[E1 E2]|[E1 E2]]; rewrite E1 in Hw1; rewrite E2 in Hw2; auto.
  Qed.

  Lemma split_merge d k s : splits_at n T d k -> s < k -> exists i m, nth_error L i = Some m /\ true_split n L wt (S s : NatSize) None m /\ seg (top d) (n + i).
  Proof.
    intros (r & q & Hsp & <- & ->) Hlt. apply split_pair in Hsp as (j & Hp). destruct (pair_merge j r q Hp) as (i & m & Hi & _ & Hs & Hor & Hw1 & Hw2).
    exists i, m. split; auto. split; auto. apply split_iff.
    assert (H1 : large n L wt (S s : NatSize) (top (c_child r))) by (exists (c_size r); split; auto; apply Nat.leb_le; lia).
    assert (H2 : large n L wt (S s : NatSize) (top (c_child q))) by (exists (c_size q); split; auto; apply Nat.leb_le; lia).
    destruct Hor as [[E1 E2]|[E1 E2]]; rewrite E1 in H1; rewrite E2 in H2; auto.
  Qed.

  (** Leaves for a larger minimum size. *)
  Lemma leaf_for_top s c : mcs <= s < n -> is_cluster n T c -> (leaf_for n T s c <-> leaf_node n L wt (S s : NatSize) (top c)).
  Proof.
    intros [Hs Hsn] Hc. split.
    - intros [H1 H2]. split.
      + destruct H1 as [[-> _]|(k & (r & q & Hsp & Hor & ->) & Hlt)]; [now left|].
        apply split_pair in Hsp as (j & Hp). destruct (pair_merge j r q Hp) as (i & m & Hi & _ & _ & Hor' & Hw1 & Hw2). right. exists i, m. split; auto. split.
        * apply split_iff.
          assert (L1 : large n L wt (S s : NatSize) (top (c_child r))) by (exists (c_size r); split; auto; apply Nat.leb_le; lia).
          assert (L2 : large n L wt (S s : NatSize) (top (c_child q))) by (exists (c_size q); split; auto; apply Nat.leb_le; lia).
          destruct Hor' as [[E1 E2]|[E1 E2]]; rewrite E1 in L1; rewrite E2 in L2; auto.
        * destruct Hor as [->| ->], Hor' as [[E1 E2]|[E1 E2]]; auto.
      + intros i m Hr Hi Hsp. destruct (merge_split s i m Hs Hi Hsp) as (d & k & Hd & Hlt & Hdc & Hseg).
        assert (Hcd : d = c \/ descends n T c d).
        { (* the merge lies in the segment of d and at or below top c *)
          destruct (reach_chain n L HG _ _ Hr _ (seg_reach n L wt mcs _ _ Hseg)) as [H|H].
          - destruct (nested c d Hc Hdc H) as [->|H']; auto.
          - destruct (nested d c Hdc Hc H) as [->|H']; auto. exfalso.
            (* c starts below a split of d, which the segment passes *)
            destruct (desc_cases n T d c H') as (q & Hq & Ep & Hor).
            assert (HqT : In q T) by (eapply ct_in; eauto). pose proof (ct_child_in n wt mcs T HT q Hq) as Hge.
            destruct (top_clusters q HqT ltac:(lia)) as (i' & m' & Hs' & Hi' & Hsp' & _ & Ht' & _). rewrite Ep in Hs'.
            assert (Hrc : rc (top (c_child q)) (n + i)).
            { eapply reach_trans; [|exact Hr]. destruct Hor as [->|Hor]; [constructor|]. now apply desc_top in Hor. }
            assert (Hsp0 : split m) by now apply (split_weaken s).
            assert (i = i') by (eapply (seg_splits n L HG wt mcs _ i m i' m'); eauto). subst i'.
            pose proof (reach_le n L HG _ _ Hrc). pose proof (ch_lt n L HG _ _ _ Hi' Ht'). lia. }
        specialize (H2 d k Hcd Hd). lia.
    - intros [H1 H2]. split.
      + destruct H1 as [E|(i & m & Hi & Hsp & Hv)].
        * left. split; auto. apply top_inj; auto; [now left|]. now rewrite top_root.
        * right. destruct (merge_split s i m Hs Hi Hsp) as (d & k & (r & q & Hsr & Hpd & ->) & Hlt & Hdc & Hseg).
          exists (Nat.min (c_size r) (c_size q)). split; auto. exists r, q. split; auto. split; auto.
          apply split_pair in Hsr as (j & Hp). destruct (pair_merge j r q Hp) as (i' & m' & Hi' & Hsp' & Hs' & Hor' & _).
          rewrite Hpd in Hs'. assert (Hsp0 : split m) by now apply (split_weaken s).
          assert (i = i') by (eapply (seg_splits n L HG wt mcs _ i m i' m'); eauto). subst i'. assert (m = m') as <- by congruence.
          destruct (pair_facts n wt mcs T HT _ _ _ Hp) as (C1 & C2 & _ & _ & _ & I1 & I2).
          assert (K1 : is_cluster n T (c_child r)) by (apply child_is_cluster; [eapply ct_in; eauto|lia]).
          assert (K2 : is_cluster n T (c_child q)) by (apply child_is_cluster; [eapply ct_in; eauto|lia]).
          destruct Hv as [E|E], Hor' as [[E1 E2]|[E1 E2]]; (left; apply top_inj; auto; congruence) || (right; apply top_inj; auto; congruence).
      + intros d k Hd Hsp. destruct (le_lt_dec k s) as [|Hlt]; auto. exfalso.
        destruct (split_merge d k s Hsp Hlt) as (i & m & Hi & Hm & Hseg). apply (H2 i m); auto.
        apply seg_reach in Hseg. destruct Hd as [->|Hd]; auto. eapply reach_trans; [|exact Hseg]. now apply desc_top in Hd.
  Qed.
End Tops.
