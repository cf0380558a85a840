(** Clusters of a condensed tree as nodes of the dendrogram. *)
From Coq Require Import List Arith Lia Bool Sorted Permutation.
From Verif Require Import Prelude Order Size Forest M_Linkage S_Linkage P_Dendro M_Condense S_Condense P_Condense M_Select S_Select P_CTree P_Below P_SelectTop S_Layers.
Import ListNotations.
Local Open Scope nat_scope.

Section Nodes.
  Context {W : WOrd} {Sz : SOrd}.
  Variables (n : nat) (L : list (lrow W Sz)).
  Hypothesis HG : dendrogram n L.
  Notation rc := (reach n L).
  Notation isch r c := (c = l_a r \/ c = l_b r).

  Let HD : down n L := dg_down _ _ HG.

  Lemma row_lt i r : nth_error L i = Some r -> i < length L.
  Proof. intro H. apply nth_error_Some. congruence. Qed.
  Lemma len_n : S (length L) = n.
  Proof. exact (dg_len _ _ HG). Qed.

  Lemma ch_lt i r c : nth_error L i = Some r -> isch r c -> c < n + i.
  Proof. intros H Hc. destruct (HD _ _ H). destruct Hc as [->| ->]; auto. Qed.

  Lemma ch_split {A} (l : list A) i x : nth_error l i = Some x -> exists l1 l2, l = l1 ++ x :: l2 /\ length l1 = i.
  Proof. apply nth_error_split. Qed.

  Lemma child_NoDup : NoDup (child_list L).
  Proof. apply (Permutation_NoDup (Permutation_sym (dg_once _ _ HG))), seq_NoDup. Qed.

  Lemma one_parent i r j q c : nth_error L i = Some r -> nth_error L j = Some q -> isch r c -> isch q c -> i = j.
  Proof.
    assert (Hlt : forall i r j q c, i < j -> nth_error L i = Some r -> nth_error L j = Some q -> isch r c -> isch q c -> False).
    { clear i r j q c. intros i r j q c Hij Hi Hj Hc Hd. apply nth_error_split in Hi as (l1 & l2 & E & Hl).
      pose proof child_NoDup as HN. rewrite E in *. unfold child_list in HN. rewrite flat_map_app in HN. cbn in HN.
      apply NoDup_app_iff in HN as (_ & HN & _).
      rewrite nth_error_app2 in Hj by lia. replace (j - length l1) with (S (j - length l1 - 1)) in Hj by lia. cbn in Hj. apply nth_error_In in Hj.
      assert (Hin : In c (flat_map (fun r => [l_a r; l_b r]) l2)).
      { apply in_flat_map. exists q. split; auto. cbn. destruct Hd; auto. }
      apply NoDup_cons_iff in HN as [N1 HN]. apply NoDup_cons_iff in HN as [N2 _]. destruct Hc as [->| ->]; [apply N1; now right|now apply N2]. }
    intros Hi Hj Hc Hd. destruct (lt_eq_lt_dec i j) as [[H|H]|H]; auto; exfalso; eauto.
  Qed.

  Lemma ab_differ i r : nth_error L i = Some r -> l_a r <> l_b r.
  Proof.
    intros Hi E. apply nth_error_split in Hi as (l1 & l2 & E1 & _). pose proof child_NoDup as HN. rewrite E1 in HN. unfold child_list in HN. rewrite flat_map_app in HN. cbn in HN.
    apply NoDup_app_iff in HN as (_ & HN & _). apply NoDup_cons_iff in HN as [HN _]. apply HN. left. auto.
  Qed.

  Lemma reach_trans u v w : rc u v -> rc v w -> rc u w.
  Proof. intros H1 H2. induction H2; auto. econstructor 2; eauto. Qed.
  Lemma reach_le u v : rc u v -> v <= u.
  Proof. induction 1 as [|i r c H IH Hi Hc]; auto. pose proof (ch_lt _ _ _ Hi Hc). lia. Qed.
  Lemma reach_antisym u v : rc u v -> rc v u -> u = v.
  Proof. intros H1 H2. apply reach_le in H1, H2. lia. Qed.

  Lemma reach_chain u w : rc u w -> forall v, rc v w -> rc u v \/ rc v u.
  Proof.
    induction 1 as [|i r c H IH Hi Hc]; intros v Hv; auto.
    inversion Hv as [E|j q c' H' Hj Hc' E]; subst.
    - left. econstructor 2; eauto.
    - assert (i = j) as <- by (eapply one_parent; eauto). auto.
  Qed.

  Lemma reach_strict u v : rc u v -> u <> v -> exists i r, nth_error L i = Some r /\ isch r v /\ rc u (n + i).
  Proof. intros H Hne. inversion H; subst; [congruence|]. eauto. Qed.

  Lemma reach_first u v : rc u v -> u <> v -> exists i r c, u = n + i /\ nth_error L i = Some r /\ isch r c /\ rc c v.
  Proof.
    induction 1 as [|i r c H IH Hi Hc]; [congruence|]. intros _. destruct (Nat.eq_dec u (n + i)) as [E|Hne].
    - exists i, r, c. split; auto. split; auto. split; auto. constructor.
    - destruct (IH Hne) as (j & q & d & E & Hj & Hd & Hr). exists j, q, d. split; auto. split; auto. split; auto. econstructor 2; eauto.
  Qed.

  Lemma under_up v w x : rc v w -> under n L w x -> under n L v x.
  Proof.
    intro H. revert x. induction H as [|i r c H IH Hi Hc]; auto. intros x Hu. apply IH.
    destruct Hc as [->| ->]; [eapply under_a; eauto|eapply under_b; eauto].
  Qed.
  Lemma under_reach v x : under n L v x <-> x < n /\ rc v x.
  Proof.
    split.
    - induction 1 as [x Hx|i r x Hi H [H1 H2]|i r x Hi H [H1 H2]]; [split; [auto|constructor]| |]; (split; auto); eapply reach_trans; eauto; (econstructor 2; [constructor|eauto|auto]).
    - intros [Hx H]. apply (under_up _ _ _ H). now constructor.
  Qed.

  Lemma under_comparable u v x : under n L u x -> under n L v x -> rc u v \/ rc v u.
  Proof. intros H1 H2. apply under_reach in H1 as [_ H1], H2 as [_ H2]. eapply reach_chain; eauto. Qed.

  Lemma siblings_apart i r x : nth_error L i = Some r -> under n L (l_a r) x -> under n L (l_b r) x -> False.
  Proof.
    intros Hi Ha Hb. pose proof (ab_differ _ _ Hi) as Hne. destruct (under_comparable _ _ _ Ha Hb) as [H|H].
    - destruct (reach_strict _ _ H Hne) as (j & q & Hj & Hc & Hr). assert (i = j) as <- by exact (one_parent i r j q _ Hi Hj (or_intror eq_refl) Hc). apply reach_le in Hr. pose proof (ch_lt i r (l_a r) Hi (or_introl eq_refl)). lia.
    - destruct (reach_strict _ _ H (not_eq_sym Hne)) as (j & q & Hj & Hc & Hr). assert (i = j) as <- by exact (one_parent i r j q _ Hi Hj (or_introl eq_refl) Hc). apply reach_le in Hr. pose proof (ch_lt i r (l_b r) Hi (or_intror eq_refl)). lia.
  Qed.

  Lemma reach_root : forall k v, v <= 2 * n - 2 -> 2 * n - 2 <= v + k -> rc (2 * n - 2) v.
  Proof.
    induction k as [|k IH]; intros v Hv Hk.
    - replace v with (2 * n - 2) by lia. constructor.
    - destruct (Nat.eq_dec v (2 * n - 2)) as [->|Hne]; [constructor|].
      assert (Hi : In v (child_list L)) by (apply (Permutation_in _ (Permutation_sym (dg_once _ _ HG))), in_seq; lia).
      unfold child_list in Hi. apply in_flat_map in Hi as (r & Hr & Hc). apply In_nth_error in Hr as (i & Hi).
      assert (Hcc : isch r v) by (cbn in Hc; intuition). pose proof (ch_lt _ _ _ Hi Hcc). pose proof (row_lt _ _ Hi). pose proof len_n.
      econstructor 2; [|eauto|eauto]. apply IH; lia.
  Qed.
  Lemma root_reaches v : v <= 2 * n - 2 -> rc (2 * n - 2) v.
  Proof. intro H. apply (reach_root (2 * n - 2)); lia. Qed.

  Lemma some_under v : v <= 2 * n - 2 -> exists x, under n L v x.
  Proof.
    intro Hv. pose proof len_n. pose proof (lv_nonempty n L v HD ltac:(lia)) as H1. destruct (lv n L v) as [|x l] eqn:E; [congruence|].
    exists x. apply (under_lv n L v x HD). rewrite E. now left.
  Qed.

  Lemma row_node_le i r : nth_error L i = Some r -> n + i <= 2 * n - 2.
  Proof. intro H. apply row_lt in H. pose proof len_n. lia. Qed.
  Lemma ch_le i r c : nth_error L i = Some r -> isch r c -> c <= 2 * n - 2.
  Proof. intros H Hc. pose proof (row_node_le _ _ H). pose proof (ch_lt _ _ _ H Hc). lia. Qed.

  (** ** Segments *)
  Section Size.
    Variables (wt : nat -> Sz) (mcs : Sz).
    Notation seg := (segment n L wt mcs None).
    Notation split := (true_split n L wt mcs None).

    Lemma split_iff r : split r <-> large n L wt mcs (l_a r) /\ large n L wt mcs (l_b r).
    Proof. unfold true_split. split; [tauto|]. intros [H1 H2]. split; auto. split; auto. intros [(s & m & _ & H & _) _]. discriminate. Qed.

    Lemma split_dec i r : nth_error L i = Some r -> split r \/ ~ split r.
    Proof.
      intro Hi. pose proof (ch_le i r _ Hi (or_introl eq_refl)) as Ha. pose proof (ch_le i r _ Hi (or_intror eq_refl)) as Hb. pose proof len_n.
      destruct (weight_ex n L wt (l_a r)) as (s & Hs); [lia|]. destruct (weight_ex n L wt (l_b r)) as (t & Ht); [lia|].
      destruct (sle mcs s) eqn:E1; [destruct (sle mcs t) eqn:E2|].
      - left. apply split_iff. split; eexists; eauto.
      - right. rewrite split_iff. intros [_ (t' & H1 & H2)]. rewrite (weight_inj _ _ _ _ _ _ H1 Ht) in H2. congruence.
      - right. rewrite split_iff. intros [(s' & H1 & H2) _]. rewrite (weight_inj _ _ _ _ _ _ H1 Hs) in H2. congruence.
    Qed.

    Lemma seg_reach t v : seg t v -> rc t v.
    Proof. induction 1; [constructor|]. econstructor 2; eauto. Qed.

    Lemma seg_between t v : seg t v -> forall u, rc t u -> rc u v -> u <> v -> exists i r, u = n + i /\ nth_error L i = Some r /\ ~ split r.
    Proof.
      induction 1 as [|i r c H IH Hi Hns Hc Hl]; intros u H1 H2 Hne.
      - destruct Hne. eapply reach_antisym; eauto.
      - destruct (reach_strict _ _ H2 Hne) as (j & q & Hj & Hcq & Hr). assert (i = j) as <- by (eapply one_parent; eauto). assert (r = q) as <- by congruence.
        destruct (Nat.eq_dec u (n + i)) as [->|Hne']; [eauto|]. apply IH; auto.
    Qed.

    (** A segment does not branch. *)
    Lemma seg_chain t v : seg t v -> forall w, seg t w -> rc v w \/ rc w v.
    Proof.
      intros Hv w Hw. revert v Hv. induction Hw as [|i r c H IH Hi Hns Hc Hl]; intros v Hv; [right; now apply seg_reach|].
      destruct (IH v Hv) as [Hvi|Hiv]; [left; econstructor 2; eauto|].
      destruct (Nat.eq_dec (n + i) v) as [<-|Hne]; [left; econstructor 2; eauto; constructor|].
      destruct (reach_first _ _ Hiv Hne) as (j & q & d & Ej & Hj & Hd & Hdv). assert (i = j) as <- by lia. assert (r = q) as <- by congruence.
      destruct (Nat.eq_dec c d) as [<-|Hcd]; [right; auto|]. exfalso.
      (* the other side is small *)
      assert (Hld : large n L wt mcs d).
      { clear - H Hv Hiv Hne Hi Hd Hdv HG HD. apply seg_reach in H. induction Hv as [|k s e Hk IHk Hks Hns' He Hle].
        - destruct Hne. eapply reach_antisym; eauto.
        - destruct (Nat.eq_dec d e) as [->|Hde]; auto. 
          destruct (reach_strict _ _ Hdv Hde) as (k' & s' & Hk' & Hc' & Hr'). assert (k = k') as <- by (eapply one_parent; eauto).
          apply IHk; auto.
          + eapply reach_trans; [|eauto]. econstructor 2; [constructor|eauto|auto].
          + intro E. apply reach_le in Hr'. pose proof (ch_lt _ _ _ Hi Hd). lia. }
      apply Hns. apply split_iff. destruct Hc as [->| ->], Hd as [->| ->]; try congruence; auto.
    Qed.

    Lemma seg_splits t i r j q : seg t (n + i) -> nth_error L i = Some r -> split r -> seg t (n + j) -> nth_error L j = Some q -> split q -> i = j.
    Proof.
      intros H1 Hi Hs1 H2 Hj Hs2. destruct (Nat.eq_dec i j) as [|Hne]; auto. exfalso.
      destruct (seg_chain _ _ H1 _ H2) as [H|H].
      - destruct (seg_between _ _ H2 (n + i) (seg_reach _ _ H1) H ltac:(lia)) as (k & s & E & Hk & Hn). assert (k = i) as -> by lia. congruence.
      - destruct (seg_between _ _ H1 (n + j) (seg_reach _ _ H2) H ltac:(lia)) as (k & s & E & Hk & Hn). assert (k = j) as -> by lia. congruence.
    Qed.
  End Size.
End Nodes.
