(** The clusters alive at one minimum size. *)
From Coq Require Import List Arith Lia Bool ZArith QArith Sorted Permutation.
From Verif Require Import Prelude Order Size Forest M_Linkage S_Linkage M_Condense S_Condense M_Select S_Select P_CTree P_SelectTop M_Labels S_Labels P_Labels P_LabelsTop P_LabelsProps
  M_Layers S_Layers P_Barcode.
Import ListNotations.
Local Open Scope nat_scope.

Lemma two_in {A} (l : list A) a b : In a l -> In b l -> a <> b -> 2 <= length l.
Proof. intros Ha Hb Hne. destruct l as [|x [|y l]]; [destruct Ha| |cbn; lia]. destruct Ha as [->|[]], Hb as [->|[]]. congruence. Qed.

Section Alive.
  Context {V : WOrd} {D : Type}.
  Variables (n : nat) (wt : nat -> NatSize) (mcs : NatSize) (T : list (crow V NatSize)).
  Hypothesis HT : condensed (Sz := NatSize) n wt mcs T.
  Hypothesis HS : splits_once n T.
  Variables (death_of : V -> D) (zero : D) (min_size : nat) (b : barcode D).
  Hypothesis HB : right_barcode n T death_of zero min_size b.
  Notation CT := (cluster_rows n T).
  Notation birth c := (b_births b (c - n)).
  Notation at_below c d := ((d : nat) = (c : nat) \/ descends n T c d) (only parsing).

  Lemma made_cluster c m : made_at n T c m -> is_cluster n T c /\ n < c.
  Proof.
    intros (r & q & Hs & Hc & _). apply split_pair in Hs as (j & Hp). destruct (pair_facts n wt mcs T HT _ _ _ Hp) as (C1 & C2 & _ & _ & _ & I1 & I2).
    destruct Hc as [->| ->]; (split; [right; split; [lia|]|lia]); eexists; (split; [|reflexivity]); eapply ct_in; eauto.
  Qed.
  Lemma cluster_made c : is_cluster n T c -> c = n \/ exists m, made_at n T c m.
  Proof.
    intros [->|(Hc & r & Hr & E)]; [now left|]. right. destruct (row_pair n wt mcs T HT r) as (j & r1 & q1 & Hp & Hor).
    { apply in_ct; auto. lia. }
    exists (Nat.min (c_size r1) (c_size q1)), r1, q1. split; [apply split_pair; eauto|]. split; auto. destruct Hor as [->| ->]; auto.
  Qed.

  Lemma birth_le_iff s c : is_cluster n T c -> min_size <= s ->
    (birth c <= s <-> forall d m, at_below c d -> splits_at n T d m -> m <= s).
  Proof.
    intros Hc Hs. destruct (rb_births _ _ _ _ _ _ HB c Hc) as (B1 & B2 & B3). split.
    - intros H d m Hd Hm. specialize (B2 d m Hd Hm). lia.
    - intro H. destruct B3 as [B3|(d & m & H1 & H2 & H3)]; [lia|]. specialize (H d m H1 H2). lia.
  Qed.

  Lemma death_iff s c : is_cluster n T c -> (s < b_deaths b (c - n) <-> (c = n /\ s < n) \/ exists m, made_at n T c m /\ s < m).
  Proof.
    intro Hc. destruct (cluster_made c Hc) as [->|(m & Hm)].
    - rewrite Nat.sub_diag, (proj1 (rb_root _ _ _ _ _ _ HB)). split; [auto|]. intros [[_ H]|(m & H & _)]; auto. apply made_cluster in H as [_ H]. lia.
    - rewrite (rb_deaths _ _ _ _ _ _ HB c m Hm). split; [eauto|]. intros [[-> _]|(m' & H1 & H2)].
      + apply made_cluster in Hm as [_ H]. lia.
      + rewrite <- (rb_deaths _ _ _ _ _ _ HB c m Hm), (rb_deaths _ _ _ _ _ _ HB c m' H1). auto.
  Qed.

  (** Alive at [s]: exactly the leaf clusters for minimum size [s] + 1. *)
  Lemma alive_iff s : min_size <= s -> forall c, In c (map (fun i => i + n) (alive b s)) <-> is_cluster n T c /\ leaf_for n T s c.
  Proof.
    intros Hs c. rewrite in_map_iff. unfold alive. split.
    - intros (i & <- & Hi). apply filter_In in Hi as [Hi Hb]. apply in_seq in Hi. rewrite (rb_nodes _ _ _ _ _ _ HB) in Hi.
      apply andb_true_iff in Hb as [H1 H2]. apply Nat.leb_le in H1. apply Nat.ltb_lt in H2.
      assert (Hc : is_cluster n T (i + n)) by (apply (is_cluster_iff n wt mcs T HT); unfold top_id; lia).
      split; auto. replace i with (i + n - n) in H1, H2 by lia. split; [now apply death_iff|]. now apply birth_le_iff.
    - intros [Hc [Hl1 Hl2]]. apply death_iff in Hl1; auto. apply birth_le_iff in Hl2; auto.
      pose proof (proj1 (is_cluster_iff n wt mcs T HT c) Hc) as Hr. unfold top_id in Hr.
      exists (c - n). split; [lia|]. apply filter_In. split; [apply in_seq; rewrite (rb_nodes _ _ _ _ _ _ HB); lia|].
      apply andb_true_iff. split; [now apply Nat.leb_le|now apply Nat.ltb_lt].
  Qed.

  (** A cluster made at a larger size contains a leaf. *)
  Lemma leaf_exists s : min_size <= s -> forall k c, top_id n T <= c + k -> is_cluster n T c ->
    (c = n /\ s < n) \/ (exists m, made_at n T c m /\ s < m) ->
    exists d, at_below c d /\ is_cluster n T d /\ leaf_for n T s d.
  Proof.
    intro Hs. induction k as [|k IH]; intros c Hk Hc Hm; pose proof (proj1 (is_cluster_iff n wt mcs T HT c) Hc) as Hr; [lia|].
    destruct (le_lt_dec (birth c) s) as [Hle|Hlt].
    - exists c. split; auto. split; auto. split; auto. now apply birth_le_iff.
    - destruct (rb_births _ _ _ _ _ _ HB c Hc) as (B1 & B2 & [B3|(d & m & H1 & H2 & H3)]); [lia|].
      destruct H2 as (r & q & Hsp & Hpa & Em). pose proof Hsp as Hsp'. apply split_pair in Hsp as (j & Hp). destruct (pair_facts n wt mcs T HT _ _ _ Hp) as (C1 & C2 & P1 & P2 & P3 & I1 & I2).
      assert (Hmr : made_at n T (c_child r) m) by (exists r, q; auto).
      assert (Hdr : descends n T d (c_child r)) by (rewrite <- Hpa; constructor; [eapply ct_in; eauto|lia]).
      assert (Hcr : descends n T c (c_child r)) by (destruct H1 as [->|H1]; [auto|econstructor 2; eauto]).
      destruct (desc_bounds n wt mcs T HT _ _ Hcr) as [Hb Hcc].
      destruct (IH (c_child r)) as (e & He & Hec & Hel); [lia|auto|right; exists m; split; auto; lia|].
      exists e. split; auto. right. destruct He as [->|He]; auto. econstructor 2; eauto.
  Qed.

  Lemma leaf_disjoint s c d : leaf_for n T s c -> leaf_for n T s d -> ~ descends n T c d.
  Proof.
    intros [_ H1] [H2 _] Hd. destruct H2 as [[-> _]|(m & Hm & Hlt)].
    - destruct (desc_bounds n wt mcs T HT _ _ Hd) as [H _]. lia.
    - destruct Hm as (r & q & Hsp & Hc & Em).
      assert (Hspl : splits_at n T (c_parent r) m) by (exists r, q; auto).
      apply split_pair in Hsp as (j & Hp). destruct (pair_facts n wt mcs T HT _ _ _ Hp) as (C1 & C2 & P1 & P2 & P3 & I1 & I2).
      assert (Hup : at_below c (c_parent r)).
      { destruct (descends_sub n wt mcs T HT c d) as [Hds _]. destruct (Hds Hd) as [Hin Hne].
        destruct (sub_up (children_of CT) (top_id n T) (ct_up n wt mcs T HT) (ct_bound n wt mcs T HT) c d Hin Hne) as (p & Hp1 & Hp2).
        apply ch_in in Hp1 as (r0 & Hr0 & <- & E0).
        assert (E : c_parent r0 = c_parent r).
        { destruct Hc as [->| ->]; [f_equal|rewrite P1; f_equal]; apply (ct_row_eq n wt mcs T HT); auto. }
        rewrite E in Hp2. destruct (Nat.eq_dec (c_parent r) c) as [|Hne']; auto. right. apply (descends_sub n wt mcs T HT). split; auto. }
      specialize (H1 _ _ Hup Hspl). lia.
  Qed.

  Lemma alive_disjoint s : min_size <= s -> disjoint_clusters n T (map (fun i => i + n) (alive b s)).
  Proof. intros Hs c d Hc Hd. apply alive_iff in Hc as [_ Hc]; auto. apply alive_iff in Hd as [_ Hd]; auto. now apply (leaf_disjoint s). Qed.

  Lemma alive_NoDup s : NoDup (map (fun i => i + n) (alive b s)).
  Proof. apply FinFun.Injective_map_NoDup; [intros x y H; lia|]. apply NoDup_filter, seq_NoDup. Qed.

  Lemma two_leaves s : min_size <= s -> forall d m, splits_at n T d m -> s < m -> 2 <= length (alive b s).
  Proof.
    intros Hs d m (r & q & Hsp & Hpa & Em) Hlt.
    assert (Hmr : made_at n T (c_child r) m) by (exists r, q; auto). assert (Hmq : made_at n T (c_child q) m) by (exists r, q; auto).
    apply split_pair in Hsp as (j & Hp). destruct (pair_facts n wt mcs T HT _ _ _ Hp) as (C1 & C2 & P1 & P2 & P3 & I1 & I2).
    destruct (made_cluster _ _ Hmr) as [Kr _]. destruct (made_cluster _ _ Hmq) as [Kq _].
    destruct (leaf_exists s Hs (top_id n T) (c_child r)) as (e & He & Hec & Hel); [lia|auto|right; eauto|].
    destruct (leaf_exists s Hs (top_id n T) (c_child q)) as (f & Hf & Hfc & Hfl); [lia|auto|right; eauto|].
    assert (Hin : forall v u, at_below v u -> In u (sub (children_of CT) (top_id n T) v)).
    { intros v u [->|H]; [apply (sub_self _ _ (ct_up n wt mcs T HT) (ct_bound n wt mcs T HT))|]. now apply (descends_sub n wt mcs T HT) in H. }
    assert (Hne : e <> f).
    { intros ->. assert (c_child r = c_child q); [|lia].
      apply (sub_siblings (children_of CT) (top_id n T) (ct_up n wt mcs T HT) (ct_bound n wt mcs T HT) (ct_one n wt mcs T HT) (c_parent q) _ _ f).
      - apply ch_in. exists r. auto.
      - apply ch_in. exists q. auto.
      - auto.
      - auto. }
    rewrite <- (map_length (fun i => i + n)). apply (two_in _ e f); auto; apply alive_iff; auto.
  Qed.

  (** The root alone, or at least two other clusters. *)
  Lemma alive_cases s : min_size <= s < n -> alive b s = [0] \/ (~ In 0 (alive b s) /\ 2 <= length (alive b s)).
  Proof.
    intro Hs. assert (Hroot : is_cluster n T n) by now left.
    destruct (le_lt_dec (birth n) s) as [Hle|Hlt].
    - left. assert (H0 : In n (map (fun i => i + n) (alive b s))) by (apply alive_iff; [lia|]; split; auto; split; [left; lia|apply birth_le_iff; auto; lia]).
      assert (Hall : forall i, In i (alive b s) -> i = 0).
      { intros i Hi. destruct (Nat.eq_dec i 0) as [|Hne]; auto. exfalso.
        assert (Hi' : In (i + n) (map (fun i => i + n) (alive b s))) by (apply in_map_iff; eauto).
        pose proof (proj1 (alive_iff s (proj1 Hs) _) Hi') as [Hc _].
        assert (Hd : descends n T n (i + n)).
        { apply (descends_sub n wt mcs T HT). split; [|lia]. apply (sub_root n wt mcs T HT). now apply (is_cluster_iff n wt mcs T HT). }
        now apply (alive_disjoint s (proj1 Hs) n (i + n) H0 Hi'). }
      apply in_map_iff in H0 as (i0 & _ & Hi0). assert (HN : NoDup (alive b s)) by (apply NoDup_filter, seq_NoDup).
      destruct (alive b s) as [|x [|y l]]; [destruct Hi0| |].
      + now rewrite (Hall x (or_introl eq_refl)).
      + exfalso. apply NoDup_cons_iff in HN as [HN _]. apply HN. left. rewrite (Hall x), (Hall y); auto; [right; now left|now left].
    - right. destruct (rb_births _ _ _ _ _ _ HB n Hroot) as (B1 & B2 & [B3|(d & m & H1 & H2 & H3)]); [lia|]. split; [|eapply two_leaves; eauto; lia].
      intro H0. assert (Hi : In n (map (fun i => i + n) (alive b s))) by (apply in_map_iff; exists 0; auto).
      apply alive_iff in Hi as [_ [_ Hl]]; [|lia]. specialize (Hl d m H1 H2). lia.
  Qed.

  (** No sample lies in two of them. *)
  Lemma alive_samples s : 0 < n -> min_size <= s -> forall c d x, In c (map (fun i => i + n) (alive b s)) -> In d (map (fun i => i + n) (alive b s)) ->
    below n T c x -> below n T d x -> c = d.
  Proof.
    intros Hn Hs c d x Hc Hd Hbc Hbd. set (S := map (fun i => i + n) (alive b s)).
    assert (HC : forall s, In s S -> is_cluster n T s) by (intros e He; apply alive_iff in He; tauto).
    pose proof (condensed_ordered _ _ _ _ HT) as HO.
    assert (H1 : home n S T x c) by (eapply disjoint_home; eauto; now apply alive_disjoint).
    assert (H2 : home n S T x d) by (eapply disjoint_home; eauto; now apply alive_disjoint).
    eapply home_det; eauto.
    intros e He. destruct (HC e He) as [->|[H _]]; lia.
  Qed.
End Alive.
