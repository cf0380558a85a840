(** Runs with different settings on one spanning tree. *)
From Coq Require Import List Arith Lia Bool Permutation Sorted ZArith.
From Verif Require Import Prelude Order Graph Size Num Forest S_Kruskal M_Linkage S_Linkage M_Condense S_Condense M_Select S_Select M_Labels S_Labels S_Epsilon M_Pipeline S_Pipeline
  P_CTree P_Below P_NodePath P_SameLinkage P_Unique P_Faithful P_Labels P_LabelsTop P_LabelsProps P_PipelineRun P_PipelineTop P_PipelineMeaning S_Simplify S_Level S_Unique S_Join P_Level P_Join S_Split P_Split P_SplitTop S_Resize.
Import ListNotations.
Local Open Scope nat_scope.

(** ** Sets made of dendrogram nodes *)
Section Solid.
  Context {W V : WOrd} {Sz : SOrd}.
  Variables (n : nat) (wt : nat -> Sz) (M : list (edge W)) (L : list (lrow W Sz)).
  Hypothesis HL : linkage_of n wt M L.
  Let HD : dendrogram n L := proj1 HL.

  (** Any two members lie below one node that has no other samples. *)
  Definition solid (P : nat -> Prop) : Prop :=
    forall x y, P x -> P y -> exists v, under n L v x /\ under n L v y /\ forall z, under n L v z -> P z.
  Lemma solid_nested P Q : (forall x, P x \/ ~ P x) -> (forall x, Q x \/ ~ Q x) -> (forall x, P x -> x < n) -> (forall x, Q x -> x < n) ->
    solid P -> solid Q -> nested_or_apart P Q.
  Proof.
    intros DP DQ BP BQ SP SQ.
    assert (HE : forall R1 R2 : nat -> Prop, (forall x, R1 x \/ ~ R1 x) -> (forall x, R2 x \/ ~ R2 x) -> (exists x, x < n /\ R1 x /\ R2 x) \/ (forall x, x < n -> R1 x -> R2 x -> False)).
    { intros R1 R2 D1 D2. clear -D1 D2. induction n as [|k IH]; [right; intros; lia|]. destruct IH as [(x & Hx & H)|IH]; [left; exists x; split; [lia|auto]|].
      destruct (D1 k) as [K1|K1]; [destruct (D2 k) as [K2|K2]|]; [left; eauto| |]; right; intros x Hx R1x R2x; (destruct (Nat.eq_dec x k) as [->|]; [contradiction|apply (IH x); auto; lia]). }
    assert (DN : forall R : nat -> Prop, (forall x, R x \/ ~ R x) -> forall x, ~ R x \/ ~ ~ R x) by (intros R D x; destruct (D x); tauto).
    destruct (HE P Q DP DQ) as [(x & Hx & Px & Qx)|K]; [|right; right; intros x Px Qx; exact (K x (BP x Px) Px Qx)].
    destruct (HE P (fun y => ~ Q y) DP (DN Q DQ)) as [(y & Hy & Py & NQ)|K].
    - destruct (HE Q (fun y => ~ P y) DQ (DN P DP)) as [(z & Hz & Qz & NP)|K].
      + exfalso. destruct (SP x y Px Py) as (v & V1 & V2 & V3). destruct (SQ x z Qx Qz) as (w & W1 & W2 & W3).
        destruct (dn_chain n L HD _ _ _ (under_dn _ _ _ _ V1) (under_dn _ _ _ _ W1)) as [H|H].
        * apply NP, V3. eapply dn_under_up; eauto.
        * apply NQ, W3. eapply dn_under_up; eauto.
      + right; left. intros z Qz. destruct (DP z) as [|NP]; auto. exfalso. exact (K z (BQ z Qz) Qz NP).
    - left. intros y Py. destruct (DQ y) as [|NQ]; auto. exfalso. exact (K y (BP y Py) Py NQ).
  Qed.
  Lemma solid_node v P : (forall x, P x <-> under n L v x) -> solid P.
  Proof. intros H x y Px Py. exists v. split; [now apply H|]. split; [now apply H|]. intro z. apply H. Qed.

  Section Tree.
    Variables (mcs : Sz) (lam : W -> V) (T : list (crow V Sz)).
    Hypothesis Hn : 2 <= n.
    Hypothesis Hlam : forall x y, wle x y = true -> wle (lam y) (lam x) = true.
    Hypothesis HT : condensed n wt mcs T.
    Hypothesis HF : faithful n L wt mcs None lam T.
    Lemma solid_cluster c : is_cluster n T c -> solid (below n T c).
    Proof. intro Hc. pose proof HF as (top & _ & Hbel & _). apply (solid_node (top c)). intro x. now apply Hbel. Qed.
    Lemma solid_dense (thr : V) : (forall q, In q T -> n <= c_child q -> c_parent q = n -> wle thr (c_lam q) = true) ->
      solid (fun x => exists q, In q T /\ c_child q = x /\ x < n /\ wle thr (c_lam q) = true).
    Proof.
      intros Hs x y (qx & Hqx & Ex & Hx & Lx) (qy & Hqy & Ey & Hy & Ly). pose proof HL as (_ & _ & HH & _). pose proof HF as (top & Htop & Hbel & Hsam & Hclu).
      assert (Hroot : is_cluster n T n) by (now left).
      assert (Hall : forall z, z < n -> below n T n z).
      { intros z Hz. apply Hbel; auto. rewrite Htop. apply dn_under; [|lia]. apply (root_dn n L HD); lia. }
      destruct (leave_together n L wt mcs lam T HD HF n x y (fun v => wle thr v = true) Hroot (Hall x Hx) (Hall y Hy)) as (j & r & Hr & Hlj & U1 & U2).
      - intros q Hq Ep [Ec|[Hcq _]]; auto. assert (q = qx) as -> by (eapply (row_eq n wt mcs T HT); eauto; congruence). auto.
      - intros q Hq Ep [Ec|[Hcq _]]; auto. assert (q = qy) as -> by (eapply (row_eq n wt mcs T HT); eauto; congruence). auto.
      - exists (n + j). split; auto. split; auto. intros z Uz. pose proof (under_lt n L _ z Uz) as Hz.
        destruct (sample_leaves n L wt mcs lam Hn T HT top Htop Hsam Hclu x Hx) as (q1 & i1 & r1 & v1 & H1 & H2 & _ & H3 & H4 & H5 & H6 & H7 & H8).
        destruct (sample_leaves n L wt mcs lam Hn T HT top Htop Hsam Hclu z Hz) as (q2 & i2 & r2 & v2 & G1 & G2 & _ & G3 & G4 & G5 & G6 & G7 & G8).
        assert (q1 = qx) as -> by (eapply (row_eq n wt mcs T HT); eauto; congruence).
        destruct (wle thr (c_lam q2)) eqn:Et; [eauto 6|]. exfalso.
        assert (Hji : j < i2).
        { destruct (le_lt_dec i2 j) as [Hle|]; auto. pose proof (heights_le L i2 j r2 r HH G4 Hr Hle) as Hh. apply Hlam in Hh. rewrite <- G5 in Hh.
          rewrite (wle_trans _ _ _ _ Hlj Hh) in Et. discriminate. }
        assert (KA : dn n L v2 (n + j)).
        { destruct (dn_chain n L HD _ _ _ (under_dn _ _ _ _ G8) (under_dn _ _ _ _ Uz)) as [|K']; auto.
          destruct (Nat.eq_dec (n + j) v2) as [E|Hne]; [rewrite E; constructor|].
          assert (K3 : dn n L (n + j) (n + i2)) by (eapply (dn_parent n L HD); eauto). apply (dn_le n L HD) in K3. lia. }
        assert (Ux : under n L v2 x) by (eapply dn_under_up; eauto).
        destruct (leaves_once n L wt mcs HD Hn i1 r1 v1 i2 r2 v2 x) as [<- _]; auto.
        assert (r2 = r1) as -> by congruence. congruence.
    Qed.
  End Tree.

  (** ** Two sizes *)
  Section Sizes.
    Variables (m m' : Sz) (lam : W -> V) (T T' : list (crow V Sz)).
    Hypothesis Hn : 2 <= n.
    Hypothesis Hnonneg : forall x, x < n -> sle szero (wt x) = true.
    Hypothesis Hm : sle m m' = true.
    Hypothesis HT : condensed n wt m T.
    Hypothesis HT' : condensed n wt m' T'.
    Hypothesis HF : faithful n L wt m None lam T.
    Hypothesis HF' : faithful n L wt m' None lam T'.

    Lemma larger v : large n L wt m' v -> large n L wt m v.
    Proof. intros (s & Hs & H). exists s. split; auto. eapply sle_trans; eauto. Qed.

    (** A merge of two nodes of size [k] starts clusters. *)
    Lemma side_cluster (k : Sz) (U : list (crow V Sz)) (HU : condensed n wt k U) top :
      top n = 2 * n - 2 ->
      (forall q, In q U -> c_child q < n ->
         exists i r v, segment n L wt k None (top (c_parent q)) (n + i) /\ nth_error L i = Some r /\
           c_lam q = lam (l_d r) /\ (v = l_a r \/ v = l_b r) /\ small n L wt k v /\ under n L v (c_child q)) ->
      (forall q, In q U -> n <= c_child q ->
         exists i r, segment n L wt k None (top (c_parent q)) (n + i) /\ nth_error L i = Some r /\ true_split n L wt k None r /\
           c_lam q = lam (l_d r) /\ (top (c_child q) = l_a r \/ top (c_child q) = l_b r) /\
           weight_of n L wt (top (c_child q)) (c_size q)) ->
      forall i r v, nth_error L i = Some r -> large n L wt k (l_a r) -> large n L wt k (l_b r) -> (v = l_a r \/ v = l_b r) ->
      exists q, In q (cluster_rows n U) /\ top (c_child q) = v.
    Proof.
      intros Htop Hsam Hclu i r v Hr Ha Hb Hv. pose proof (row_lt n L HD i r Hr) as Hi.
      assert (HS : start n L wt k v).
      { right. exists i, r. split; [|split; auto; split; [apply split_iff; auto|auto]]. apply (large_live n wt k M L HL Hn Hnonneg); [lia|].
        apply (large_up n wt k M L HL Hn Hnonneg _ (l_a r)); auto; [|lia]. eapply dn_step; eauto. constructor. }
      destruct (start_top n L wt k lam HD Hn U HU top Htop Hsam Hclu v HS) as (c & Hc & Et).
      assert (Hcn : c <> n) by (intros ->; pose proof (child_lt n L HD i r v Hr Hv); lia).
      destruct Hc as [|(Hge & q & Hq & Eq)]; [contradiction|]. exists q. split; [apply (in_ct n U); auto; lia|congruence].
    Qed.

    (** The two clusters of one split are the two sides of one merge. *)
    Lemma siblings_sides q1 q2 : In q1 (cluster_rows n T) -> In q2 (cluster_rows n T) -> c_parent q2 = c_parent q1 -> c_child q2 <> c_child q1 ->
      forall top, (forall c x, is_cluster n T c -> (below n T c x <-> under n L (top c) x)) ->
      (forall q, In q T -> n <= c_child q ->
         exists i r, segment n L wt m None (top (c_parent q)) (n + i) /\ nth_error L i = Some r /\ true_split n L wt m None r /\
           c_lam q = lam (l_d r) /\ (top (c_child q) = l_a r \/ top (c_child q) = l_b r) /\
           weight_of n L wt (top (c_child q)) (c_size q)) ->
      exists i r, nth_error L i = Some r /\ ((top (c_child q1) = l_a r /\ top (c_child q2) = l_b r) \/ (top (c_child q1) = l_b r /\ top (c_child q2) = l_a r)).
    Proof.
      intros H1 H2 Ep Hne top Hbel Hclu. pose proof (ct_in n T q1 H1) as I1. pose proof (ct_in n T q2 H2) as I2.
      pose proof (ct_child_in n wt m T HT q1 H1) as C1. pose proof (ct_child_in n wt m T HT q2 H2) as C2.
      destruct (Hclu q1 I1 ltac:(lia)) as (i & r & Sg1 & Hr1 & Sp1 & _ & V1 & _). destruct (Hclu q2 I2 ltac:(lia)) as (j & r' & Sg2 & Hr2 & Sp2 & _ & V2 & _).
      rewrite Ep in Sg2. pose proof (seg_split_last n L wt m HD _ _ _ _ Sg1 Hr1 Sp1 Sg2) as K1. pose proof (seg_split_last n L wt m HD _ _ _ _ Sg2 Hr2 Sp2 Sg1) as K2.
      assert (j = i) by lia. subst j. assert (r' = r) by congruence. subst r'. exists i, r. split; auto.
      assert (K : top (c_child q1) <> top (c_child q2)).
      { intro E. assert (HC1 : is_cluster n T (c_child q1)) by (right; split; [lia|eauto]). assert (HC2 : is_cluster n T (c_child q2)) by (right; split; [lia|eauto]).
        destruct (P_NodePath.has_sample n L HD (top (c_child q1))) as [x Hx]; [eapply (child_node n L HD); eauto|].
        pose proof (proj2 (Hbel _ x HC1) Hx) as B1. rewrite E in Hx. pose proof (proj2 (Hbel _ x HC2) Hx) as B2.
        destruct (below_nested n wt m T HT _ _ x B1 B2) as [K|K].
        - destruct (sub_up _ _ (ct_up n wt m T HT) (ct_bound n wt m T HT) _ _ K) as (p & Hp & Hps); [congruence|]. apply ch_in in Hp as (q & Hq & Eq & Ec).
          assert (q = q1) as -> by (eapply (ct_row_eq n wt m T HT); eauto). apply (sub_ge _ _ (ct_up n wt m T HT) (ct_bound n wt m T HT)) in Hps; pose proof (parent_lt_child n wt m T HT q1 H1); pose proof (parent_lt_child n wt m T HT q2 H2); lia.
        - destruct (sub_up _ _ (ct_up n wt m T HT) (ct_bound n wt m T HT) _ _ K) as (p & Hp & Hps); [congruence|]. apply ch_in in Hp as (q & Hq & Eq & Ec).
          assert (q = q2) as -> by (eapply (ct_row_eq n wt m T HT); eauto). apply (sub_ge _ _ (ct_up n wt m T HT) (ct_bound n wt m T HT)) in Hps; pose proof (parent_lt_child n wt m T HT q1 H1); pose proof (parent_lt_child n wt m T HT q2 H2); lia. }
      destruct V1 as [V1|V1], V2 as [V2|V2]; try congruence; [left|right]; auto.
    Qed.

    Lemma has_sibling (k : Sz) (U : list (crow V Sz)) r : condensed n wt k U -> In r (cluster_rows n U) -> exists q, In q (cluster_rows n U) /\ c_parent q = c_parent r /\ c_child q <> c_child r.
    Proof.
      intros HU Hr. destruct (even_length n wt k U HU) as [s Hs]. pose proof (ct_child_NoDup n wt k U HU) as HN. apply In_nth_error in Hr as [j0 Hk].
      assert (Hkl : j0 < length (cluster_rows n U)) by (apply nth_error_Some; congruence).
      assert (HP : forall j r q, nth_error (cluster_rows n U) (2 * j) = Some r -> nth_error (cluster_rows n U) (2 * j + 1) = Some q -> c_child q <> c_child r).
      { intros j a b Ha Hb E. rewrite NoDup_nth_error in HN.
        assert (2 * j = 2 * j + 1); [|lia]. apply HN; [rewrite map_length; apply nth_error_Some; congruence|]. rewrite !nth_error_map, Ha, Hb. cbn. congruence. }
      destruct (Nat.Even_or_Odd j0) as [[j ->]|[j ->]].
      - destruct (nth_error (cluster_rows n U) (2 * j + 1)) as [q|] eqn:E; [|apply nth_error_None in E; lia]. exists q. split; [eapply nth_error_In; eauto|].
        destruct (ct_pairs _ _ _ _ HU j r q Hk E) as [E' _]. split; auto. eapply HP; eauto.
      - destruct (nth_error (cluster_rows n U) (2 * j)) as [q|] eqn:E; [|apply nth_error_None in E; lia]. exists q. split; [eapply nth_error_In; eauto|].
        destruct (ct_pairs _ _ _ _ HU j q r E Hk) as [E' _]. split; auto. intro Ec. eapply HP; eauto.
    Qed.

    (** The clusters for the larger size. *)
    Theorem resized P : hierarchy_cluster n T' P <-> hierarchy_cluster_of_size n T m' P.
    Proof.
      pose proof HF as (top & Htop & Hbel & Hsam & Hclu). pose proof HF' as (top' & Htop' & Hbel' & Hsam' & Hclu').
      assert (HC : forall (k : Sz) (U : list (crow V Sz)) q, condensed n wt k U -> In q (cluster_rows n U) -> is_cluster n U (c_child q)).
      { intros k U q HU Hq. pose proof (ct_child_in n wt k U HU q Hq). right. split; [lia|]. exists q. split; auto. now apply (ct_in n U). }
      split.
      - intros (q' & Hq' & HP). pose proof (ct_child_in n wt m' T' HT' q' Hq'). destruct (Hclu' q' (ct_in n T' q' Hq') ltac:(lia)) as (i & r & _ & Hr & Sp & _ & Hv & _).
        apply split_iff in Sp as [La Lb].
        destruct (side_cluster m T HT top Htop Hsam Hclu i r _ Hr (larger _ La) (larger _ Lb) Hv) as (q1 & H1 & E1).
        destruct (has_sibling m T q1 HT H1) as (q2 & H2 & Ep & Hne). destruct (siblings_sides q1 q2 H1 H2 Ep Hne top Hbel Hclu) as (j & r2 & Hr2 & Hs).
        assert (j = i) by (eapply (parent_unique n L HD j i r2 r (top (c_child q1))); eauto; [tauto|rewrite E1; auto]). subst j. assert (r2 = r) by congruence. subst r2.
        assert (Lv : large n L wt m' (top (c_child q1))) by (destruct Hs as [[-> _]|[-> _]]; auto). assert (Lw : large n L wt m' (top (c_child q2))) by (destruct Hs as [[_ ->]|[_ ->]]; auto).
        pose proof (ct_child_in n wt m T HT q1 H1). pose proof (ct_child_in n wt m T HT q2 H2).
        destruct (Hclu q1 (ct_in n T q1 H1) ltac:(lia)) as (_ & _ & _ & _ & _ & _ & _ & W1). destruct (Hclu q2 (ct_in n T q2 H2) ltac:(lia)) as (_ & _ & _ & _ & _ & _ & _ & W2).
        destruct Lv as (s1 & S1 & M1). destruct Lw as (s2 & S2 & M2).
        assert (s1 = c_size q1) by (eapply weight_unique; eauto). assert (s2 = c_size q2) by (eapply weight_unique; eauto). subst s1 s2.
        exists q1, q2. split; auto. split; auto. split; auto. split; auto. split; auto. split; auto. intro x. rewrite <- HP, (Hbel _ x (HC m T q1 HT H1)), (Hbel' _ x (HC m' T' q' HT' Hq')). now rewrite E1.
      - intros (q1 & q2 & H1 & H2 & Ep & Hne & M1 & M2 & HP). destruct (siblings_sides q1 q2 H1 H2 Ep Hne top Hbel Hclu) as (i & r & Hr & Hv).
        pose proof (ct_child_in n wt m T HT q1 H1). pose proof (ct_child_in n wt m T HT q2 H2).
        destruct (Hclu q1 (ct_in n T q1 H1) ltac:(lia)) as (_ & _ & _ & _ & _ & _ & _ & W1). destruct (Hclu q2 (ct_in n T q2 H2) ltac:(lia)) as (_ & _ & _ & _ & _ & _ & _ & W2).
        assert (L1 : large n L wt m' (top (c_child q1))) by (exists (c_size q1); auto). assert (L2 : large n L wt m' (top (c_child q2))) by (exists (c_size q2); auto).
        assert (K : exists q, In q (cluster_rows n T') /\ top' (c_child q) = top (c_child q1)).
        { destruct Hv as [[E1 E2]|[E1 E2]]; rewrite E1 in L1; rewrite E2 in L2; rewrite E1; eapply (side_cluster m' T' HT' top' Htop' Hsam' Hclu'); eauto. }
        destruct K as (q & Hq & Eq). exists q. split; auto. intro x. rewrite <- HP, (Hbel _ x (HC m T q1 HT H1)), (Hbel' _ x (HC m' T' q HT' Hq)). now rewrite Eq.
    Qed.
  End Sizes.
End Solid.

(** ** Reported clusters *)
Lemma label_decided n ls x y : cluster_of n ls x y \/ ~ cluster_of n ls x y.
Proof. unfold cluster_of. destruct (lt_dec y n); [|tauto]. destruct (Z.eq_dec (nth y ls 0%Z) (nth x ls 0%Z)); tauto. Qed.

Section Explained.
  Context {W V : WOrd} {Sz : SOrd}.
  Variables (lam : W -> V) (LA : LamArith V) (st : settings V Sz) (n : nat) (wt : nat -> Sz) (M : list (edge W)) (ls : list Z) (ps : list V)
    (T : list (crow V Sz)) (L : list (lrow W Sz)) (T0 : list (crow V Sz)) (chosen final : list nat).
  Hypothesis HX : explained lam LA st n wt M ls ps T L T0 chosen final.
  Hypothesis Hn : 2 <= n.
  Hypothesis Hlam : forall x y, wle x y = true -> wle (lam y) (lam x) = true.
  Hypothesis Hpos : forall e, In e M -> wlt (la_zero LA) (lam (ewt e)) = true.
  Hypothesis Hus : usable (la_zero LA) st.
  Hypothesis Hroot : one_root st.
  Notation mcs := (min_cluster_size st).
  Notation label x := (nth x ls 0%Z).

  Lemma reported_solid x0 : x0 < n -> label x0 <> (-1)%Z -> solid n L (cluster_of n ls x0).
  Proof.
    intros Hx Hl. pose proof (xp_linkage _ _ _ _ _ _ _ _ _ _ _ _ _ HX) as HL. pose proof (xp_faithful _ _ _ _ _ _ _ _ _ _ _ _ _ HX) as HF.
    assert (HE : forall P, (forall x, P x <-> cluster_of n ls x0 x) -> solid n L P -> solid n L (cluster_of n ls x0)).
    { intros P HP HS x y Hx1 Hy1. destruct (HS x y) as (v & V1 & V2 & V3); [now apply HP|now apply HP|]. exists v. split; auto. split; auto. intros z Hz. apply HP. auto. }
    destruct (cluster_shape lam LA st n wt M ls ps T L T0 chosen final HX Hn Hlam Hpos Hus Hroot x0 Hx Hl) as [(t & Ht & Hne & Hbx)|(ET & thr & Hs & _ & Hbx)].
    - apply (HE _ Hbx). destruct (xp_disjoint _ _ _ _ _ _ _ _ _ _ _ _ _ HX) as (_ & HC & _). specialize (HC t Ht).
      pose proof (xp_persistence _ _ _ _ _ _ _ _ _ _ _ _ _ HX) as HP. destruct (cluster_selection_persistence st) as [p|].
      + destruct HP as (new & Hnew & _ & Hcl & Hbel & _). destruct (proj1 (Hcl t) HC) as (c & Hk & Et). destruct Hk as [Hk|Hk]; [congruence|].
        destruct Hk as (K1 & K2 & K3). pose proof (solid_cluster n wt L mcs lam T0 HF c K1) as HS.
        intros x y Hx1 Hy1. rewrite <- Et in Hx1, Hy1. destruct (HS x y) as (v & V1 & V2 & V3); [apply Hbel; [right; split; auto|auto]|apply Hbel; [right; split; auto|auto]|].
        exists v. split; auto. split; auto. intros z Hz. rewrite <- Et. apply Hbel; [right; split; auto|auto].
      + rewrite HP in *. apply (solid_cluster n wt L mcs lam T0 HF t). auto.
    - apply (HE _ Hbx). rewrite ET in *. apply (solid_dense n wt M L HL mcs lam T0 Hn Hlam (xp_condensed _ _ _ _ _ _ _ _ _ _ _ _ _ HX) HF thr Hs).
  Qed.
End Explained.

Lemma explained_never_cross {W V : WOrd} {Sz : SOrd} (lam : W -> V) (LA : LamArith V) (st st' : settings V Sz) n wt (M : list (edge W)) L
    ls ps T T0 ch fin ls' ps' T' T0' ch' fin' :
  explained lam LA st n wt M ls ps T L T0 ch fin -> explained lam LA st' n wt M ls' ps' T' L T0' ch' fin' -> 2 <= n ->
  (forall x y, wle x y = true -> wle (lam y) (lam x) = true) -> (forall e, In e M -> wlt (la_zero LA) (lam (ewt e)) = true) ->
  usable (la_zero LA) st -> usable (la_zero LA) st' -> one_root st -> one_root st' -> never_cross n ls ls'.
Proof.
  intros HX HX' Hn Hlam Hpos Hu Hu' Hr Hr' x y Hx Hy Lx Ly. apply (solid_nested n wt M L (xp_linkage _ _ _ _ _ _ _ _ _ _ _ _ _ HX)).
  - apply label_decided.
  - apply label_decided.
  - now intros z [Hz _].
  - now intros z [Hz _].
  - eapply reported_solid; eauto.
  - eapply reported_solid; eauto.
Qed.

Section Resized.
  Context {W V : WOrd} {Sz : SOrd}.
  Variables (lam : W -> V) (LA : LamArith V) (st st' : settings V Sz) (n : nat) (wt : nat -> Sz) (M : list (edge W)) (L : list (lrow W Sz))
    (ls ls' : list Z) (ps ps' : list V) (T T0 T' T0' : list (crow V Sz)) (ch fin ch' fin' : list nat).
  Hypothesis HX : explained lam LA st n wt M ls ps T L T0 ch fin.
  Hypothesis HX' : explained lam LA st' n wt M ls' ps' T' L T0' ch' fin'.
  Hypothesis Hn : 2 <= n.
  Hypothesis Hnonneg : forall x, x < n -> sle szero (wt x) = true.
  Hypothesis Hm : sle (min_cluster_size st) (min_cluster_size st') = true.
  Hypothesis Hper : cluster_selection_persistence st = None.
  Hypothesis Hper' : cluster_selection_persistence st' = None.
  Let HL := xp_linkage _ _ _ _ _ _ _ _ _ _ _ _ _ HX.
  Let HT : condensed n wt (min_cluster_size st) T := proj1 (xp_tree _ _ _ _ _ _ _ _ _ _ _ _ _ HX).
  Let HT' : condensed n wt (min_cluster_size st') T' := proj1 (xp_tree _ _ _ _ _ _ _ _ _ _ _ _ _ HX').

  Lemma faithful_here : faithful n L wt (min_cluster_size st) None lam T.
  Proof. rewrite (same_tree lam LA st n wt M ls ps T L T0 ch fin HX Hper). apply (xp_faithful _ _ _ _ _ _ _ _ _ _ _ _ _ HX). Qed.
  Lemma faithful_there : faithful n L wt (min_cluster_size st') None lam T'.
  Proof. rewrite (same_tree lam LA st' n wt M ls' ps' T' L T0' ch' fin' HX' Hper'). apply (xp_faithful _ _ _ _ _ _ _ _ _ _ _ _ _ HX'). Qed.

  Lemma explained_resized P : hierarchy_cluster n T' P <-> hierarchy_cluster_of_size n T (min_cluster_size st') P.
  Proof. apply (resized n wt M L HL (min_cluster_size st) (min_cluster_size st') lam T T' Hn Hnonneg Hm HT HT' faithful_here faithful_there). Qed.
End Resized.

(** Containment bounds the number of clusters. *)
Lemma containment_count n ls ls' : length ls = n -> length ls' = n -> contains_cluster n ls ls' -> cluster_count ls' <= cluster_count ls.
Proof.
  intros E E' HC. unfold cluster_count. set (D := nodup Z.eq_dec (filter (fun l => negb (l =? -1)%Z) ls)). set (D' := nodup Z.eq_dec (filter (fun l => negb (l =? -1)%Z) ls')).
  assert (HD : forall ls0 l, In l (nodup Z.eq_dec (filter (fun l => negb (l =? -1)%Z) ls0)) <-> l <> (-1)%Z /\ exists x, x < length ls0 /\ nth x ls0 0%Z = l).
  { intros ls0 l. rewrite nodup_In, filter_In, negb_true_iff, Z.eqb_neq. split.
    - intros [Hl Hn]. split; auto. apply (In_nth _ _ 0%Z) in Hl as (x & Hx & Ex). eauto.
    - intros [Hn (x & Hx & <-)]. split; auto. apply nth_In. auto. }
  assert (HG : forall k, NoDup k -> (forall l, In l k -> In l D') -> exists k0, NoDup k0 /\ (forall l, In l k0 -> In l D) /\ length k0 = length k /\
    (forall l0, In l0 k0 -> exists l, In l k /\ forall z, z < n -> nth z ls 0%Z = l0 -> nth z ls' 0%Z = l)).
  { induction k as [|l k IH]; intros N HI; [exists []; split; [constructor|split; [intros ? []|split; [auto|intros ? []]]]|].
    inversion_clear N. destruct IH as (k0 & N0 & I0 & L0 & M0); auto; [intros; apply HI; now right|].
    destruct (proj1 (HD ls' l) (HI l ltac:(now left))) as (Hl & y & Hy & Ey). rewrite E' in Hy. destruct (HC y Hy ltac:(congruence)) as (x & Hx & Lx & Hz).
    assert (Hmap : forall z, z < n -> nth z ls 0%Z = nth x ls 0%Z -> nth z ls' 0%Z = l) by (intros z Hzn Ez; destruct (Hz z) as [_ K]; [split; auto|congruence]).
    exists (nth x ls 0%Z :: k0). split; [|split; [|split; [cbn; lia|]]].
    - constructor; auto. intro K. destruct (M0 _ K) as (l1 & H1 & H2). pose proof (H2 x Hx eq_refl). pose proof (Hmap x Hx eq_refl). congruence.
    - intros l0 [<-|Hl0]; auto. apply HD. split; auto. exists x. split; auto. lia.
    - intros l0 [<-|Hl0]; [exists l; split; [now left|auto]|]. destruct (M0 l0 Hl0) as (l1 & H1 & H2). exists l1. split; [now right|auto]. }
  destruct (HG D' (NoDup_nodup _ _) ltac:(auto)) as (k0 & N0 & I0 & <- & _). apply NoDup_incl_length; auto.
Qed.
