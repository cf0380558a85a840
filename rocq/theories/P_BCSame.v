(** Semi-supervised selection: runs without labels; a rule that is not kept. *)
From Coq Require Import List Arith Lia Bool ZArith QArith Qcanon Permutation Sorted.
From Verif Require Import Prelude Order Size Num Forest M_Linkage M_Condense S_Condense M_Select S_Select M_Pipeline S_BCubed M_BCubed
  P_CTree P_Below P_Eom P_EomTop P_SelectTop P_BCScore P_BCFinal.
Import ListNotations.
Local Open Scope nat_scope.

Section Unique.
  Variables (n : nat) (mcs : NatSize) (T : list (crow QInf NatSize)) (single : bool) (v : nat -> Qc).
  Hypothesis HT : condensed (Sz := NatSize) n (fun _ => 1) mcs T.
  Notation adm := (admissible n T None single).
  Notation desc := (descends n T).

  Record best (R : list nat) : Prop := {
    bt_nodup : NoDup R;
    bt_adm : forall c, In c R -> adm c;
    bt_disj : disjoint_clusters n T R;
    bt_opt : forall Y, NoDup Y -> (forall c, In c Y -> adm c) -> disjoint_clusters n T Y -> (qsum (map v Y) <= qsum (map v R))%Qc;
    bt_tie : forall c s, adm c -> In s R -> desc c s ->
      exists D, NoDup D /\ (forall x, In x D <-> In x R /\ desc c x) /\ (v c < qsum (map v D))%Qc;
    bt_cover : forall l, leaf_cluster n T l -> exists s, In s R /\ (s = l \/ desc s l)
  }.

  Lemma desc_chain a b l : (a = l \/ desc a l) -> (b = l \/ desc b l) -> a = b \/ desc a b \/ desc b a.
  Proof.
    intros H1 H2. pose proof (ct_up _ _ _ _ HT) as Hup. pose proof (ct_bound _ _ _ _ HT) as Hbd. pose proof (ct_one _ _ _ _ HT) as H1'.
    destruct (Nat.eq_dec a b) as [|Hne]; auto. right.
    assert (Ha : In l (sub (children_of (cluster_rows n T)) (top_id n T) a)).
    { destruct H1 as [->|H1]; [now apply sub_self|]. now apply (descends_sub _ _ _ _ HT). }
    assert (Hb : In l (sub (children_of (cluster_rows n T)) (top_id n T) b)).
    { destruct H2 as [->|H2]; [now apply sub_self|]. now apply (descends_sub _ _ _ _ HT). }
    destruct (sub_chain _ _ Hup Hbd H1' l a b Ha Hb) as [H|H]; [right|left]; apply (descends_sub _ _ _ _ HT); auto.
  Qed.

  Lemma exchange R a D : best R -> In a R -> NoDup D -> (forall d, In d D -> adm d /\ desc a d) -> disjoint_clusters n T D ->
    (qsum (map v D) <= v a)%Qc.
  Proof.
    intros HR Ha HDN HD HDd. destruct (in_split a R Ha) as (R1 & R2 & E). pose proof (bt_nodup _ HR) as HN. pose proof (bt_disj _ HR) as Hdis.
    pose proof (bt_adm _ HR) as Hadm.
    assert (Hin : forall x, In x (R1 ++ R2) -> In x R /\ x <> a).
    { intros x Hx. split; [rewrite E; apply in_app_iff; apply in_app_iff in Hx; simpl; tauto|]. intros ->. rewrite E in HN. now apply NoDup_remove_2 in HN. }
    assert (H := bt_opt _ HR (D ++ R1 ++ R2)).
    assert (Esum : qsum (map v R) = (v a + qsum (map v (R1 ++ R2)))%Qc).
    { rewrite (qsum_perm _ (map v (a :: R1 ++ R2))); [reflexivity|]. apply Permutation_map. rewrite E. symmetry. apply Permutation_middle. }
    rewrite map_app, qsum_app, Esum in H.
    assert (H' : (qsum (map v D) + qsum (map v (R1 ++ R2)) <= v a + qsum (map v (R1 ++ R2)))%Qc).
    { apply H.
      - apply NoDup_app_intro'; auto.
        + rewrite E in HN. now apply NoDup_remove_1 in HN.
        + intros x H1 H2. apply Hin in H2 as [H2 _]. destruct (HD x H1) as [_ H3]. apply (Hdis a x); auto.
      - intros c Hc. apply in_app_or in Hc as [Hc|Hc]; [now apply HD|]. apply Hadm. now apply Hin.
      - intros c d Hc Hd Hcd. apply in_app_or in Hc as [Hc|Hc]; apply in_app_or in Hd as [Hd|Hd].
        + now apply (HDd c d).
        + apply Hin in Hd as [Hd _]. destruct (HD c Hc) as [_ H3]. apply (Hdis a d); auto. eapply desc_trans; eauto.
        + apply Hin in Hc as [Hc Hca]. destruct (HD d Hd) as [_ H3].
          destruct (desc_chain a c d (or_intror H3) (or_intror Hcd)) as [->|[K|K]]; [congruence|apply (Hdis a c); auto|apply (Hdis c a); auto].
        + apply Hin in Hc as [Hc _]. apply Hin in Hd as [Hd _]. now apply (Hdis c d). }
    apply (Qcplus_le_compat _ _ (- qsum (map v (R1 ++ R2))) (- qsum (map v (R1 ++ R2)))) in H'; [|apply Qcle_refl].
    replace (qsum (map v D)) with (qsum (map v D) + qsum (map v (R1 ++ R2)) + - qsum (map v (R1 ++ R2)))%Qc by ring.
    replace (v a) with (v a + qsum (map v (R1 ++ R2)) + - qsum (map v (R1 ++ R2)))%Qc by ring. auto.
  Qed.

  Lemma split_worse R R' a s : best R -> best R' -> In a R -> In s R' -> desc a s -> False.
  Proof.
    intros HR HR' Ha Hs Hd. destruct (bt_tie _ HR' a s (bt_adm _ HR a Ha) Hs Hd) as (D & H1 & H2 & H3).
    apply (Qclt_not_le _ _ H3). apply (exchange R); auto.
    - intros d Hd'. apply H2 in Hd' as [Hd1 Hd2]. split; auto. now apply (bt_adm _ HR').
    - intros c d Hc Hd'. apply H2 in Hc as [Hc _]. apply H2 in Hd' as [Hd' _]. now apply (bt_disj _ HR').
  Qed.

  Lemma best_incl R R' c : best R -> best R' -> In c R -> In c R'.
  Proof.
    intros HR HR' Hc. destruct (leaf_below n _ mcs T HT c (proj1 (bt_adm _ HR c Hc))) as (l & Hl & Hcl).
    destruct (bt_cover _ HR' l Hl) as (s & Hs & Hsl).
    destruct (desc_chain c s l) as [->|[H|H]]; auto.
    - destruct Hcl; auto.
    - exfalso. now apply (split_worse R R' c s).
    - exfalso. now apply (split_worse R' R s c).
  Qed.
  Lemma best_unique R R' c : best R -> best R' -> (In c R <-> In c R').
  Proof. split; eapply best_incl; eauto. Qed.
End Unique.

Section Unlabelled.
  Variables (n : nat) (mcs : NatSize) (T : list (crow QInf NatSize)) (labels : list Z) (listed : list nat -> list nat) (virtual single : bool).
  Hypothesis HT : condensed (Sz := NatSize) n (fun _ => 1) mcs T.
  Hypothesis Hlisted : forall l, Permutation (listed l) l.
  Hypothesis Hm : 2 <= mcs.
  Hypothesis Hn : 0 < n.
  Hypothesis Hlen : length labels = n.
  Hypothesis Hfin : all_finite T.
  Hypothesis Hpos : forall r, In r T -> (0 <= lam_q r)%Qc.
  Notation EA := (ExactArith NatSize nat_q).
  Notation stab := (stability nat_q T).
  Lemma unit_lt_mcs : slt (sone : NatSize) mcs = true.
  Proof. apply slt_true. cbn. apply Nat.leb_gt. lia. Qed.

  Lemma c40_unweighted_cover R : cluster_rows n T <> [] ->
    extract_clusters_bcubed EA ExactB listed T (cluster_tree_from_condensed_tree T) labels virtual single = Ok R ->
    NoDup R /\ (forall c, In c R -> admissible n T None single c) /\ disjoint_clusters n T R /\
    forall c, leaf_cluster n T c -> exists s, In s R /\ (s = c \/ descends n T s c).
  Proof.
    intros Hne HR. destruct (c40_structure (Sz := NatSize) n (fun _ => 1) mcs T labels listed virtual single HT Hlisted unit_lt_mcs eq_refl Hn Hlen EA ExactB _ exact_b_laws eq_refl)
      as (R' & ER & H1 & H2 & H3 & _ & H4).
    rewrite HR in ER. injection ER as <-. split; auto. split; auto. split; auto. intros c Hc.
    destruct (score_ok _ _ _ _ HT unit_lt_mcs EA Hn) as (d & Ed & _).
    assert (Hk : n <= c < top_id n T) by (apply (is_cluster_iff _ _ _ _ HT), Hc).
    pose proof (score_exact (Sz := NatSize) nat_q n (fun _ => 1) mcs T HT unit_lt_mcs d Hfin Hn Ed c Hk) as Es.
    apply (H4 Hne c d _ Hc Ed Es). cbn [num_lt num_zero ExactArith xlt]. apply negb_false_iff. apply Qcleb_le.
    apply (stability_nonneg n mcs); auto. apply Hc.
  Qed.

  Hypothesis Hnone : forall x, x < n -> (nth x labels (-1) < 0)%Z.

  Lemma none_labelled x : ~ labelled labels x.
  Proof.
    unfold labelled, label. intro H. destruct (Nat.lt_ge_cases x n) as [Hx|Hx]; [specialize (Hnone x Hx); lia|].
    rewrite nth_overflow in H by lia. lia.
  Qed.
  Lemma none_members : members_are n T labels (fun _ => []).
  Proof. intros c _. split; [constructor|]. intro x. split; [intros []|]. intros [H _]. now apply none_labelled in H. Qed.
  Lemma none_total Y : total_bcubed labels (fun _ => []) Y [] = 0%Qc.
  Proof.
    unfold total_bcubed. cbn [map]. assert (E : bcubed_score labels [] = 0%Qc) by (unfold bcubed_score, qsum, Qcdiv; cbn [map fold_right]; ring).
    unfold qsum. cbn [fold_right]. rewrite Qcplus_0_r. induction Y as [|c Y IH]; [reflexivity|]. cbn [map fold_right]. now rewrite IH, E, Qcplus_0_l.
  Qed.

  Lemma semi_best R : cluster_rows n T <> [] ->
    extract_clusters_bcubed EA ExactB listed T (cluster_tree_from_condensed_tree T) labels virtual single = Ok R ->
    best n T single stab R.
  Proof.
    intros Hne HR. destruct (c40_unweighted_cover R Hne HR) as (H1 & H2 & H3 & H4).
    destruct (c40_optimal (Sz := NatSize) nat_q n (fun _ => 1) mcs T labels listed virtual single HT Hlisted unit_lt_mcs eq_refl Hn Hlen Hfin _ none_members R Hne HR)
      as (N & HNN & HN & Hopt & Htie).
    assert (N = []) as ->.
    { destruct N as [|x N]; auto. destruct (proj1 (HN x) (or_introl eq_refl)) as (_ & (Hl & _) & _). now apply none_labelled in Hl. }
    split; auto.
    - intros Y HY1 HY2 HY3. destruct (Hopt Y [] HY1 HY2 HY3) as [H|[_ H]]; auto.
      all: try (exfalso; cbn [fst] in H; rewrite !none_total in H; now apply Qclt_not_eq in H).
      all: try solve [intros x []|constructor|intros c x _ []].
    - intros c s Hc Hs Hd. destruct (Htie c Hc (or_introl (ex_intro _ s (conj Hs Hd)))) as (D & M & HD1 & HM1 & HD2 & HM2 & Hl).
      assert (M = []) as -> by (destruct M as [|x M]; auto; destruct (proj1 (HM2 x) (or_introl eq_refl)) as [[] _]).
      exists D. split; auto. split; auto. destruct Hl as [H|[_ H]]; auto.
      exfalso. cbn [fst] in H. rewrite none_total in H. replace (bcubed_score labels []) with 0%Qc in H; [now apply Qclt_not_eq in H|].
      unfold bcubed_score, qsum, Qcdiv; cbn [map fold_right]; ring.
  Qed.

  Lemma eom_best R : cluster_rows n T <> [] ->
    extract_eom_clusters EA T (cluster_tree_from_condensed_tree T) None single = Ok R -> best n T single stab R.
  Proof.
    intros Hne HR.
    destruct (c25_structure _ _ EA n (fun _ => 1) mcs T None single HT unit_lt_mcs Hn eq_refl) as (R' & ER & H1 & H2 & H3 & _ & H4).
    rewrite HR in ER. injection ER as <-.
    destruct (c25_optimal NatSize nat_q n (fun _ => 1) mcs T None single R HT unit_lt_mcs Hn Hfin Hne HR) as [Hopt Htie].
    assert (HN : NoDup R).
    { clear - H1. induction H1 as [|x l H IH Hx]; constructor; auto. rewrite Forall_forall in Hx. intro Hi. specialize (Hx x Hi). lia. }
    assert (Hc : forall c, In c R -> is_cluster n T c) by (intros c Hc; now apply H2).
    assert (H4' : forall c, leaf_cluster n T c -> exists s, In s R /\ (s = c \/ descends n T s c)) by (intros c Hl; apply H4; auto; discriminate).
    split; auto.
    - intros Y HY1 HY2 HY3. rewrite <- !(total_plain n mcs T); auto. intros c Hc'. now apply HY2.
    - intros c s Ha Hs Hd. destruct (Htie c s Ha Hs Hd) as (D & D1 & D2 & D3).
      assert (HcR : ~ In c R) by (intro H; now apply (H3 c s)).
      exists D. split; auto. split.
      + intro x. rewrite D2. split; [|tauto]. intros [Hx [->|Hx']]; auto. contradiction.
      + rewrite (total_plain n mcs T) in D3; auto; [|intros x Hx; apply Hc; now apply D2 in Hx].
        unfold positive_part in D3. rewrite (proj2 (Qcleb_le _ _)) in D3; auto. apply (stability_nonneg n mcs); auto. apply Ha.
  Qed.

  Lemma c40_unlabelled R R' : 
    extract_clusters_bcubed EA ExactB listed T (cluster_tree_from_condensed_tree T) labels virtual single = Ok R ->
    extract_eom_clusters EA T (cluster_tree_from_condensed_tree T) None single = Ok R' ->
    forall c, In c R <-> In c R'.
  Proof.
    intros HR HR' c. destruct (cluster_rows n T) as [|r l] eqn:E.
    - destruct (c40_structure (Sz := NatSize) n (fun _ => 1) mcs T labels listed virtual single HT Hlisted unit_lt_mcs eq_refl Hn Hlen EA ExactB _ exact_b_laws eq_refl)
        as (R1 & ER & _ & _ & _ & H & _). rewrite HR in ER. injection ER as <-. rewrite (H E).
      destruct (c25_structure _ _ EA n (fun _ => 1) mcs T None single HT unit_lt_mcs Hn eq_refl) as (R1 & ER & _ & _ & _ & H' & _).
      rewrite HR' in ER. injection ER as <-. now rewrite (H' E).
    - assert (Hne : cluster_rows n T <> []) by (rewrite E; discriminate).
      apply (best_unique n mcs T single stab HT); [now apply semi_best|now apply eom_best].
  Qed.
End Unlabelled.
