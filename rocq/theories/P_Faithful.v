(** Consequences of [faithful]: what the condensed tree says about the dendrogram. *)
From Coq Require Import List Arith Lia Bool Permutation Sorted.
From Verif Require Import Prelude Order Graph Size Forest M_Linkage S_Linkage M_Condense S_Condense M_Select P_CTree P_Below.
Import ListNotations.

Section Segments.
  Context {W : WOrd} {Sz : SOrd}.
  Variables (n : nat) (L : list (lrow W Sz)) (wt : nat -> Sz) (mcs : Sz).
  Hypothesis HD : dendrogram n L.
  Notation segment := (segment n L wt mcs None).
  Notation large := (large n L wt mcs).
  Notation split := (true_split n L wt mcs None).

  Lemma seg_le t v : segment t v -> v <= t.
  Proof.
    induction 1 as [|i r c H IH Hr Hs Hc Hl]; auto.
    pose proof (dg_down n L HD i r Hr). destruct Hc as [->| ->]; lia.
  Qed.
  Lemma seg_trans t v w : segment t v -> segment v w -> segment t w.
  Proof. intros H1 H2. induction H2 as [|i r c H IH Hr Hs Hc Hl]; auto. eapply seg_step; eauto. Qed.
  Lemma seg_first t w : segment t w -> w = t \/
    exists i r c, t = n + i /\ nth_error L i = Some r /\ ~ split r /\ (c = l_a r \/ c = l_b r) /\ large c /\ segment c w.
  Proof.
    induction 1 as [|i r c H IH Hr Hs Hc Hl]; auto. right. destruct IH as [<-|(i0 & r0 & c0 & -> & Hr0 & Hs0 & Hc0 & Hl0 & H0)].
    - exists i, r, c. repeat (split; auto). constructor.
    - exists i0, r0, c0. repeat (split; auto). eapply seg_step; eauto.
  Qed.
  Lemma split_both r : large (l_a r) -> large (l_b r) -> split r.
  Proof. intros Ha Hb. split; auto. split; auto. intros [(s & m & _ & E & _) _]. discriminate. Qed.
  Lemma seg_chain t v : segment t v -> forall w, segment t w -> w <= v -> segment v w.
  Proof.
    induction 1 as [|i r c H IH Hr Hs Hc Hl]; intros w Hw Hle; auto.
    pose proof (dg_down n L HD i r Hr) as Hdn.
    assert (Hiw : segment (n + i) w) by (apply IH; auto; destruct Hc as [->| ->]; lia).
    destruct (seg_first _ _ Hiw) as [->|(i' & r' & c' & Ei & Hr' & _ & Hc' & Hl' & H')]; [destruct Hc as [->| ->]; lia|].
    assert (i' = i) as -> by lia. assert (r' = r) as -> by congruence.
    destruct Hc as [->| ->], Hc' as [->| ->]; auto; exfalso; apply Hs; now apply split_both.
  Qed.
  Lemma seg_split_last t j r0 v : segment t (n + j) -> nth_error L j = Some r0 -> split r0 -> segment t v -> n + j <= v.
  Proof.
    intros Hj Hr0 Hs Hv. destruct (le_lt_dec (n + j) v) as [|Hlt]; auto. exfalso.
    destruct (seg_first _ _ (seg_chain _ _ Hj v Hv (Nat.lt_le_incl _ _ Hlt))) as [->|(i & r & c & Ei & Hr & Hns & _)]; [lia|].
    assert (i = j) as -> by lia. apply Hns. congruence.
  Qed.
  Lemma seg_under t v x : segment t v -> under n L v x -> under n L t x.
  Proof.
    induction 1 as [|i r c H IH Hr Hs Hc Hl]; intro Hx; auto. apply IH.
    destruct Hc as [->| ->]; [eapply under_a|eapply under_b]; eauto.
  Qed.
  Lemma heights_le i j r q : heights_sorted L -> nth_error L i = Some r -> nth_error L j = Some q -> i <= j -> wle (l_d r) (l_d q) = true.
  Proof.
    intros H Hi Hj Hij. destruct (Nat.eq_dec i j) as [->|Hne]; [assert (r = q) as -> by congruence; apply wle_refl|].
    clear HD. unfold heights_sorted in H. revert i j Hi Hj Hij Hne. induction L as [|a l IH]; intros i j Hi Hj Hij Hne; [destruct i; discriminate|].
    simpl in H. inversion_clear H as [|? ? HS HF]. rewrite Forall_forall in HF. destruct j as [|j]; [lia|]. simpl in Hj. destruct i as [|i].
    - injection Hi as <-. apply HF. apply in_map. eapply nth_error_In; eauto.
    - simpl in Hi. apply (IH HS i j); auto; lia.
  Qed.
End Segments.

Section Faithful.
  Context {W V : WOrd} {Sz : SOrd}.
  Variables (n : nat) (L : list (lrow W Sz)) (wt : nat -> Sz) (mcs : Sz) (lam : W -> V) (T : list (crow V Sz)).
  Hypothesis HD : dendrogram n L.
  Hypothesis HS : heights_sorted L.
  Hypothesis Hlam : forall x y, wle x y = true -> wle (lam y) (lam x) = true.
  Hypothesis HT : condensed n wt mcs T.
  Hypothesis HF : faithful n L wt mcs None lam T.

  (** Clusters split after everything else has left. *)
  Lemma split_densest q q0 : In q T -> In q0 T -> n <= c_child q0 -> c_parent q = c_parent q0 -> wle (c_lam q) (c_lam q0) = true.
  Proof.
    intros Hq Hq0 Hc0 Ep. destruct HF as (top & _ & _ & Hsam & Hclu).
    destruct (Hclu q0 Hq0 Hc0) as (j & r0 & Hj & Hr0 & Hs & -> & _). rewrite <- Ep in Hj.
    assert (Hrow : exists i r, segment n L wt mcs None (top (c_parent q)) (n + i) /\ nth_error L i = Some r /\ c_lam q = lam (l_d r)).
    { destruct (le_lt_dec n (c_child q)) as [Hc|Hc].
      - destruct (Hclu q Hq Hc) as (i & r & H1 & H2 & _ & H3 & _). eauto.
      - destruct (Hsam q Hq Hc) as (i & r & v & H1 & H2 & H3 & _). eauto. }
    destruct Hrow as (i & r & Hi & Hr & ->). apply Hlam.
    pose proof (seg_split_last n L wt mcs HD _ j r0 (n + i) Hj Hr0 Hs Hi).
    apply (heights_le L j i r0 r); auto. lia.
  Qed.

  (** Every density of the tree is the density of some merge. *)
  Lemma row_height q : In q T -> exists r, In r L /\ c_lam q = lam (l_d r).
  Proof.
    intro Hq. destruct HF as (top & _ & _ & Hsam & Hclu). destruct (le_lt_dec n (c_child q)) as [Hc|Hc].
    - destruct (Hclu q Hq Hc) as (i & r & _ & H2 & _ & H3 & _). apply nth_error_In in H2. eauto.
    - destruct (Hsam q Hq Hc) as (i & r & v & _ & H2 & H3 & _). apply nth_error_In in H2. eauto.
  Qed.

  (** The first row on the way from [c] down to [x]. *)
  Lemma below_first c x : below n T c x -> exists q, In q T /\ c_parent q = c /\
    (c_child q = x \/ (n <= c_child q /\ below n T (c_child q) x)).
  Proof. intro H. inversion H as [q y Hq|q y Hq]; subst; exists q; auto. Qed.

  (** If the rows through which [x] and [y] leave [c] satisfy a lower bound on
      density, [x] and [y] lie under one merge with that bound. *)
  Lemma leave_together c x y (P : V -> Prop) : is_cluster n T c -> below n T c x -> below n T c y ->
    (forall q, In q T -> c_parent q = c -> c_child q = x \/ (n <= c_child q /\ below n T (c_child q) x) -> P (c_lam q)) ->
    (forall q, In q T -> c_parent q = c -> c_child q = y \/ (n <= c_child q /\ below n T (c_child q) y) -> P (c_lam q)) ->
    exists i r, nth_error L i = Some r /\ P (lam (l_d r)) /\ under n L (n + i) x /\ under n L (n + i) y.
  Proof.
    intros Hc Hx Hy Px Py.
    destruct HF as (top & _ & Hbel & Hsam & Hclu).
    assert (Hleave : forall z, below n T c z ->
      (forall q, In q T -> c_parent q = c -> c_child q = z \/ (n <= c_child q /\ below n T (c_child q) z) -> P (c_lam q)) ->
      exists i r, segment n L wt mcs None (top c) (n + i) /\ nth_error L i = Some r /\ P (lam (l_d r)) /\ under n L (n + i) z).
    { intros z Hz Pz. assert (Hzn : z < n) by (apply (below_lt n T c z); auto).
      destruct (below_first c z Hz) as (q & Hq & Ep & Hcq). pose proof (Pz q Hq Ep Hcq) as HP.
      destruct Hcq as [Ec|[Hcn Hb]].
      - destruct (Hsam q Hq ltac:(lia)) as (i & r & v & H1 & H2 & H3 & H4 & _ & H5). rewrite Ep in H1. rewrite H3 in HP. rewrite Ec in H5.
        exists i, r. split; auto. split; auto. split; auto. destruct H4 as [->| ->]; [eapply under_a|eapply under_b]; eauto.
      - destruct (Hclu q Hq Hcn) as (i & r & H1 & H2 & _ & H3 & H4 & _). rewrite Ep in H1. rewrite H3 in HP.
        exists i, r. split; auto. split; auto. split; auto.
        assert (Hu : under n L (top (c_child q)) z) by (apply Hbel; auto; right; eauto).
        destruct H4 as [E|E]; rewrite E in Hu; [eapply under_a|eapply under_b]; eauto. }
    destruct (Hleave x Hx Px) as (i & r & Si & Hr & P1 & U1). destruct (Hleave y Hy Py) as (j & q & Sj & Hq & P2 & U2).
    destruct (le_lt_dec i j) as [Hij|Hij].
    - exists j, q. repeat (split; auto). eapply (seg_under n L wt mcs); [|exact U1].
      apply (seg_chain n L wt mcs HD (top c)); auto. lia.
    - exists i, r. repeat (split; auto). eapply (seg_under n L wt mcs); [|exact U2].
      apply (seg_chain n L wt mcs HD (top c)); auto. lia.
  Qed.
End Faithful.
