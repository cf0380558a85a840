(** Persistence for two minimum sizes and two thresholds. *)
From Coq Require Import List Arith Lia Bool Permutation Sorted ZArith.
From Verif Require Import Prelude Order Graph Size Num Forest S_Kruskal M_Linkage S_Linkage M_Condense S_Condense S_Select M_Pipeline S_Pipeline
  P_CTree P_Below P_NodePath P_SameLinkage P_Unique P_Faithful S_Simplify P_PersistLinks P_Split P_SplitTop S_Resize P_Resize.
Import ListNotations.
Local Open Scope nat_scope.

Section Peaks.
  Context {W V : WOrd} {Sz : SOrd}.
  Variables (n : nat) (wt : nat -> Sz) (M : list (edge W)) (L : list (lrow W Sz)).
  Hypothesis HL : linkage_of n wt M L.
  Let HD : dendrogram n L := proj1 HL.
  Variables (m m' : Sz) (lam : W -> V) (T T' : list (crow V Sz)).
  Hypothesis Hn : 2 <= n.
  Hypothesis Hnonneg : forall x, x < n -> sle szero (wt x) = true.
  Hypothesis Hlam : forall x y, wle x y = true -> wle (lam y) (lam x) = true.
  Hypothesis Hm : sle m m' = true.
  Hypothesis HT : condensed n wt m T.
  Hypothesis HT' : condensed n wt m' T'.
  Hypothesis HF : faithful n L wt m None lam T.
  Hypothesis HF' : faithful n L wt m' None lam T'.
  Hypothesis HA : ascending T.

  (** A sample leaves no sooner than any row it belongs to for the larger size. *)
  Lemma leaves_later x q q' : In q T -> c_child q = x -> x < n -> In q' T' -> (c_child q' = x \/ (n <= c_child q' /\ below n T' (c_child q') x)) ->
    wle (c_lam q') (c_lam q) = true.
  Proof.
    intros Hq Ex Hx Hq' HB. pose proof HL as (_ & _ & HH & _). pose proof HF as (top & Htop & Hbel & Hsam & Hclu). pose proof HF' as (top' & Htop' & Hbel' & Hsam' & Hclu').
    destruct (sample_leaves n L wt m lam Hn T HT top Htop Hsam Hclu x Hx) as (q1 & i & r & v & H1 & H2 & _ & H3 & H4 & H5 & H6 & H7 & H8).
    assert (q1 = q) as -> by (eapply (row_eq n wt m T HT); eauto; congruence).
    assert (exists i' r', live n L wt m' (n + i') /\ nth_error L i' = Some r' /\ c_lam q' = lam (l_d r') /\ under n L (n + i') x) as (i' & r' & Hlive & Hr' & El & Hu).
    { assert (HP : start n L wt m' (top' (c_parent q'))) by (eapply top_start; eauto; eapply parent_cluster; eauto).
      destruct HB as [E|[Hge HB]].
      - destruct (Hsam' q' Hq' ltac:(lia)) as (i' & r' & v' & S1 & S2 & S3 & S4 & S5 & S6). exists i', r'. split; [eapply seg_live; eauto; eapply start_live; eauto|]. split; auto. split; auto.
        rewrite <- E. destruct S4 as [->| ->]; [eapply under_a|eapply under_b]; eauto.
      - destruct (Hclu' q' Hq' Hge) as (i' & r' & S1 & S2 & S3 & S4 & S5 & S6). exists i', r'. split; [eapply seg_live; eauto; eapply start_live; eauto|]. split; auto. split; auto.
        apply Hbel' in HB; [|right; split; eauto]. destruct S5 as [E|E]; rewrite E in HB; [eapply under_a|eapply under_b]; eauto. }
    rewrite El, H5. apply Hlam. apply (heights_le L i i' r r' HH H4 Hr').
    pose proof (row_lt n L HD i r H4) as Hi. pose proof (row_lt n L HD i' r' Hr') as Hi'. pose proof (child_lt n L HD i r v H4 H6) as Hvl.
    assert (K : ~ dn n L v (n + i')).
    { intro K. pose proof (dn_le n L HD _ _ K). assert (HLg : large n L wt m' (n + i')) by (eapply live_large; eauto; lia).
      assert (Hlg : large n L wt m v); [|eapply (large_small n L wt m); eauto]. eapply (large_up n wt m M L HL Hn Hnonneg _ (n + i')); eauto; [lia|]. eapply larger; eauto. }
    destruct (dn_chain n L HD _ _ _ (under_dn _ _ _ _ H8) (under_dn _ _ _ _ Hu)) as [|K']; [contradiction|].
    assert (Hne : n + i' <> v) by (intros <-; apply K; constructor). assert (K3 : dn n L (n + i') (n + i)) by (eapply (dn_parent n L HD); eauto). apply (dn_le n L HD) in K3. lia.
  Qed.

  Lemma below_down (U : list (crow V Sz)) c d x : at_or_below n U c d -> below n U d x -> below n U c x.
  Proof. intros [->|H]; auto. induction H as [r Hr Hc|c d e H1 IH1 H2 IH2]; auto. intro H. eapply below_deep; eauto. Qed.
  Lemma some_below c : is_cluster n T' c -> exists x, below n T' c x.
  Proof.
    pose proof HF' as (top & _ & Hbel & _ & Hclu). intros [->|(Hge & q & Hq & E)]; [exists 0; apply (below_root n wt m' T' HT'); lia|].
    destruct (Hclu q Hq ltac:(lia)) as (i & r & _ & Hr & _ & _ & Hv & _). rewrite E in Hv.
    destruct (P_NodePath.has_sample n L HD (top c)) as [x Hx]; [eapply (child_node n L HD); eauto|]. exists x. apply Hbel; auto. right. split; eauto.
  Qed.
  Lemma peak_lower c c' v v' : (forall x, below n T' c' x -> below n T c x) -> peak n T c v -> peak n T' c' v' -> wle v' v = true.
  Proof.
    intros HB [_ Hub] [(d & r' & Hd & Hl & El) _]. pose proof Hl as (T1 & T2 & ET & Ep & _). assert (Hr' : In r' T') by (rewrite ET; apply in_elt).
    assert (exists x, x < n /\ below n T' d x /\ (c_child r' = x \/ (n <= c_child r' /\ below n T' (c_child r') x))) as (x & Hx & Hbx & Hor).
    { destruct (lt_dec (c_child r') n) as [Hlt|Hge].
      - exists (c_child r'). split; auto. split; auto. rewrite <- Ep. now apply below_here.
      - assert (Hge' : n <= c_child r') by lia. destruct (some_below (c_child r')) as [x Hx]; [right; split; eauto|]. exists x. split; [eapply below_lt; eauto|]. split; auto. rewrite <- Ep. eapply below_deep; eauto. }
    destruct (sample_row n wt m T HT x Hx) as (q & Hq & Eq). assert (K : wle v' (c_lam q) = true) by (rewrite <- El; eapply leaves_later; eauto).
    destruct (P_SimplifyTop.last_exists T (c_parent q)) as (ql & Hql); [eauto|]. eapply wle_trans; [exact K|]. apply (wle_trans V _ (c_lam ql)).
    - destruct Hql as (U1 & U2 & EU & Eq2 & Hno). rewrite EU in Hq. apply in_app_iff in Hq as [Hq|[->|Hq]]; [apply (HA U1 ql U2 EU); auto|apply wle_refl|exfalso; apply (Hno q Hq); auto].
    - apply (Hub (c_parent q)); auto. apply (below_parent n wt m T HT c x); auto. apply HB. eapply below_down; eauto.
  Qed.

  Variables (persists persists' : V -> V -> bool).
  Hypothesis Hweak : forall b d, persists' b d = true -> persists b d = true.
  Hypothesis Hmono : forall b b' d d', wle b b' = true -> wle d' d = true -> persists b d = true -> persists b' d' = true.
  Hypothesis HO : splits_once n T.
  Hypothesis Hone : slt sone m = true.
  Hypothesis Hz : sle (s := Sz) szero sone = true.

  Lemma persistent_lower q q' : In q T -> n <= c_child q -> In q' T' -> n <= c_child q' -> c_lam q = c_lam q' -> (forall x, below n T' (c_child q') x -> below n T (c_child q) x) ->
    persistent persists' n T' (c_child q') -> persistent persists n T (c_child q).
  Proof.
    intros Hq Hc Hq' Hc' El HB (r & v' & Hr & Hcr & Er & Hp & Hps). assert (r = q') as -> by (eapply (row_eq n wt m' T' HT'); eauto).
    assert (Hne : cluster_rows n T <> []) by (pose proof (in_ct n T q Hq Hc) as K; intro E; rewrite E in K; destruct K).
    assert (exists v, peak n T (c_child q) v) as (v & Hv).
    { eapply (peak_exists persists (fun _ => c_lam q) n wt m T); eauto. right. split; eauto. }
    exists q, v. split; auto. split; auto. split; auto. split; auto. rewrite El. eapply Hmono; [|apply wle_refl|apply Hweak; eauto]. eapply peak_lower; eauto.
  Qed.

  Lemma kept_lower c' : kept persists' n T' c' -> exists c, kept persists n T c /\ forall x, below n T c x <-> below n T' c' x.
  Proof.
    intros (Hcl & Hcn & Hper & Hsib). destruct Hcl as [|(Hge & q' & Hq' & E')]; [contradiction|]. subst c'. assert (Hcq' : In q' (cluster_rows n T')) by (apply (in_ct n T'); auto).
    pose proof HF as (top & Htop & Hbel & Hsam & Hclu). pose proof HF' as (top' & Htop' & Hbel' & Hsam' & Hclu').
    assert (exists q, In q (cluster_rows n T') /\ c_parent q = c_parent q' /\ c_child q <> c_child q') as (q2' & Hcq2' & Ep' & Hne') by (eapply has_sibling; eauto). pose proof (ct_in n T' q2' Hcq2') as Hq2'. pose proof (ct_child_in n wt m' T' HT' q2' Hcq2') as Hge2.
    assert (Hper2 : persistent persists' n T' (c_child q2')).
    { apply Hsib. exists q', q2'. repeat (split; auto); lia. }
    destruct (Hclu' q' Hq' Hge) as (i & r & Sg & Hr & Sp & El' & Hv & _). apply split_iff in Sp as [La Lb].
    assert (exists j r2, nth_error L j = Some r2 /\ ((top' (c_child q') = l_a r2 /\ top' (c_child q2') = l_b r2) \/ (top' (c_child q') = l_b r2 /\ top' (c_child q2') = l_a r2))) as (j & r2 & Hr2 & Hs')
      by (eapply siblings_sides; eauto).
    assert (j = i) by (eapply (parent_unique n L HD j i r2 r (top' (c_child q'))); eauto; tauto). subst j. assert (r2 = r) by congruence. subst r2.
    assert (La1 : large n L wt m (l_a r)) by (eapply larger; eauto). assert (Lb1 : large n L wt m (l_b r)) by (eapply larger; eauto).
    assert (exists q1, In q1 (cluster_rows n T) /\ top (c_child q1) = top' (c_child q')) as (q1 & Hcq1 & E1) by (eapply side_cluster; eauto).
    pose proof (ct_in n T q1 Hcq1) as Hq1. pose proof (ct_child_in n wt m T HT q1 Hcq1) as Hge1.
    assert (HC : forall q, In q T -> n <= c_child q -> is_cluster n T (c_child q)) by (intros q H1 H2; right; split; eauto).
    assert (HC' : forall q, In q T' -> n <= c_child q -> is_cluster n T' (c_child q)) by (intros q H1 H2; right; split; eauto).
    assert (Hsame : forall q p, In q T -> n <= c_child q -> In p T' -> n <= c_child p -> top (c_child q) = top' (c_child p) -> forall x, below n T (c_child q) x <-> below n T' (c_child p) x).
    { intros q p H1 H2 H3 H4 E x. rewrite (Hbel _ x (HC q H1 H2)), (Hbel' _ x (HC' p H3 H4)). now rewrite E. }
    assert (Hlm : forall q p, In q T -> n <= c_child q -> In p T' -> n <= c_child p -> top (c_child q) = top' (c_child p) -> c_lam q = c_lam p).
    { intros q p H1 H2 H3 H4 E. destruct (Hclu q H1 H2) as (a & ra & _ & Ha & _ & Ela & Va & _). destruct (Hclu' p H3 H4) as (b & rb & _ & Hb & _ & Elb & Vb & _). rewrite E in Va.
      assert (a = b) by (eapply (parent_unique n L HD a b ra rb); eauto). subst b. congruence. }
    exists (c_child q1). split; [|apply Hsame; auto; lia]. split; [apply HC; auto; lia|]. split; [lia|]. split.
    - apply (persistent_lower q1 q'); auto; [lia|apply Hlm; auto; lia|]. intros x Hx. apply (Hsame q1 q'); auto; lia.
    - intros d (qa & qb & Hqa & Hqb & Ga & Gb & Ea & Eb & Epp & Hnd). assert (qa = q1) as -> by (eapply (row_eq n wt m T HT); eauto). subst d.
      assert (exists j r2, nth_error L j = Some r2 /\ ((top (c_child q1) = l_a r2 /\ top (c_child qb) = l_b r2) \/ (top (c_child q1) = l_b r2 /\ top (c_child qb) = l_a r2))) as (j & r2 & Hr2' & Hs)
        by (eapply (siblings_sides n wt M L HL m lam T Hn HT q1 qb Hcq1 (in_ct n T qb Hqb Gb)); eauto).
      assert (j = i) by (eapply (parent_unique n L HD j i r2 r (top (c_child q1))); eauto; [tauto|rewrite E1; tauto]). subst j. assert (r2 = r) by congruence. subst r2.
      pose proof (children_differ n L HD i r Hr) as Hdf.
      assert (Et : top (c_child qb) = top' (c_child q2')) by (rewrite E1 in Hs; destruct Hs as [[A1 A2]|[A1 A2]], Hs' as [[B1 B2]|[B1 B2]]; congruence).
      apply (persistent_lower qb q2'); auto; [lia|apply Hlm; auto; lia|]. intros x Hx. apply (Hsame qb q2'); auto; lia.
  Qed.
End Peaks.
