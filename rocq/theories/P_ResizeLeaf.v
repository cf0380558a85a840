(** Leaf clusters of two runs on one spanning tree. *)
From Coq Require Import List Arith Lia Bool Permutation Sorted ZArith.
From Verif Require Import Prelude Order Graph Size Num Forest S_Kruskal M_Linkage S_Linkage M_Condense S_Condense M_Select S_Select M_Labels S_Labels S_Epsilon M_Pipeline S_Pipeline
  P_CTree P_Below P_NodePath P_SameLinkage P_Unique P_Faithful P_Labels P_LabelsTop P_LabelsProps P_PipelineRun P_PipelineTop P_PipelineMeaning S_Simplify S_Level S_Unique S_Join P_Level P_Join S_Split P_Split P_SplitTop S_Resize P_Resize P_KeptLower.
Import ListNotations.
Local Open Scope nat_scope.

(** The clusters of the hierarchy a run returns. *)
Section Tree.
  Context {W V : WOrd} {Sz : SOrd}.
  Variables (lam : W -> V) (LA : LamArith V) (st : settings V Sz) (n : nat) (wt : nat -> Sz) (M : list (edge W)) (ls : list Z) (ps : list V)
    (T : list (crow V Sz)) (L : list (lrow W Sz)) (T0 : list (crow V Sz)) (ch fin : list nat).
  Hypothesis HX : explained lam LA st n wt M ls ps T L T0 ch fin.
  Let HT : condensed n wt (min_cluster_size st) T := proj1 (xp_tree _ _ _ _ _ _ _ _ _ _ _ _ _ HX).
  Let HT0 : condensed n wt (min_cluster_size st) T0 := xp_condensed _ _ _ _ _ _ _ _ _ _ _ _ _ HX.

  (** The label of a sample names the cluster it lies below. *)
  Lemma final_member : 2 <= n -> (forall e, In e M -> wlt (la_zero LA) (lam (ewt e)) = true) -> ~ In n fin ->
    forall c x, In c fin -> x < n -> (nth x ls 0%Z = Z.of_nat (position fin c) <-> below n T c x).
  Proof.
    intros Hn Hpos Hnf c x Hc Hx. destruct (xp_disjoint _ _ _ _ _ _ _ _ _ _ _ _ _ HX) as (HN & HC & HD). pose proof (condensed_ordered n wt _ T HT) as HO.
    assert (Hne : fin <> []) by (intro E; rewrite E in Hc; destruct Hc).
    assert (Hge : forall s, In s fin -> n <= s) by (intros s Hs; destruct (HC s Hs) as [->|[H _]]; auto).
    assert (Hin : forall v t, home n fin T v t -> t = n \/ In t fin) by (intros v t H; induction H; auto).
    assert (Hcn : c <> n) by (intros ->; contradiction).
    destruct (sample_row n wt _ T HT x Hx) as (r & Hr & E). subst x.
    destruct (xp_labels _ _ _ _ _ _ _ _ _ _ _ _ _ HX Hne r Hr Hx) as [_ K].
    assert (Hz : ~ at_zero (la_zero LA) r) by (eapply sample_pos; eauto). destruct (K Hz) as (t & K1 & K2 & K3 & K4). split.
    - intro El. destruct (Nat.eq_dec t n) as [->|Ht].
      + exfalso. rewrite K3 in El; auto; [lia|]. intro EF. apply Hnf. rewrite EF. now left.
      + destruct (Hin _ _ K1) as [|Hf]; [contradiction|]. rewrite (K2 Ht) in El. apply Nat2Z.inj in El. apply position_inj in El; auto. subst t.
        apply (home_sample_below n T fin HO ltac:(lia) HC); auto.
    - intro Hb. assert (t = c) as ->; auto. eapply (home_det n T fin HO Hge); eauto. apply (disjoint_home n T fin HO ltac:(lia) HC); auto.
  Qed.
  Lemma labelled_final y : 2 <= n -> (forall e, In e M -> wlt (la_zero LA) (lam (ewt e)) = true) -> ~ In n fin ->
    y < n -> nth y ls 0%Z <> (-1)%Z -> exists c, In c fin /\ below n T c y.
  Proof.
    intros Hn Hpos Hnf Hy Ly. destruct (xp_disjoint _ _ _ _ _ _ _ _ _ _ _ _ _ HX) as (_ & HC & HDj). pose proof (condensed_ordered n wt _ T HT) as HO.
    assert (Hne : fin <> []).
    { intro E. destruct (xp_all_noise _ _ _ _ _ _ _ _ _ _ _ _ _ HX E) as [E' _]. apply Ly. rewrite E', nth_indep with (d' := (-1)%Z); [apply nth_repeat|now rewrite repeat_length]. }
    destruct (sample_row n wt _ T HT y Hy) as (r & Hr & E). subst y.
    destruct (xp_labels _ _ _ _ _ _ _ _ _ _ _ _ _ HX Hne r Hr Hy) as [_ K].
    assert (Hz : ~ at_zero (la_zero LA) r) by (eapply sample_pos; eauto). destruct (K Hz) as (t & K1 & K2 & K3 & K4).
    assert (Hin : forall v t, home n fin T v t -> t = n \/ In t fin) by (intros v t0 H; induction H; auto).
    destruct (Hin _ _ K1) as [E|Hf].
    - exfalso. apply Ly. apply K3; auto. intro EF. apply Hnf. rewrite EF. now left.
    - exists t. split; auto. apply (home_sample_below n T fin HO ltac:(lia) HC); auto.
  Qed.

  (** A cluster of the first hierarchy that stays. *)
  Definition stays (c : nat) : Prop :=
    match cluster_selection_persistence st with None => is_cluster n T0 c /\ c <> n | Some p => kept p n T0 c end.
  Lemma row_cluster (U : list (crow V Sz)) k r : condensed n wt k U -> In r (cluster_rows n U) -> is_cluster n U (c_child r) /\ c_child r <> n.
  Proof. intros HU Hr. pose proof (ct_child_in n wt k U HU r Hr). split; [|lia]. right. split; [lia|]. exists r. split; auto. now apply (ct_in n U). Qed.
  Lemma cluster_row_of (U : list (crow V Sz)) c : is_cluster n U c -> c <> n -> exists r, In r (cluster_rows n U) /\ c_child r = c.
  Proof. intros [|(H & r & Hr & E)] Hn; [contradiction|]. exists r. split; auto. apply (in_ct n U); auto. lia. Qed.
  Lemma hierarchy_stays P : hierarchy_cluster n T P <-> exists c, stays c /\ forall x, below n T0 c x <-> P x.
  Proof.
    pose proof (xp_persistence _ _ _ _ _ _ _ _ _ _ _ _ _ HX) as HP. unfold stays. destruct (cluster_selection_persistence st) as [p|].
    - destruct HP as (new & Hnew & Hup & Hcl & Hbel & _). split.
      + intros (r & Hr & Hx). destruct (row_cluster T _ r HT Hr) as [Hc Hne]. apply Hcl in Hc as (c & Hk & E). destruct Hk as [->|Hk]; [congruence|].
        exists c. split; auto. intro x. rewrite <- Hx, <- E. symmetry. apply Hbel. auto.
      + intros (c & Hk & Hx). pose proof Hk as (K1 & K2 & _). assert (Hc : is_cluster n T (new c)) by (apply Hcl; eauto).
        assert (Hne : new c <> n) by (assert (n <= c) by (destruct K1 as [|[K _]]; [contradiction|auto]); pose proof (Hup n c (or_introl eq_refl) ltac:(lia)); lia).
        destruct (cluster_row_of T _ Hc Hne) as (r & Hr & E). exists r. split; auto. intro x. rewrite E, <- Hx. apply Hbel. auto.
    - subst T0. split.
      + intros (r & Hr & Hx). exists (c_child r). split; auto. eapply row_cluster; eauto.
      + intros (c & [Hc Hne] & Hx). destruct (cluster_row_of T c Hc Hne) as (r & Hr & E). exists r. split; auto. intro x. now rewrite E.
  Qed.
  Lemma any_below c : slt sone (min_cluster_size st) = true -> sle (s := Sz) szero sone = true -> is_cluster n T c -> 2 <= n -> exists x, below n T c x.
  Proof.
    intros H1 H0 Hc Hn. destruct (Nat.eq_dec c n) as [->|Hne]; [exists 0; apply (below_root n wt _ T HT); lia|].
    destruct (cluster_row_of T c Hc Hne) as (r & Hr & <-). pose proof (ct_child_in n wt _ T HT r Hr). destruct (ct_sizes _ _ _ _ HT r (ct_in n T r Hr) ltac:(lia)) as (K1 & xs & _ & K2 & K3).
    destruct xs as [|x xs]; [|exists x; apply K2; now left]. exfalso. cbn in K3. rewrite K3 in K1. apply slt_true in H1.
    assert (K : sle (min_cluster_size st) sone = true) by (eapply sle_trans; eauto). congruence.
  Qed.
End Tree.

Section Leaves.
  Context {W V : WOrd} {Sz : SOrd}.
  Variables (lam : W -> V) (LA : LamArith V) (st st' : settings V Sz) (n : nat) (wt : nat -> Sz) (M : list (edge W)) (L : list (lrow W Sz))
    (ls ls' : list Z) (ps ps' : list V) (T T0 T' T0' : list (crow V Sz)) (ch fin ch' fin' : list nat).
  Hypothesis HX : explained lam LA st n wt M ls ps T L T0 ch fin.
  Hypothesis HX' : explained lam LA st' n wt M ls' ps' T' L T0' ch' fin'.
  Hypothesis Hn : 2 <= n.
  Hypothesis Hlam : forall x y, wle x y = true -> wle (lam y) (lam x) = true.
  Hypothesis Hnonneg : forall x, x < n -> sle szero (wt x) = true.
  Hypothesis Hus : usable (la_zero LA) st.
  Hypothesis Hus' : usable (la_zero LA) st'.
  Hypothesis Hz : sle (s := Sz) szero sone = true.
  Hypothesis Hst : stricter st st'.
  Let HL := xp_linkage _ _ _ _ _ _ _ _ _ _ _ _ _ HX.
  Let HT : condensed n wt (min_cluster_size st) T := proj1 (xp_tree _ _ _ _ _ _ _ _ _ _ _ _ _ HX).
  Let HT' : condensed n wt (min_cluster_size st') T' := proj1 (xp_tree _ _ _ _ _ _ _ _ _ _ _ _ _ HX').
  Let HT0 : condensed n wt (min_cluster_size st) T0 := xp_condensed _ _ _ _ _ _ _ _ _ _ _ _ _ HX.
  Let HT0' : condensed n wt (min_cluster_size st') T0' := xp_condensed _ _ _ _ _ _ _ _ _ _ _ _ _ HX'.
  Let HF : faithful n L wt (min_cluster_size st) None lam T0 := xp_faithful _ _ _ _ _ _ _ _ _ _ _ _ _ HX.
  Let HF' : faithful n L wt (min_cluster_size st') None lam T0' := xp_faithful _ _ _ _ _ _ _ _ _ _ _ _ _ HX'.

  (** A stricter hierarchy has fewer clusters. *)
  Lemma explained_fewer P : hierarchy_cluster n T' P -> hierarchy_cluster n T P.
  Proof.
    intro H. apply (hierarchy_stays lam LA st' n wt M ls' ps' T' L T0' ch' fin' HX') in H as (c' & Hs & Hx). apply (hierarchy_stays lam LA st n wt M ls ps T L T0 ch fin HX).
    destruct Hst as [Hm Hp]. unfold stays in *. destruct (xp_rows _ _ _ _ _ _ _ _ _ _ _ _ _ HX) as [HO HA].
    destruct (cluster_selection_persistence st) as [p|] eqn:Ep.
    - destruct (cluster_selection_persistence st') as [p'|]; [|contradiction].
      assert (exists c, kept p n T0 c /\ forall x, below n T0 c x <-> below n T0' c' x) as (c & Hk & Hb).
      { eapply (kept_lower n wt M L HL (min_cluster_size st) (min_cluster_size st') lam T0 T0'); eauto; [apply (us_persist _ _ Hus p Ep)|apply (us_size _ _ Hus)]. }
      exists c. split; auto. intro x. rewrite Hb. apply Hx.
    - assert (Hc : is_cluster n T0' c' /\ c' <> n) by (destruct (cluster_selection_persistence st'); [split; apply Hs|auto]). destruct Hc as [Hc Hne].
      destruct (cluster_row_of n T0' c' Hc Hne) as (r & Hr & E).
      destruct (proj1 (resized n wt M L HL (min_cluster_size st) (min_cluster_size st') lam T0 T0' Hn Hnonneg Hm HT0 HT0' HF HF' P)) as (q & _ & Hq & _ & _ & _ & _ & _ & Hb).
      + exists r. split; auto. intro x. rewrite E. apply Hx.
      + exists (c_child q). split; auto. eapply row_cluster; eauto.
  Qed.

  Hypothesis Hpos : forall e, In e M -> wlt (la_zero LA) (lam (ewt e)) = true.
  Hypothesis Heps : cluster_selection_epsilon st = None.
  Hypothesis Heps' : cluster_selection_epsilon st' = None.
  Hypothesis Hleaf : cluster_selection_method st = Leaf.
  Hypothesis Hleaf' : cluster_selection_method st' = Leaf.

  Lemma explained_leaves : contains_cluster n ls ls'.
  Proof.
    intros y Hy Ly. assert (HR' : cluster_rows n T' <> []).
    { intro E. apply Ly. rewrite (no_rows_noise lam LA st' n wt M ls' ps' T' L T0' ch' fin' HX' Hn E), nth_indep with (d' := (-1)%Z); [apply nth_repeat|now rewrite repeat_length]. }
    assert (Hs : allow_single_cluster st = false \/ cluster_selection_method st = Leaf) by auto.
    assert (Hs' : allow_single_cluster st' = false \/ cluster_selection_method st' = Leaf) by auto.
    assert (Ef' : fin' = ch') by (eapply final_chosen; eauto). assert (Ef : fin = ch) by (eapply final_chosen; eauto).
    assert (Hnf' : ~ In n fin') by (eapply root_not_final; eauto). assert (Hnf : ~ In n fin) by (eapply root_not_final; eauto).
    destruct (labelled_final lam LA st' n wt M ls' ps' T' L T0' ch' fin' HX' y Hn Hpos Hnf' Hy Ly) as (c & Hc & Hb).
    pose proof Hc as Hc0. rewrite Ef' in Hc0. apply (xp_leaf _ _ _ _ _ _ _ _ _ _ _ _ _ HX' Hleaf' HR') in Hc0 as [Hcc _].
    assert (Hcn : c <> n) by (intros ->; contradiction).
    destruct (cluster_row_of n T' c Hcc Hcn) as (q & Hq & Eq).
    destruct (explained_fewer (below n T' c)) as (r & Hr & HP); [exists q; split; auto; intro x; now rewrite Eq|].
    assert (HR : cluster_rows n T <> []) by (intro E; rewrite E in Hr; destruct Hr).
    destruct (row_cluster n wt T _ r HT Hr) as [Hrc _].
    assert (exists l, leaf_cluster n T l /\ (l = c_child r \/ descends n T (c_child r) l)) as (l & Hl & Hor) by (eapply leaf_below; eauto).
    assert (exists x, below n T l x) as [x Hx] by (eapply any_below; eauto; [apply (us_size _ _ Hus)|apply Hl]).
    assert (Hlf : In l fin) by (rewrite Ef; now apply (xp_leaf _ _ _ _ _ _ _ _ _ _ _ _ _ HX Hleaf HR)).
    pose proof (below_lt n T l x Hx) as Hxn.
    assert (MB : forall z, z < n -> (nth z ls 0%Z = Z.of_nat (position fin l) <-> below n T l z)) by (intros z Hzn; eapply (final_member lam LA st n wt M ls ps T L T0 ch fin); eauto).
    assert (MB' : forall z, z < n -> (nth z ls' 0%Z = Z.of_nat (position fin' c) <-> below n T' c z)) by (intros z Hzn; eapply (final_member lam LA st' n wt M ls' ps' T' L T0' ch' fin'); eauto).
    exists x. split; auto. pose proof (proj2 (MB x Hxn) Hx) as Ex. split; [lia|]. intros z [Hzn Ez]. split; auto.
    rewrite (proj2 (MB' y Hy) Hb). apply MB'; auto. apply HP. rewrite Ex in Ez. apply MB in Ez; auto.
    destruct Hor as [->|Hor]; auto. apply (descends_sub n wt _ T HT) in Hor as [Hor _]. eapply (below_up n wt _ T HT); eauto.
  Qed.
End Leaves.
