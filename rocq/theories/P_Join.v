(** The density at which a sample leaves is that of the smallest large group around it. *)
From Coq Require Import List Arith Lia Bool Permutation Sorted ZArith.
From Verif Require Import Prelude Order Graph Size Num M_Linkage S_Linkage M_Condense S_Condense M_Select S_Select M_Labels S_Labels S_Epsilon M_Pipeline S_Pipeline
  P_CTree P_Below P_NodePath P_SameLinkage P_Unique P_Faithful P_Labels P_LabelsTop P_LabelsProps P_PipelineRun P_PipelineTop S_Simplify S_Level S_Join P_Level.
Import ListNotations.
Local Open Scope nat_scope.

Section Join.
  Context {W V : WOrd} {Sz : SOrd}.
  Variables (n : nat) (wt : nat -> Sz) (mcs : Sz) (lam : W -> V) (M : list (edge W)) (L : list (lrow W Sz)) (T : list (crow V Sz)).
  Hypothesis HL : linkage_of n wt M L.
  Hypothesis Hn : 2 <= n.
  Hypothesis HT : condensed n wt mcs T.
  Hypothesis HF : faithful n L wt mcs None lam T.
  Hypothesis Hnonneg : forall x, x < n -> sle szero (wt x) = true.
  Hypothesis Hall : sle mcs (ssum (map wt (seq 0 n))) = true.

  Lemma node_samples v s : weight_of n L wt v s -> v < n + length L ->
    exists xs, NoDup xs /\ (forall x, In x xs <-> under n L v x) /\ s = ssum (map wt xs).
  Proof.
    intros [[Hv ->]|(i & r & -> & Hi & ->)] Hl.
    - exists [v]. split; [repeat constructor; auto|]. split; [|cbn [map ssum fold_right]; now rewrite sadd_comm, sadd_0].
      intro x. cbn. split; [intros [<-|[]]; now constructor|]. intro H. left. now apply (P_SameLinkage.under_leaf n L v x).
    - destruct HL as (_ & HS & _). apply (HS i r Hi).
  Qed.

  Lemma leaves_where_joined q : In q T -> c_child q < n -> exists d, joins_by n wt mcs M (c_child q) d /\ c_lam q = lam d.
  Proof.
    intros Hq Hc. pose proof HL as (HD & HS & HH & _). pose proof HF as (top & Htop & Hbel & Hsam & Hclu).
    destruct (sample_leaves n L wt mcs lam Hn T HT top Htop Hsam Hclu (c_child q) Hc) as (q' & i & r & v & H1 & H2 & _ & H3 & H4 & H5 & H6 & H7 & H8).
    assert (q' = q) as -> by (eapply (row_eq n wt mcs T HT); eauto).
    exists (l_d r). split; auto. pose proof (child_lt n L HD i r v H4 H6) as Hvl. assert (Hil : i < length L) by (apply nth_error_Some; congruence).
    assert (Hux : under n L (n + i) (c_child q)) by (destruct H6 as [-> | ->]; [eapply under_a|eapply under_b]; eauto).
    split; [eapply (row_weight n wt M L HL); eauto|]. split.
    - assert (Hxs : exists xs, NoDup xs /\ (forall x, In x xs -> under n L (n + i) x) /\ sle mcs (ssum (map wt xs)) = true).
      { destruct (Nat.eq_dec (n + i) (2 * n - 2)) as [E|Hne].
        - exists (seq 0 n). split; [apply seq_NoDup|]. split; auto. intros x Hx. apply in_seq in Hx. rewrite E. apply dn_under; [|lia]. apply (root_dn n L HD); lia.
        - destruct (live_large n L wt mcs (n + i) H3 Hne) as (s & Hs & Hm). destruct (node_samples _ _ Hs ltac:(lia)) as (xs & N & U & ->). exists xs. split; auto. split; auto. intros x. apply U. }
      destruct Hxs as (xs & N & U & Hm). exists xs. split; auto. split; auto. intros y Hy. apply U in Hy. split; [eapply under_lt; eauto|].
      apply (node_joined n wt M L HL _ i r); auto; [apply threshold_le|apply wle_refl].
    - intros (xs & N & U & Hm). destruct H7 as (s & Hs & Hsm). destruct (node_samples _ _ Hs ltac:(lia)) as (ys & N' & U' & ->).
      destruct (side_level n wt M L HL Hn i r v H4 H6) as (_ & _ & Hsep).
      assert (HI : incl xs ys).
      { intros y Hy. apply U' . destruct (U y Hy) as [Hyn Hcon]. destruct (in_dec Nat.eq_dec y ys) as [Hin|Hnin]; [now apply U'|].
        exfalso. apply (Hsep (c_child q) y); auto. intro K. apply Hnin. now apply U'. }
      pose proof (ssum_incl wt xs ys N HI ltac:(intros y Hy; apply Hnonneg; apply U' in Hy; eapply under_lt; eauto) N') as Hle.
      rewrite (sle_trans Sz _ _ _ Hm Hle) in Hsm. discriminate.
  Qed.
End Join.

(** ** Complete runs *)
Section Explained.
  Context {W V : WOrd} {Sz : SOrd}.
  Variables (lam : W -> V) (LA : LamArith V) (st : settings V Sz) (n : nat) (wt : nat -> Sz) (M : list (edge W)) (ls : list Z) (ps : list V)
    (T : list (crow V Sz)) (L : list (lrow W Sz)) (T0 : list (crow V Sz)) (chosen final : list nat).
  Hypothesis HX : explained lam LA st n wt M ls ps T L T0 chosen final.
  Hypothesis Hn : 2 <= n.
  Hypothesis Hper : cluster_selection_persistence st = None.
  Hypothesis Hnonneg : forall x, x < n -> sle szero (wt x) = true.
  Hypothesis Hall : sle (min_cluster_size st) (ssum (map wt (seq 0 n))) = true.
  Notation mcs := (min_cluster_size st).
  Notation label x := (nth x ls 0%Z).
  Notation strength x := (nth x ps (la_zero LA)).

  Let HT : condensed n wt mcs T := proj1 (xp_tree _ _ _ _ _ _ _ _ _ _ _ _ _ HX).
  Let HO : ordered_tree n T := condensed_ordered n wt mcs T HT.
  Lemma same_tree : T = T0.
  Proof. pose proof (xp_persistence _ _ _ _ _ _ _ _ _ _ _ _ _ HX) as HP. now rewrite Hper in HP. Qed.

  Lemma density_of q : In q T -> c_child q < n -> exists d, joins_by n wt mcs M (c_child q) d /\ c_lam q = lam d.
  Proof.
    intros Hq Hc. assert (HF : faithful n L wt mcs None lam T) by (rewrite same_tree; apply (xp_faithful _ _ _ _ _ _ _ _ _ _ _ _ _ HX)).
    eapply (leaves_where_joined n wt mcs lam M L T); eauto. apply (xp_linkage _ _ _ _ _ _ _ _ _ _ _ _ _ HX).
  Qed.

  (** *** Strengths *)
  Hypothesis Hpos : forall e, In e M -> wlt (la_zero LA) (lam (ewt e)) = true.
  Hypothesis Hus : usable (la_zero LA) st.
  Hypothesis Heps : cluster_selection_epsilon st = None.
  Hypothesis Hsingle : allow_single_cluster st = false \/ cluster_selection_method st = Leaf.

  Lemma final_chosen : final = chosen.
  Proof. apply (xp_no_epsilon _ _ _ _ _ _ _ _ _ _ _ _ _ HX). auto. Qed.
  Lemma root_not_final : ~ In n final.
  Proof.
    intro K. rewrite final_chosen in K.
    assert (HR' : cluster_rows n T <> []) by (intro E; rewrite (xp_unsplit _ _ _ _ _ _ _ _ _ _ _ _ _ HX E) in K; destruct K).
    destruct (cluster_selection_method st) eqn:Em.
    - destruct (xp_eom _ _ _ _ _ _ _ _ _ _ _ _ _ HX Em HR') as (HA & _). destruct (HA n K) as (_ & K' & _). destruct Hsingle as [Hs|Hs]; [apply K'; auto|congruence].
    - apply (xp_leaf _ _ _ _ _ _ _ _ _ _ _ _ _ HX Em HR') in K as [_ K]. destruct (root_children n wt mcs T HT HR') as (r & Hr & E).
      apply (K r); auto; [now apply (ct_in n T)|]. pose proof (ct_child_in n wt mcs T HT r Hr). lia.
  Qed.
  Lemma row_pos q : In q T -> c_child q < n -> ~ at_zero (la_zero LA) q.
  Proof.
    intros Hq Hc [Hz _]. destruct (density_of q Hq Hc) as (d & ((e & He & Ee) & _) & E). rewrite E, <- Ee in Hz. specialize (Hpos e He). apply wlt_nle in Hpos. congruence.
  Qed.

  (** The label of a sample names the cluster it lies below. *)
  Lemma member c x : In c final -> x < n -> (label x = Z.of_nat (position final c) <-> below n T c x).
  Proof.
    intros Hc Hx. destruct (xp_disjoint _ _ _ _ _ _ _ _ _ _ _ _ _ HX) as (HN & HC & HD).
    assert (Hne : final <> []) by (intro E; rewrite E in Hc; destruct Hc).
    assert (Hge : forall s, In s final -> n <= s) by (intros s Hs; destruct (HC s Hs) as [->|[H _]]; auto).
    assert (Hin : forall v t, home n final T v t -> t = n \/ In t final) by (intros v t H; induction H; auto).
    assert (Hcn : c <> n) by (intros ->; now apply root_not_final).
    destruct (sample_row n wt mcs T HT x Hx) as (r & Hr & E). subst x.
    destruct (xp_labels _ _ _ _ _ _ _ _ _ _ _ _ _ HX Hne r Hr Hx) as [_ K]. destruct (K (row_pos r Hr Hx)) as (t & K1 & K2 & K3 & K4). split.
    - intro El. destruct (Nat.eq_dec t n) as [->|Ht].
      + exfalso. rewrite K3 in El; auto; [lia|]. intro EF. apply root_not_final. rewrite EF. now left.
      + destruct (Hin _ _ K1) as [|Hf]; [contradiction|]. rewrite (K2 Ht) in El. apply Nat2Z.inj in El. apply position_inj in El; auto. subst t.
        apply (home_sample_below n T final HO ltac:(lia) HC); auto.
    - intro Hb. assert (t = c) as ->; auto. eapply (home_det n T final HO Hge); eauto. apply (disjoint_home n T final HO ltac:(lia) HC); auto.
  Qed.

  Lemma joins_same x d d' : joins_by n wt mcs M x d -> joins_by n wt mcs M x d' -> wle d d' = true.
  Proof.
    intros (_ & _ & H2) (_ & (xs & N & U & Hm) & _). destruct (wle d d') eqn:E; auto. exfalso. apply H2. exists xs. split; auto. split; auto.
    intros y Hy. destruct (U y Hy) as [Hyn Hc]. split; auto. revert Hc. apply connected_incl. intros e He. apply in_passing in He as [He Hw]. apply in_passing. split; auto.
    eapply wle_lt_trans; [exact Hw|]. now apply wlt_nle.
  Qed.

  Theorem strength_of (Hlam : forall x y, wle x y = true -> wle (lam y) (lam x) = true) x : x < n -> label x <> (-1)%Z ->
    exists d m, joins_by n wt mcs M x d /\ relative LA m (lam d) (strength x) /\
      (m = la_zero LA \/ exists y e, y < n /\ label y = label x /\ joins_by n wt mcs M y e /\ m = lam e) /\
      (cluster_selection_method st = Leaf -> m <> la_zero LA /\ forall y e, y < n -> label y = label x -> joins_by n wt mcs M y e -> wle (lam e) m = true).
  Proof.
    intros Hx Hl. assert (Hne : final <> []).
    { intro E. destruct (xp_all_noise _ _ _ _ _ _ _ _ _ _ _ _ _ HX E) as [E' _]. apply Hl. rewrite E', nth_indep with (d' := (-1)%Z).
      - apply nth_repeat.
      - now rewrite repeat_length. }
    destruct (sample_row n wt mcs T HT x Hx) as (r & Hr & E). subst x.
    destruct (xp_strengths _ _ _ _ _ _ _ _ _ _ _ _ _ HX Hne r Hr Hx Hl) as (c & Hc & El & m & (M1 & M2 & M3) & R1 & R2 & R3).
    destruct (density_of r Hr Hx) as (d & Hd & Ed). exists d, m. split; auto. rewrite <- Ed. split; [split; [|split]; auto|].
    assert (Hcn : c <> n) by (intros ->; now apply root_not_final).
    split.
    - destruct M2 as [|(q & Hq & Hqc & Ep & Em)]; auto. right. destruct (density_of q Hq Hqc) as (e & He & Ee). exists (c_child q), e.
      split; auto. split; [|split; auto; congruence]. rewrite El. apply member; auto. rewrite <- Ep. now apply below_here with (r := q).
    - intro Em. assert (HR' : cluster_rows n T <> []) by (intro E; rewrite final_chosen, (xp_unsplit _ _ _ _ _ _ _ _ _ _ _ _ _ HX E) in Hc; destruct Hc).
      pose proof Hc as Hc'. rewrite final_chosen in Hc'. apply (xp_leaf _ _ _ _ _ _ _ _ _ _ _ _ _ HX Em HR') in Hc' as [_ Hleaf].
      assert (Hdir : forall y, y < n -> label y = label (c_child r) -> exists q, In q T /\ c_child q = y /\ c_parent q = c).
      { intros y Hy Ey. rewrite El in Ey. apply (member c y Hc Hy) in Ey. inversion Ey as [q y' Hq E1 E2 E3|q y' Hq E1 E2 E3]; [eauto|].
        exfalso. exact (Hleaf q Hq E1 E3). }
      assert (Hbound : forall y e, y < n -> label y = label (c_child r) -> joins_by n wt mcs M y e -> wle (lam e) m = true).
      { intros y e Hy Ey He. destruct (Hdir y Hy Ey) as (q & Hq & Eq & Ep). assert (Hqc : c_child q < n) by (rewrite Eq; auto).
        destruct (density_of q Hq Hqc) as (e' & He' & Ee'). rewrite Eq in He'. apply wle_trans with (lam e').
        - apply Hlam. eapply joins_same; eauto.
        - rewrite <- Ee'. auto. }
      split; auto. intros ->. pose proof (Hbound (c_child r) d Hx eq_refl Hd) as K. rewrite <- Ed in K. apply (row_pos r Hr Hx). split; auto.
      destruct Hd as ((e & He & Ee) & _). rewrite Ed, <- Ee. apply wlt_le. auto.
  Qed.
End Explained.
