(** Reported clusters as groups that hold together at one distance. *)
From Coq Require Import List Arith Lia Bool Permutation Sorted ZArith.
From Verif Require Import Prelude Order Graph Size Num M_Linkage S_Linkage M_Condense S_Condense M_Select S_Select M_Labels S_Labels S_Epsilon M_Pipeline S_Pipeline
  P_CTree P_Below P_NodePath P_SameLinkage P_Unique P_Faithful P_Labels P_LabelsTop P_LabelsProps P_PipelineRun S_Simplify S_Level.
Import ListNotations.
Local Open Scope nat_scope.

Lemma threshold_le {W : WOrd} (d : W) : threshold (fun w => wle w d).
Proof. intros x y H1 H2. eapply wle_trans; eauto. Qed.

Section Level.
  Context {W V : WOrd} {Sz : SOrd}.
  Variables (n : nat) (wt : nat -> Sz) (mcs : Sz) (lam : W -> V) (M : list (edge W)) (L : list (lrow W Sz)) (T : list (crow V Sz)).
  Hypothesis HL : linkage_of n wt M L.
  Hypothesis Hn : 2 <= n.
  Hypothesis Hlam : forall x y, wle x y = true -> wle (lam y) (lam x) = true.
  Hypothesis HT : condensed n wt mcs T.
  Hypothesis HF : faithful n L wt mcs None lam T.

  Notation level := (level n M).

  Lemma sorted_edges : exists M', Permutation M M' /\ map l_d L = map ewt M' /\ length L = length M' /\ sorted_by ewt M' /\
    (forall i e x, nth_error M' i = Some e -> (under n L (n + i) x <-> x < n /\ connected (firstn (S i) M') (esrc e) x)).
  Proof.
    destruct HL as (_ & _ & HH & M' & HP & Em & Hu). exists M'. split; auto. split; auto. split; [|split; auto].
    - rewrite <- (map_length l_d L), Em. apply map_length.
    - unfold sorted_by. unfold heights_sorted in HH. rewrite Em in HH. clear -HH. induction M' as [|e l IH]; [constructor|].
      cbn [map] in HH. inversion_clear HH as [|? ? H1 H2]. constructor; auto. rewrite Forall_forall in *. intros f Hf. apply H2. now apply in_map.
  Qed.
  Lemma row_weight i r : nth_error L i = Some r -> exists e, In e M /\ ewt e = l_d r.
  Proof.
    intro Hr. destruct sorted_edges as (M' & HP & Em & _). assert (H : nth_error (map ewt M') i = Some (l_d r)) by (rewrite <- Em, nth_error_map, Hr; auto).
    rewrite nth_error_map in H. destruct (nth_error M' i) as [e|] eqn:E; [|discriminate]. injection H as H. exists e. split; auto.
    apply (Permutation_in _ (Permutation_sym HP)). eapply nth_error_In; eauto.
  Qed.

  (** Samples connected by edges below a threshold are under one merge below it. *)
  Lemma light_node (p : W -> bool) x y : threshold p -> connected (passing p M) x y -> x < n -> y < n ->
    x = y \/ exists j r, nth_error L j = Some r /\ p (l_d r) = true /\ under n L (n + j) x /\ under n L (n + j) y.
  Proof.
    intros Hp H Hx Hy. destruct sorted_edges as (M' & HP & Em & Hlen & HS & Hu).
    assert (K : connected (firstn (length (passing p M')) M') x y).
    { assert (K0 : connected (passing p M') x y).
      { revert H. apply connected_incl. intros e He. apply in_passing in He as [He Hw]. apply in_passing. split; auto. eapply Permutation_in; eauto. }
      replace (firstn (length (passing p M')) M') with (passing p M'); auto. clear -HS Hp. unfold passing.
      induction M' as [|e l IH]; auto. inversion_clear HS as [|? ? H1 H2]. cbn [filter]. destruct (p (ewt e)) eqn:E; cbn [length firstn]; [now rewrite <- IH|].
      assert (Hnil : filter (fun e => p (ewt e)) l = []).
      { rewrite Forall_forall in H2. clear -Hp H2 E. induction l as [|f l IH]; auto. cbn [filter]. destruct (p (ewt f)) eqn:Ef.
        - rewrite (Hp (ewt e) (ewt f)) in E; auto; [discriminate|]. apply H2. now left.
        - apply IH. intros g Hg. apply H2. now right. }
      now rewrite Hnil. }
    pose proof (proj1 HL) as HD.
    destruct (prefix_nodes n L M' Hlen Hu _ x y K Hx Hy) as [|(j & Hj & U1 & U2)]; auto. right.
    assert (Hj' : j < length M').
    { assert (length (passing p M') <= length M') by (unfold passing; clear; induction M' as [|e l IH]; cbn [filter length]; [lia|]; destruct (p (ewt e)); cbn [length]; lia). lia. }
    destruct (nth_error M' j) as [e|] eqn:Ee; [|apply nth_error_None in Ee; lia].
    destruct (edge_row L M' Hlen j e Ee) as [r Hr]. exists j, r. split; auto. split; [|auto].
    assert (Ew : ewt e = l_d r).
    { assert (Q : nth_error (map ewt M') j = Some (l_d r)) by (rewrite <- Em, nth_error_map, Hr; auto). rewrite nth_error_map, Ee in Q. now injection Q. }
    rewrite <- Ew. clear -HS Hp Hj Ee. revert j Hj Ee. unfold passing. induction M' as [|f l IH]; intros j Hj Ee; [destruct j; discriminate|].
    inversion_clear HS as [|? ? H1 H2]. cbn [filter] in Hj. destruct (p (ewt f)) eqn:Ef.
    - destruct j as [|j]; cbn in Ee; [injection Ee as <-; auto|]. apply (IH H1 j); auto. cbn [length] in Hj. lia.
    - exfalso. assert (Hnil : filter (fun e => p (ewt e)) l = []).
      { rewrite Forall_forall in H2. clear -Hp H2 Ef. induction l as [|g l IH]; auto. cbn [filter]. destruct (p (ewt g)) eqn:Eg.
        - rewrite (Hp (ewt f) (ewt g)) in Ef; auto; [discriminate|]. apply H2. now left.
        - apply IH. intros h Hh. apply H2. now right. }
      rewrite Hnil in Hj. cbn in Hj. lia.
  Qed.

  Lemma node_joined (p : W -> bool) i r x y : threshold p -> nth_error L i = Some r -> p (l_d r) = true ->
    under n L (n + i) x -> under n L (n + i) y -> connected (passing p M) x y.
  Proof.
    intros Hp Hr Hw Hx Hy. destruct sorted_edges as (M' & HP & Em & _ & HS & Hu).
    assert (K : connected (passing p M') x y) by (eapply (under_connected n L M' p); eauto).
    revert K. apply connected_incl. intros e He. apply in_passing in He as [He Hw']. apply in_passing. split; auto.
    eapply Permutation_in; [apply Permutation_sym|]; eauto.
  Qed.

  (** A side of a merge. *)
  Lemma side_level i r v : nth_error L i = Some r -> (v = l_a r \/ v = l_b r) -> level (under n L v) (l_d r).
  Proof.
    intros Hr Hv. destruct HL as (HD & _ & HH & _). split; [|split].
    - eapply row_weight; eauto.
    - intros x y Hx Hy. destruct (le_lt_dec n v) as [Hge|Hlt].
      + pose proof (child_lt n L HD i r v Hr Hv) as Hc. assert (Hi : i < length L) by (apply nth_error_Some; congruence).
        assert (exists q, nth_error L (v - n) = Some q) as [q Hq] by (destruct (nth_error L (v - n)) eqn:E; eauto; apply nth_error_None in E; lia).
        replace v with (n + (v - n)) in Hx, Hy by lia. apply (node_joined _ (v - n) q); auto; [apply threshold_le|].
        apply (heights_le L (v - n) i); auto. lia.
      + rewrite <- (P_SameLinkage.under_leaf n L v x Hx Hlt), <- (P_SameLinkage.under_leaf n L v y Hy Hlt). apply connected_refl.
    - intros x y Hx Hy Hny K. pose proof (under_lt _ _ _ _ Hx) as Hxn.
      destruct (light_node _ x y (threshold_lt (l_d r)) K Hxn Hy) as [<-|(j & q & Hq & Hw & U1 & U2)]; [contradiction|].
      apply Hny. assert (Hji : j < i).
      { destruct (le_lt_dec i j) as [Hle|]; auto. apply wlt_nle in Hw. rewrite (heights_le L i j r q HH Hr Hq Hle) in Hw. discriminate. }
      assert (KA : dn n L v (n + j)).
      { destruct (dn_chain n L HD _ _ _ (under_dn _ _ _ _ Hx) (under_dn _ _ _ _ U1)) as [|K']; auto.
        destruct (Nat.eq_dec (n + j) v) as [E|Hne]; [rewrite E; constructor|].
        assert (K3 : dn n L (n + j) (n + i)) by (eapply (dn_parent n L HD); eauto). apply (dn_le n L HD) in K3. lia. }
      eapply dn_under_up; eauto.
  Qed.

  (** Clusters below the root. *)
  Lemma cluster_level c : is_cluster n T c -> c <> n -> exists d, level (below n T c) d.
  Proof.
    intros Hc Hne. pose proof HF as (top & _ & Hbel & _ & Hclu). pose proof Hc as [|(Hcn & q & Hq & E)]; [contradiction|].
    destruct (Hclu q Hq ltac:(lia)) as (i & r & _ & Hr & _ & _ & Hv & _). rewrite E in Hv.
    destruct (side_level i r _ Hr Hv) as (H1 & H2 & H3). exists (l_d r). split; auto. split.
    - intros x y Hx Hy. apply H2; apply Hbel; auto.
    - intros x y Hx Hy Hny. apply H3; auto; [apply Hbel; auto|]. intro K. apply Hny, Hbel; auto.
  Qed.

  (** The samples that leave at density [thr] or above, if all splits are above. *)
  Lemma dense_level (thr : V) : (forall q, In q T -> n <= c_child q -> c_parent q = n -> wle thr (c_lam q) = true) ->
    (exists q, In q T /\ wle thr (c_lam q) = true) ->
    exists d, level (fun x => exists q, In q T /\ c_child q = x /\ x < n /\ wle thr (c_lam q) = true) d.
  Proof.
    intros Hs (q0 & Hq0 & Hd0). pose proof HL as (HD & _ & HH & _). pose proof HF as (top & Htop & Hbel & Hsam & Hclu).
    assert (Hrows : forall q, In q T -> exists i r, nth_error L i = Some r /\ c_lam q = lam (l_d r)).
    { intros q Hq. destruct (le_lt_dec n (c_child q)) as [H|H].
      - destruct (Hclu q Hq H) as (i & r & _ & H1 & _ & H2 & _). eauto.
      - destruct (Hsam q Hq H) as (i & r & _ & _ & H1 & H2 & _). eauto. }
    (* the heaviest edge of that density *)
    assert (Hmax : exists e, In e M /\ wle thr (lam (ewt e)) = true /\ forall f, In f M -> wle thr (lam (ewt f)) = true -> wle (ewt f) (ewt e) = true).
    { destruct (Hrows q0 Hq0) as (i & r & Hr & E). destruct (row_weight i r Hr) as (e & He & Ee).
      assert (H0 : wle thr (lam (ewt e)) = true) by (rewrite Ee, <- E; auto). clear -He H0.
      assert (G : forall l, (forall e, In e l -> wle thr (lam (ewt e)) = false) \/ exists e, In e l /\ wle thr (lam (ewt e)) = true /\ forall f, In f l -> wle thr (lam (ewt f)) = true -> wle (ewt f) (ewt e) = true).
      { induction l as [|a l IH]; [left; intros ? []|]. destruct (wle thr (lam (ewt a))) eqn:Ea.
        - right. destruct IH as [IH|(e' & H1 & H2 & H3)].
          + exists a. split; [now left|]. split; auto. intros f [<-|Hf] Hw; [apply wle_refl|]. rewrite (IH f Hf) in Hw. discriminate.
          + destruct (wle_total _ (ewt a) (ewt e')) as [Hle|Hle].
            * exists e'. split; [now right|]. split; auto. intros f [<-|Hf] Hw; auto.
            * exists a. split; [now left|]. split; auto. intros f [<-|Hf] Hw; [apply wle_refl|]. eapply wle_trans; eauto.
        - destruct IH as [IH|(e' & H1 & H2 & H3)].
          + left. intros f [<-|Hf]; auto.
          + right. exists e'. split; [now right|]. split; auto. intros f [<-|Hf] Hw; [congruence|auto]. }
      destruct (G M) as [K|K]; auto. rewrite (K e He) in H0. discriminate. }
    destruct Hmax as (e & He & Hthr & Hmax). exists (ewt e). split; [eauto|]. split.
    - intros x y (qx & Hqx & Ex & Hx & Lx) (qy & Hqy & Ey & Hy & Ly).
      assert (Hroot : is_cluster n T n) by (now left).
      assert (Hall : forall z, z < n -> below n T n z).
      { intros z Hz. apply Hbel; auto. rewrite Htop. apply dn_under; [|lia]. apply (root_dn n L HD); lia. }
      destruct (leave_together n L wt mcs lam T HD HF n x y (fun v => wle thr v = true) Hroot (Hall x Hx) (Hall y Hy)) as (i & r & Hr & Hp & U1 & U2).
      + intros q Hq Ep [Ec|[Hcq _]]; auto. assert (q = qx) as -> by (eapply (row_eq n wt mcs T HT); eauto; congruence). auto.
      + intros q Hq Ep [Ec|[Hcq _]]; auto. assert (q = qy) as -> by (eapply (row_eq n wt mcs T HT); eauto; congruence). auto.
      + apply (node_joined _ i r); auto; [apply threshold_le|]. destruct (row_weight i r Hr) as (f & Hf & Ef). rewrite <- Ef. apply Hmax; auto. now rewrite Ef.
    - intros x y (qx & Hqx & Ex & Hx & Lx) Hy Hny K.
      destruct (light_node _ x y (threshold_lt (ewt e)) K Hx Hy) as [<-|(j & r & Hr & Hw & U1 & U2)]; [apply Hny; eauto 6|].
      destruct (sample_leaves n L wt mcs lam Hn T HT top Htop Hsam Hclu x Hx) as (q1 & i1 & r1 & v1 & H1 & H2 & _ & H3 & H4 & H5 & H6 & H7 & H8).
      destruct (sample_leaves n L wt mcs lam Hn T HT top Htop Hsam Hclu y Hy) as (q2 & i2 & r2 & v2 & G1 & G2 & _ & G3 & G4 & G5 & G6 & G7 & G8).
      assert (q1 = qx) as -> by (eapply (row_eq n wt mcs T HT); eauto; congruence).
      destruct (wle thr (c_lam q2)) eqn:Et; [apply Hny; eauto 6|].
      assert (Hlj : wle thr (lam (l_d r)) = true).
      { eapply wle_trans; [exact Hthr|]. apply Hlam. unfold wlt in Hw. apply wlt_le. exact Hw. }
      assert (Hji : j < i2).
      { destruct (le_lt_dec i2 j) as [Hle|]; auto. pose proof (heights_le L i2 j r2 r HH G4 Hr Hle) as Hh. apply Hlam in Hh. rewrite <- G5 in Hh.
        rewrite (wle_trans _ _ _ _ Hlj Hh) in Et. discriminate. }
      assert (KA : dn n L v2 (n + j)).
      { destruct (dn_chain n L HD _ _ _ (under_dn _ _ _ _ G8) (under_dn _ _ _ _ U2)) as [|K']; auto.
        destruct (Nat.eq_dec (n + j) v2) as [E|Hne]; [rewrite E; constructor|].
        assert (K3 : dn n L (n + j) (n + i2)) by (eapply (dn_parent n L HD); eauto). apply (dn_le n L HD) in K3. lia. }
      assert (Ux : under n L v2 x) by (eapply dn_under_up; eauto).
      destruct (leaves_once n L wt mcs HD Hn i1 r1 v1 i2 r2 v2 x) as [<- _]; auto.
      assert (r2 = r1) as -> by congruence. congruence.
  Qed.
End Level.

Lemma level_ext {W : WOrd} n (M : list (edge W)) A B d : (forall x, A x <-> B x) -> level n M A d -> level n M B d.
Proof. intros H (H1 & H2 & H3). split; auto. split; [intros x y Hx Hy; apply H2; now apply H|]. intros x y Hx Hy Hn. apply H3; auto; [now apply H|]. intro K. apply Hn. now apply H. Qed.

(** ** Every reported cluster *)
Section Explained.
  Context {W V : WOrd} {Sz : SOrd}.
  Variables (lam : W -> V) (LA : LamArith V) (st : settings V Sz) (n : nat) (wt : nat -> Sz) (M : list (edge W)) (ls : list Z) (ps : list V)
    (T : list (crow V Sz)) (L : list (lrow W Sz)) (T0 : list (crow V Sz)) (chosen final : list nat).
  Hypothesis HX : explained lam LA st n wt M ls ps T L T0 chosen final.
  Hypothesis Hn : 2 <= n.
  Hypothesis Hlam : forall x y, wle x y = true -> wle (lam y) (lam x) = true.
  Hypothesis Hpos : forall e, In e M -> wlt (la_zero LA) (lam (ewt e)) = true.
  Hypothesis Hus : usable (la_zero LA) st.
  Hypothesis Hroot : one_root st.
  Notation mcs := (min_cluster_size st).
  Notation label x := (nth x ls 0%Z).

  Let HT : condensed n wt mcs T := proj1 (xp_tree _ _ _ _ _ _ _ _ _ _ _ _ _ HX).
  Let HT0 : condensed n wt mcs T0 := xp_condensed _ _ _ _ _ _ _ _ _ _ _ _ _ HX.
  Let HF : faithful n L wt mcs None lam T0 := xp_faithful _ _ _ _ _ _ _ _ _ _ _ _ _ HX.
  Let HL : linkage_of n wt M L := xp_linkage _ _ _ _ _ _ _ _ _ _ _ _ _ HX.
  Let HO : ordered_tree n T := condensed_ordered n wt mcs T HT.

  Lemma T0_pos q : In q T0 -> wlt (la_zero LA) (c_lam q) = true.
  Proof.
    intro Hq. pose proof HF as (top & _ & _ & Hsam & Hclu).
    assert (exists i r, nth_error L i = Some r /\ c_lam q = lam (l_d r)) as (i & r & Hr & ->).
    { destruct (le_lt_dec n (c_child q)) as [H|H].
      - destruct (Hclu q Hq H) as (i & r & _ & H1 & _ & H2 & _). eauto.
      - destruct (Hsam q Hq H) as (i & r & _ & _ & H1 & H2 & _). eauto. }
    destruct (row_weight n wt M L HL i r Hr) as (e & He & <-). auto.
  Qed.
  Lemma sample_pos r : In r T -> c_child r < n -> ~ at_zero (la_zero LA) r.
  Proof.
    intros Hr Hc [Hz _]. pose proof (xp_persistence _ _ _ _ _ _ _ _ _ _ _ _ _ HX) as HP.
    destruct (cluster_selection_persistence st) as [p|].
    - destruct HP as (new & _ & _ & _ & _ & _ & HS). destruct (sample_row n wt mcs T0 HT0 _ Hc) as (q & Hq & Eq).
      destruct (HS q Hq) as (r' & c & Hr' & Ec & _ & _ & N1 & N2); [lia|].
      assert (r' = r) as -> by (eapply (row_eq n wt mcs T HT); eauto; congruence).
      assert (NL : ~ lowered p n T0 (c_parent q)).
      { intro K. pose proof K as (d & v & w & (o & o' & Ho & _ & _ & _ & Eo & _) & _). pose proof (N2 K o Ho Eo) as E. rewrite E in Hz.
        pose proof (T0_pos o Ho) as HH. apply wlt_nle in HH. congruence. }
      rewrite (N1 NL) in Hz. pose proof (T0_pos q Hq) as HH. apply wlt_nle in HH. congruence.
    - rewrite HP in Hr. pose proof (T0_pos r Hr) as HH. apply wlt_nle in HH. congruence.
  Qed.

  Lemma final_level t : In t final -> t <> n -> exists d, level n M (below n T t) d.
  Proof.
    intros Ht Hne. destruct (xp_disjoint _ _ _ _ _ _ _ _ _ _ _ _ _ HX) as (_ & HC & _). specialize (HC t Ht).
    pose proof (xp_persistence _ _ _ _ _ _ _ _ _ _ _ _ _ HX) as HP.
    destruct (cluster_selection_persistence st) as [p|].
    - destruct HP as (new & Hnew & _ & Hcl & Hbel & _). destruct (proj1 (Hcl t) HC) as (c & Hk & Et). destruct Hk as [Hk|Hk]; [congruence|].
      destruct Hk as (K1 & K2 & K3). destruct (cluster_level n wt mcs lam M L T0 HL Hn HF c K1 K2) as [d Hd].
      exists d. eapply level_ext; [|exact Hd]. intro x. symmetry. rewrite <- Et. apply Hbel. right. split; auto.
    - rewrite HP in *. apply (cluster_level n wt mcs lam M L T0 HL Hn HF t); auto.
  Qed.

  Lemma root_not_chosen : In n chosen -> cluster_rows n T <> [] /\ cluster_selection_epsilon st = None /\ cluster_selection_persistence st = None.
  Proof.
    intro Hc. assert (HR : cluster_rows n T <> []).
    { intro E. rewrite (xp_unsplit _ _ _ _ _ _ _ _ _ _ _ _ _ HX E) in Hc. destruct Hc. }
    split; auto. destruct (cluster_selection_method st) eqn:Em.
    - apply (proj1 Hroot); auto. destruct (xp_eom _ _ _ _ _ _ _ _ _ _ _ _ _ HX Em HR) as (HA & _). destruct (HA n Hc) as (_ & K & _).
      destruct (allow_single_cluster st); auto. exfalso. now apply K.
    - exfalso. apply (xp_leaf _ _ _ _ _ _ _ _ _ _ _ _ _ HX Em HR) in Hc as [_ K]. destruct (root_children n wt mcs T HT HR) as (r & Hr & E).
      apply (K r); auto; [now apply (ct_in n T)|]. pose proof (ct_child_in n wt mcs T HT r Hr). lia.
  Qed.

  (** Its members: the samples below a cluster, or the dense part of everything. *)
  Lemma cluster_shape x0 : x0 < n -> label x0 <> (-1)%Z ->
    (exists t, In t final /\ t <> n /\ forall x, below n T t x <-> x < n /\ label x = label x0) \/
    (T = T0 /\ exists thr, (forall q, In q T -> n <= c_child q -> c_parent q = n -> wle thr (c_lam q) = true) /\
       (exists q, In q T /\ wle thr (c_lam q) = true) /\
       forall x, (exists q, In q T /\ c_child q = x /\ x < n /\ wle thr (c_lam q) = true) <-> x < n /\ label x = label x0).
  Proof.
    intros Hx0 Hl0. destruct (xp_disjoint _ _ _ _ _ _ _ _ _ _ _ _ _ HX) as (HN & HC & HD).
    assert (Hne : final <> []).
    { intro E. destruct (xp_all_noise _ _ _ _ _ _ _ _ _ _ _ _ _ HX E) as [E' _]. apply Hl0. rewrite E', nth_indep with (d' := (-1)%Z).
      - apply nth_repeat.
      - now rewrite repeat_length. }
    assert (Hge : forall s, In s final -> n <= s) by (intros s Hs; destruct (HC s Hs) as [->|[H _]]; auto).
    assert (Hrow : forall x, x < n -> exists r t, In r T /\ c_child r = x /\ home n final T x t /\
      (t <> n -> label x = Z.of_nat (position final t)) /\ (t = n -> final <> [n] -> label x = (-1)%Z) /\
      (t = n -> final = [n] -> (dense_enough n T (option_map snd (cluster_selection_epsilon st)) r -> label x = 0%Z) /\
        (~ dense_enough n T (option_map snd (cluster_selection_epsilon st)) r -> label x = (-1)%Z))).
    { intros x Hx. destruct (sample_row n wt mcs T HT x Hx) as (r & Hr & E). subst x.
      destruct (xp_labels _ _ _ _ _ _ _ _ _ _ _ _ _ HX Hne r Hr Hx) as [_ K]. destruct (K (sample_pos r Hr Hx)) as (t & K1 & K2 & K3 & K4). exists r, t. auto 7. }
    assert (Hin : forall v t, home n final T v t -> t = n \/ In t final) by (intros v t H; induction H; auto).
    destruct (Hrow x0 Hx0) as (r0 & t0 & Hr0 & Ec0 & Hh0 & A1 & A2 & A3).
    destruct (Nat.eq_dec t0 n) as [->|Ht0].
    - assert (EF : final = [n]) by (destruct (list_eq_dec Nat.eq_dec final [n]) as [E|E]; auto; exfalso; apply Hl0; auto).
      (* every sample belongs to the root *)
      assert (Hlab : forall x, x < n -> exists r, In r T /\ c_child r = x /\
        (dense_enough n T (option_map snd (cluster_selection_epsilon st)) r -> label x = 0%Z) /\ (~ dense_enough n T (option_map snd (cluster_selection_epsilon st)) r -> label x = (-1)%Z)).
      { intros x Hx. destruct (Hrow x Hx) as (r & t & Hr & Ec & Hh & _ & _ & B3). exists r. split; auto. split; auto. apply B3; auto.
        destruct (Hin _ _ Hh) as [|K]; auto. rewrite EF in K. destruct K as [K|[]]; auto. }
      assert (HR : cluster_rows n T <> [] /\ cluster_selection_persistence st = None /\ exists thr,
        (forall q, In q T -> n <= c_child q -> c_parent q = n -> wle thr (c_lam q) = true) /\
        (forall r, dense_enough n T (option_map snd (cluster_selection_epsilon st)) r <-> wle thr (c_lam r) = true)).
      { assert (Hfn : In n final) by (rewrite EF; now left). destruct (cluster_selection_epsilon st) as [[lt_eps inv]|] eqn:Ee.
        - destruct (le_lt_dec (length chosen) 1) as [Hle|Hlt].
          + rewrite (xp_no_epsilon _ _ _ _ _ _ _ _ _ _ _ _ _ HX (or_intror Hle)) in Hfn. apply root_not_chosen in Hfn as (_ & K & _). congruence.
          + destruct (xp_epsilon _ _ _ _ _ _ _ _ _ _ _ _ _ HX lt_eps inv Ee Hlt) as (K & _). destruct (K n Hfn) as [[K1 _]|K1].
            * apply root_not_chosen in K1 as (_ & K1 & _). congruence.
            * destruct K1 as (_ & _ & Hb & s & _ & Hs). split; [|split].
              -- destruct (Hb s Hs) as (q & Hq & Hge' & _). intro E. apply (in_nil (a := q)). rewrite <- E. apply filter_In. split; auto. now apply Nat.leb_le.
              -- destruct (proj2 Hroot) as [E|E]; [congruence|auto].
              -- exists inv. cbn [option_map snd dense_enough]. split; [|tauto]. intros q Hq Hgq Ep.
                 destruct (Hb (c_child q)) as (q' & Hq' & _ & E & Hlt'); [pose proof (desc_child n T q Hq Hgq) as Hde; rewrite Ep in Hde; exact Hde|].
                 assert (q' = q) as -> by (eapply (row_eq n wt mcs T HT); eauto). exact (proj1 (proj2 (us_eps _ _ Hus lt_eps inv Ee) _ Hlt')).
        - rewrite (xp_no_epsilon _ _ _ _ _ _ _ _ _ _ _ _ _ HX (or_introl Ee)) in Hfn. apply root_not_chosen in Hfn as (HR & _ & HP). split; auto. split; auto.
          pose proof (xp_persistence _ _ _ _ _ _ _ _ _ _ _ _ _ HX) as ET. rewrite HP in ET.
          destruct (root_children n wt mcs T HT HR) as (q0 & Hq0 & Ep). pose proof (ct_in n T q0 Hq0) as Hq0T. pose proof (ct_child_in n wt mcs T HT q0 Hq0) as Hc0.
          assert (Hdens : forall q, In q T -> c_parent q = n -> wle (c_lam q) (c_lam q0) = true).
          { intros q Hq E. pose proof HL as (HDn & _ & HH & _). rewrite ET in Hq, Hq0T. apply (split_densest n L wt mcs lam T0 HDn HH Hlam HF); auto; [lia|congruence]. }
          assert (Hdens' : forall q, In q T -> n <= c_child q -> c_parent q = n -> wle (c_lam q0) (c_lam q) = true).
          { intros q Hq Hgq E. pose proof HL as (HDn & _ & HH & _). rewrite ET in Hq, Hq0T. apply (split_densest n L wt mcs lam T0 HDn HH Hlam HF); auto. congruence. }
          exists (c_lam q0). split; auto. intro r. cbn [option_map dense_enough]. split; [intro K; now apply K|]. intros K q Hq E. eapply wle_trans; [|exact K]. auto. }
      destruct HR as (HR & HP & thr & Hs & Hd). pose proof (xp_persistence _ _ _ _ _ _ _ _ _ _ _ _ _ HX) as ET. rewrite HP in ET.
      destruct (root_children n wt mcs T HT HR) as (q0 & Hq0 & Ep). pose proof (ct_in n T q0 Hq0) as Hq0T. pose proof (ct_child_in n wt mcs T HT q0 Hq0) as Hc0.
      right. split; auto. exists thr. split; auto. split; [exists q0; split; auto; apply Hs; auto; lia|]. intro x.
        assert (E0 : label x0 = 0%Z).
        { apply A3; auto. apply Hd. destruct (wle thr (c_lam r0)) eqn:Et; auto. exfalso. apply Hl0. apply A3; auto. rewrite Hd. congruence. }
        rewrite E0. split.
        * intros (q & Hq & Ec & Hx & Hw). split; auto. destruct (Hlab x Hx) as (r & Hr & Er & K & _). apply K, Hd.
          assert (r = q) as -> by (eapply (row_eq n wt mcs T HT); eauto; congruence). auto.
        * intros [Hx E]. destruct (Hlab x Hx) as (r & Hr & Er & _ & K). exists r. repeat (split; auto). destruct (wle thr (c_lam r)) eqn:Et; auto.
          rewrite K in E; [discriminate|]. rewrite Hd. congruence.
    - destruct (Hin _ _ Hh0) as [|Hf0]; [contradiction|]. left. exists t0. split; auto. split; auto. intro x. split.
      + intro Hb. pose proof (below_lt n T _ _ Hb) as Hx. split; auto. destruct (Hrow x Hx) as (r & t & Hr & Ec & Hh & B1 & _).
        assert (t = t0) as ->. { eapply (home_det n T final HO Hge); eauto. apply (disjoint_home n T final HO ltac:(lia) HC); auto. }
        rewrite A1, B1; auto.
      + intros [Hx E]. destruct (Hrow x Hx) as (r & t & Hr & Ec & Hh & B1 & B2 & B3). destruct (Nat.eq_dec t n) as [->|Ht].
        * exfalso. rewrite B2 in E; auto. intro EF. rewrite EF in Hf0. destruct Hf0 as [K|[]]; congruence.
        * destruct (Hin _ _ Hh) as [|Hf]; [contradiction|]. rewrite A1, B1 in E; auto. apply Nat2Z.inj in E. apply position_inj in E; auto. subst t.
          apply (home_sample_below n T final HO ltac:(lia) HC); auto.
  Qed.

  Theorem cluster_at_level x0 : x0 < n -> label x0 <> (-1)%Z -> exists d, level n M (fun x => x < n /\ label x = label x0) d.
  Proof.
    intros Hx0 Hl0. destruct (cluster_shape x0 Hx0 Hl0) as [(t & Ht & Hne & Hx)|(ET & thr & Hs & Hd & Hx)].
    - destruct (final_level t Ht Hne) as [d Hd]. exists d. eapply level_ext; [|exact Hd]. exact Hx.
    - rewrite ET in Hs, Hd, Hx. destruct (dense_level n wt mcs lam M L T0 HL Hn Hlam HT0 HF thr Hs Hd) as [d Hlev]. exists d. eapply level_ext; [|exact Hlev]. exact Hx.
  Qed.
End Explained.
