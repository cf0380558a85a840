(** The clusters of the hierarchy as parts of density-connected groups. *)
From Coq Require Import List Arith Lia Bool Permutation Sorted ZArith.
From Verif Require Import Prelude Order Graph Size Num Forest S_Kruskal M_Linkage S_Linkage M_Condense S_Condense M_Select S_Select M_Labels S_Labels S_Epsilon M_Pipeline S_Pipeline
  P_CTree P_Below P_NodePath P_SameLinkage P_Unique P_Faithful P_Labels P_LabelsTop P_LabelsProps P_PipelineRun P_PipelineTop P_PipelineMeaning S_Simplify S_Level S_Unique S_Join P_Level P_Join S_Split P_Split P_SplitTop S_Resize P_Resize P_KeptLower P_ResizeLeaf S_Parts.
Import ListNotations.
Local Open Scope nat_scope.

Section Parts.
  Context {W V : WOrd} {Sz : SOrd}.
  Variables (n : nat) (wt : nat -> Sz) (mcs : Sz) (lam : W -> V) (M : list (edge W)) (L : list (lrow W Sz)) (T : list (crow V Sz)).
  Hypothesis HL : linkage_of n wt M L.
  Hypothesis Hn : 2 <= n.
  Hypothesis HT : condensed n wt mcs T.
  Hypothesis HF : faithful n L wt mcs None lam T.
  Hypothesis Hnonneg : forall x, x < n -> sle szero (wt x) = true.
  Hypothesis Hdw : distinct_weights M.
  Notation root := (2 * n - 2).
  Notation dn := (dn n L).
  Notation large := (large n L wt mcs).
  Notation near eps := (connected (passing (fun w => wlt w eps) M)).
  Let HD : dendrogram n L := proj1 HL.

  (** A side of a merge is what shorter edges connect. *)
  Lemma side_near i r c x z : nth_error L i = Some r -> (c = l_a r \/ c = l_b r) -> under n L c x -> (under n L c z <-> z < n /\ near (l_d r) x z).
  Proof.
    intros Hr Hc Ux. pose proof (row_lt n L HD i r Hr) as Hi. pose proof (child_lt n L HD i r c Hr Hc) as Hlt. split.
    - intro Uz. split; [eapply under_lt; eauto|]. destruct (le_lt_dec n c) as [Hge|Hl].
      + destruct (nth_error L (c - n)) as [q|] eqn:Eq; [|apply nth_error_None in Eq; pose proof (dg_len _ _ HD); lia].
        replace c with (n + (c - n)) in Ux, Uz by lia. apply (node_joined n wt M L HL _ (c - n) q); auto; [apply threshold_lt|].
        apply (strict_below n wt M L HL Hn i (c - n)); auto. lia.
      + rewrite <- (P_SameLinkage.under_leaf n L c x Ux Hl), <- (P_SameLinkage.under_leaf n L c z Uz Hl). apply connected_refl.
    - intros [Hz Hxz]. destruct (side_level n wt M L HL Hn i r c Hr Hc) as (_ & _ & Hsep).
      destruct (light_node n wt M L HL Hn _ x z (threshold_lt (l_d r)) Hxz ltac:(eapply under_lt; eauto) Hz) as [<-|(j & q & Hq & Hw & U1 & U2)]; auto.
      destruct (dn_chain n L HD _ _ _ (under_dn _ _ _ _ Ux) (under_dn _ _ _ _ U1)) as [K|K]; [eapply dn_under_up; eauto|].
      destruct (Nat.eq_dec (n + j) c) as [<-|Hne]; auto. exfalso.
      assert (K3 : dn (n + j) (n + i)) by (eapply (dn_parent n L HD); eauto). apply (dn_le n L HD) in K3.
      pose proof HL as (_ & _ & HH & _). pose proof (heights_le L i j r q HH Hr Hq ltac:(lia)) as Hle. apply wlt_nle in Hw. congruence.
  Qed.

  Lemma large_crowd i r c x : nth_error L i = Some r -> (c = l_a r \/ c = l_b r) -> under n L c x -> (large c <-> crowd n wt mcs (near (l_d r) x)).
  Proof.
    intros Hr Hc Ux. pose proof (row_lt n L HD i r Hr) as Hi. pose proof (child_lt n L HD i r c Hr Hc) as Hlt. split.
    - intros (s & Hs & Hm). destruct (node_samples n wt M L HL c s Hs (node_lt n wt M L HL Hn c ltac:(lia))) as (xs & N & U & ->). exists xs. split; auto. split; auto.
      intros y Hy. apply U in Hy. now apply (side_near i r c x y).
    - intros (xs & N & U & Hm). eapply (over_crowd n wt mcs M L HL Hn Hnonneg c xs); eauto; [lia|]. intros y Hy. apply (side_near i r c x y); auto.
  Qed.

  Lemma hierarchy_part P : hierarchy_cluster n T P <-> part_by n wt mcs M P.
  Proof.
    pose proof HF as (top & Htop & Hbel & Hsam & Hclu). split.
    - intros (q & Hq & HP). destruct (row_cluster n wt T _ q HT Hq) as [Hcl _]. pose proof (ct_child_in n wt mcs T HT q Hq) as Hc.
      destruct (Hclu q (ct_in n T q Hq) ltac:(lia)) as (i & r & _ & Hr & Sp & _ & Hv & _). apply split_iff in Sp as [La Lb].
      pose proof (row_lt n L HD i r Hr) as Hi.
      assert (HC : exists c d, (c = l_a r \/ c = l_b r) /\ (d = l_a r \/ d = l_b r) /\ c = top (c_child q) /\ (forall x, under n L c x -> under n L d x -> False) /\ large c /\ large d).
      { destruct Hv as [E|E]; [exists (l_a r), (l_b r)|exists (l_b r), (l_a r)]; (split; [auto|]; split; [auto|]; split; [congruence|]; split; [intros x H1 H2; eapply (siblings_apart n L HD); eauto|auto]). }
      destruct HC as (c & d & Cc & Cd & Ec & Hap & Lc & Ld).
      pose proof (child_lt n L HD i r c Hr Cc). pose proof (child_lt n L HD i r d Hr Cd).
      destruct (has_sample n L HD c ltac:(apply (node_iff n L HD); lia)) as [x Ux]. destruct (has_sample n L HD d ltac:(apply (node_iff n L HD); lia)) as [y Uy].
      pose proof (under_lt _ _ _ _ Ux). pose proof (under_lt _ _ _ _ Uy).
      exists (l_d r), x, y. split; auto. split; auto. split; [now apply (large_crowd i r c x Hr Cc Ux)|]. split; [now apply (large_crowd i r d y Hr Cd Uy)|]. split; [|split].
      + intro K. apply (Hap y); auto. apply (side_near i r c x y); auto.
      + intros eps' He. apply (node_joined n wt M L HL _ i r); auto; [apply threshold_lt| |].
        * destruct Cc as [->| ->]; [eapply under_a|eapply under_b]; eauto.
        * destruct Cd as [->| ->]; [eapply under_a|eapply under_b]; eauto.
      + intro z. rewrite <- HP, (Hbel _ z Hcl), <- Ec. apply (side_near i r c x z); auto.
    - intros (eps & x & y & Hx & Hy & Cx & Cy & Hxy & Hlong & HP).
      destruct (meet n wt M L HL Hn root x y) as (i & r & Hr & Hor); try (apply (root_dn n L HD); lia).
      { intro K. apply Hxy. rewrite (P_SameLinkage.under_leaf n L x y (dn_under _ _ _ _ K Hy) Hx). apply connected_refl. }
      { intro K. apply Hxy. rewrite (P_SameLinkage.under_leaf n L y x (dn_under _ _ _ _ K Hx) Hy). apply connected_refl. }
      assert (HC : exists c d, (c = l_a r \/ c = l_b r) /\ (d = l_a r \/ d = l_b r) /\ (c = l_a r /\ d = l_b r \/ c = l_b r /\ d = l_a r) /\ under n L c x /\ under n L d y).
      { destruct Hor as [[A B]|[A B]]; [exists (l_a r), (l_b r)|exists (l_b r), (l_a r)]; (split; [auto|split; [auto|split; [auto|split; apply dn_under; auto]]]). }
      destruct HC as (c & d & Cc & Cd & Ecd & Ux & Uy).
      assert (Hap : forall z, under n L c z -> under n L d z -> False) by (intros z H1 H2; destruct Ecd as [[-> ->]|[-> ->]]; eapply (siblings_apart n L HD); eauto).
      assert (Unx : under n L (n + i) x) by (destruct Cc as [->| ->]; [eapply under_a|eapply under_b]; eauto).
      assert (Uny : under n L (n + i) y) by (destruct Cd as [->| ->]; [eapply under_a|eapply under_b]; eauto).
      assert (E1 : wle (l_d r) eps = true).
      { destruct (wle (l_d r) eps) eqn:E; auto. exfalso. assert (K : wlt eps (l_d r) = true) by (apply wlt_nle; auto). apply Hlong in K.
        apply (Hap y); auto. apply (side_near i r c x y); auto. }
      assert (E2 : wle eps (l_d r) = true).
      { destruct (wle eps (l_d r)) eqn:E; auto. exfalso. apply Hxy. apply (node_joined n wt M L HL _ i r); auto; [apply threshold_lt|now apply wlt_nle]. }
      assert (NE : forall u z, near eps u z <-> near (l_d r) u z).
      { intros u z. split; apply connected_incl; intros e He; apply in_passing in He as [He Hw]; apply in_passing; split; auto; eapply wlt_le_trans; eauto. }
      assert (CE : forall u, crowd n wt mcs (near eps u) -> crowd n wt mcs (near (l_d r) u)).
      { intros u (xs & N & U & Hm). exists xs. split; auto. split; auto. intros z Hz. destruct (U z Hz) as [H1 H2]. split; auto. now apply NE. }
      apply CE in Cx. apply CE in Cy. apply (large_crowd i r c x) in Cx; auto. apply (large_crowd i r d y) in Cy; auto.
      destruct (side_cluster n wt M L HL lam Hn Hnonneg mcs T HT top Htop Hsam Hclu i r c Hr) as (q & Hq & Eq); auto.
      { destruct Ecd as [[-> ->]|[-> ->]]; auto. } { destruct Ecd as [[-> ->]|[-> ->]]; auto. }
      exists q. split; auto. destruct (row_cluster n wt T _ q HT Hq) as [Hcl _]. intro z. rewrite (Hbel _ z Hcl), Eq, HP, NE. apply (side_near i r c x z); auto.
  Qed.
End Parts.

(** The leaf clusters of a run. *)
Section Reported.
  Context {W V : WOrd} {Sz : SOrd}.
  Variables (lam : W -> V) (LA : LamArith V) (st : settings V Sz) (n : nat) (wt : nat -> Sz) (M : list (edge W)) (L : list (lrow W Sz))
    (ls : list Z) (ps : list V) (T T0 : list (crow V Sz)) (ch fin : list nat).
  Hypothesis HX : explained lam LA st n wt M ls ps T L T0 ch fin.
  Hypothesis Hn : 2 <= n.
  Hypothesis Hus : usable (la_zero LA) st.
  Hypothesis Hz : sle (s := Sz) szero sone = true.
  Hypothesis Hpos : forall e, In e M -> wlt (la_zero LA) (lam (ewt e)) = true.
  Hypothesis Heps : cluster_selection_epsilon st = None.
  Hypothesis Hleaf : cluster_selection_method st = Leaf.
  Let HT : condensed n wt (min_cluster_size st) T := proj1 (xp_tree _ _ _ _ _ _ _ _ _ _ _ _ _ HX).
  Notation label x := (nth x ls 0%Z).

  Lemma leaf_facts : cluster_rows n T <> [] -> ~ In n fin /\ (forall l, In l fin <-> leaf_cluster n T l) /\
    forall l z, In l fin -> z < n -> (label z = Z.of_nat (position fin l) <-> below n T l z).
  Proof.
    intro HR. assert (Hs : allow_single_cluster st = false \/ cluster_selection_method st = Leaf) by auto.
    assert (Ef : fin = ch) by (eapply final_chosen; eauto). assert (Hnf : ~ In n fin) by (eapply root_not_final; eauto).
    split; auto. split.
    - intro l. rewrite Ef. apply (xp_leaf _ _ _ _ _ _ _ _ _ _ _ _ _ HX Hleaf HR).
    - intros l z Hl Hzn. eapply (final_member lam LA st n wt M ls ps T L T0 ch fin); eauto.
  Qed.

  Lemma reported_smallest P : reported n ls P <-> smallest (hierarchy_cluster n T) P.
  Proof.
    split.
    - intros (x & Hx & Lx & HP). assert (HR : cluster_rows n T <> []).
      { intro E. apply Lx. rewrite (no_rows_noise lam LA st n wt M ls ps T L T0 ch fin HX Hn E), nth_indep with (d' := (-1)%Z); [apply nth_repeat|now rewrite repeat_length]. }
      destruct (leaf_facts HR) as (Hnf & Hlf & MB).
      destruct (labelled_final lam LA st n wt M ls ps T L T0 ch fin HX x Hn Hpos Hnf Hx Lx) as (l & Hl & Hb).
      pose proof (proj1 (Hlf l) Hl) as Hleafl. pose proof Hleafl as [Hc _]. assert (Hln : l <> n) by (intros ->; contradiction).
      destruct (cluster_row_of n T l Hc Hln) as (r & Hr & Er).
      assert (HPl : forall z, P z <-> below n T l z).
      { intro z. rewrite HP. unfold cluster_of. rewrite (proj2 (MB l x Hl Hx) Hb). split.
        - intros [Hzn E]. now apply MB.
        - intro B. pose proof (below_lt n T l z B) as Hzn. split; auto. now apply MB. }
      split; [exists r; split; auto; intro z; rewrite Er; symmetry; apply HPl|].
      intros Q (q & Hq & HQ) HQP z Pz. apply HPl in Pz. destruct (row_cluster n wt T _ q HT Hq) as [Hqc _].
      assert (exists y, below n T (c_child q) y) as [y Hy] by (eapply any_below; eauto; apply (us_size _ _ Hus)).
      assert (By : below n T l y) by (apply HPl, HQP, HQ; auto). apply HQ.
      destruct (below_nested n wt _ T HT _ _ y Hy By) as [K|K]; [|eapply (below_up n wt _ T HT); eauto].
      destruct (Nat.eq_dec (c_child q) l) as [->|Hne]; auto. exfalso. destruct Hleafl as [_ Hno].
      assert (Hdesc : forall c d, descends n T c d -> exists r, In r T /\ n <= c_child r /\ c_parent r = c) by (induction 1; eauto).
      assert (Hd : descends n T l (c_child q)). { apply (descends_sub n wt _ T HT). split; auto. }
      destruct (Hdesc l (c_child q) Hd) as (u & U1 & U2 & U3). exact (Hno u U1 U2 U3).
    - intros [(r & Hr & HP) Hmin]. assert (HR : cluster_rows n T <> []) by (intro E; rewrite E in Hr; destruct Hr).
      destruct (leaf_facts HR) as (Hnf & Hlf & MB). destruct (row_cluster n wt T _ r HT Hr) as [Hrc _].
      assert (exists l, leaf_cluster n T l /\ (l = c_child r \/ descends n T (c_child r) l)) as (l & Hl & Hor) by (eapply leaf_below; eauto).
      assert (exists x, below n T l x) as [x Hx] by (eapply any_below; eauto; [apply (us_size _ _ Hus)|apply Hl]).
      pose proof (proj2 (Hlf l) Hl) as Hlin. pose proof (below_lt n T l x Hx) as Hxn.
      assert (Hln : l <> n) by (intros ->; contradiction). destruct (cluster_row_of n T l (proj1 Hl) Hln) as (q & Hq & Eq).
      assert (Hsub : forall z, below n T l z -> P z).
      { intros z B. apply HP. destruct Hor as [->|Hor]; auto. apply (descends_sub n wt _ T HT) in Hor as [Hor _]. eapply (below_up n wt _ T HT); eauto. }
      assert (HPl : forall z, P z <-> below n T l z).
      { intro z. split; auto. apply (Hmin (below n T l)); auto. exists q. split; auto. intro u. now rewrite Eq. }
      exists x. pose proof (proj2 (MB l x Hlin Hxn) Hx) as Ex. split; auto. split; [lia|]. intro z. rewrite HPl. unfold cluster_of. rewrite Ex. split.
      + intro B. pose proof (below_lt n T l z B) as Hzn. split; auto. now apply MB.
      + intros [Hzn E]. now apply MB.
  Qed.
End Reported.

(** Whatever the selection method is, a reported cluster is a cluster of the
    hierarchy. *)
Section Any.
  Context {W V : WOrd} {Sz : SOrd}.
  Variables (lam : W -> V) (LA : LamArith V) (st : settings V Sz) (n : nat) (wt : nat -> Sz) (M : list (edge W)) (L : list (lrow W Sz))
    (ls : list Z) (ps : list V) (T T0 : list (crow V Sz)) (ch fin : list nat).
  Hypothesis HX : explained lam LA st n wt M ls ps T L T0 ch fin.
  Hypothesis Hn : 2 <= n.
  Hypothesis Hpos : forall e, In e M -> wlt (la_zero LA) (lam (ewt e)) = true.
  Hypothesis Heps : cluster_selection_epsilon st = None.
  Hypothesis Hsingle : allow_single_cluster st = false \/ cluster_selection_method st = Leaf.
  Hypothesis Hnonneg : forall x, x < n -> sle szero (wt x) = true.
  Let HT : condensed n wt (min_cluster_size st) T := proj1 (xp_tree _ _ _ _ _ _ _ _ _ _ _ _ _ HX).

  Lemma reported_cluster P : reported n ls P -> hierarchy_cluster n T P.
  Proof.
    intros (x & Hx & Lx & HP). assert (HR : cluster_rows n T <> []).
    { intro E. apply Lx. rewrite (no_rows_noise lam LA st n wt M ls ps T L T0 ch fin HX Hn E), nth_indep with (d' := (-1)%Z); [apply nth_repeat|now rewrite repeat_length]. }
    assert (Hnf : ~ In n fin) by (eapply root_not_final; eauto).
    destruct (labelled_final lam LA st n wt M ls ps T L T0 ch fin HX x Hn Hpos Hnf Hx Lx) as (l & Hl & Hb).
    assert (Hc : is_cluster n T l) by (apply (xp_disjoint _ _ _ _ _ _ _ _ _ _ _ _ _ HX); auto).
    assert (Hln : l <> n) by (intros ->; contradiction). destruct (cluster_row_of n T l Hc Hln) as (r & Hr & Er).
    assert (MB : forall z, z < n -> (nth z ls 0%Z = Z.of_nat (position fin l) <-> below n T l z)) by (intros; eapply (final_member lam LA st n wt M ls ps T L T0 ch fin); eauto).
    exists r. split; auto. intro z. rewrite Er, HP. unfold cluster_of. rewrite (proj2 (MB x Hx) Hb). split.
    - intro B. pose proof (below_lt n T l z B) as Hzn. split; auto. now apply MB.
    - intros [Hzn E]. now apply MB.
  Qed.
End Any.
