(** Reordering the samples of a hierarchy and of its condensed tree. *)
From Coq Require Import List Arith Lia Bool Permutation.
From Verif Require Import Prelude Order Size M_Linkage S_Linkage M_Condense S_Condense P_CTree P_Below P_NodePath P_Unique S_Unique P_UniqueTree.
Import ListNotations.

Section Reorder.
  Variables (n : nat) (p : nat -> nat).
  Hypothesis Hp : reorders n p.

  Lemma reorder_perm : Permutation (map p (seq 0 n)) (seq 0 n).
  Proof.
    destruct Hp as [H1 H2]. apply NoDup_Permutation_bis.
    - apply NoDup_map_in; [apply seq_NoDup|]. intros x y Hx Hy. apply in_seq in Hx. apply in_seq in Hy. apply H2; lia.
    - now rewrite map_length, !seq_length.
    - intros y Hy. apply in_map_iff in Hy as (x & <- & Hx). apply in_seq in Hx. apply in_seq. specialize (H1 x). lia.
  Qed.
  Lemma reorder_onto y : y < n -> exists x, x < n /\ p x = y.
  Proof.
    intro Hy. assert (H : In y (map p (seq 0 n))) by (apply (Permutation_in _ (Permutation_sym reorder_perm)), in_seq; lia).
    apply in_map_iff in H as (x & E & Hx). apply in_seq in Hx. exists x. split; auto. lia.
  Qed.

  Definition rho (v : nat) : nat := if v <? n then p v else v.
  Lemma rho_sample v : v < n -> rho v = p v.
  Proof. intro H. unfold rho. destruct (Nat.ltb_spec v n); auto. lia. Qed.
  Lemma rho_node v : n <= v -> rho v = v.
  Proof. intro H. unfold rho. destruct (Nat.ltb_spec v n); auto. lia. Qed.
  Lemma rho_lt v : rho v < n <-> v < n.
  Proof. unfold rho. destruct (Nat.ltb_spec v n) as [H|H]; [|lia]. pose proof (proj1 Hp v H). lia. Qed.
  Lemma rho_in v : v < n -> rho v < n.
  Proof. apply rho_lt. Qed.
  Lemma rho_out v : rho v < n -> v < n.
  Proof. apply rho_lt. Qed.
  Lemma rho_inj u v : rho u = rho v -> u = v.
  Proof.
    intro E. pose proof (rho_lt u) as [U1 U2]. pose proof (rho_lt v) as [V1 V2]. destruct (Nat.lt_ge_cases u n) as [Hu|Hu], (Nat.lt_ge_cases v n) as [Hv|Hv].
    - rewrite !rho_sample in E by auto. now apply (proj2 Hp).
    - specialize (U2 Hu). rewrite E in U2. specialize (V1 U2). lia.
    - specialize (V2 Hv). rewrite <- E in V2. specialize (U1 V2). lia.
    - rewrite !rho_node in E; auto.
  Qed.
  Lemma rho_onto u : exists v, rho v = u.
  Proof.
    destruct (Nat.lt_ge_cases u n) as [H|H]; [|exists u; now apply rho_node]. destruct (reorder_onto u H) as (x & Hx & E). exists x. now rewrite rho_sample.
  Qed.

  (** ** Dendrograms *)
  Section Rows.
    Context {W : WOrd} {Sz : SOrd}.
    Variables (L L' : list (lrow W Sz)) (wt wt' : nat -> Sz) (mcs : Sz).
    Definition row_like (r r' : lrow W Sz) : Prop :=
      ((l_a r = rho (l_a r') /\ l_b r = rho (l_b r')) \/ (l_a r = rho (l_b r') /\ l_b r = rho (l_a r'))) /\ l_d r = l_d r' /\ l_n r = l_n r'.
    Hypothesis HLL : Forall2 row_like L L'.
    Hypothesis Hwt : forall x, x < n -> wt (p x) = wt' x.

    Lemma like_left i r' : nth_error L' i = Some r' -> exists r, nth_error L i = Some r /\ row_like r r'.
    Proof.
      revert i. induction HLL as [|a b l l' Hab H IH]; intros [|i] E; try discriminate; [|now apply IH].
      injection E as <-. exists a. auto.
    Qed.
    Lemma like_right i r : nth_error L i = Some r -> exists r', nth_error L' i = Some r' /\ row_like r r'.
    Proof.
      revert i. induction HLL as [|a b l l' Hab H IH]; intros [|i] E; try discriminate; [|now apply IH].
      injection E as <-. exists b. auto.
    Qed.
    Lemma like_child r r' c : row_like r r' -> (c = l_a r' \/ c = l_b r') -> rho c = l_a r \/ rho c = l_b r.
    Proof. intros [[[E1 E2]|[E1 E2]] _] [->| ->]; auto. Qed.

    Lemma like_weight v s : weight_of n L wt (rho v) s <-> weight_of n L' wt' v s.
    Proof.
      split.
      - intros [[H ->]|(i & r & E & Hr & ->)].
        + left. apply rho_out in H. split; auto. rewrite rho_sample by auto. auto.
        + assert (Hv : n <= v) by (destruct (Nat.lt_ge_cases v n) as [Hv|]; auto; apply rho_in in Hv; lia).
          rewrite rho_node in E by auto. destruct (like_right i r Hr) as (r' & Hr' & _ & _ & En). right. exists i, r'. auto.
      - intros [[H ->]|(i & r & -> & Hr & ->)].
        + left. split; [now apply rho_in|]. rewrite rho_sample by auto. symmetry. auto.
        + destruct (like_left i r Hr) as (q & Hq & _ & _ & En). right. exists i, q. rewrite rho_node by lia. auto.
    Qed.
    Lemma like_large v : large n L wt mcs (rho v) <-> large n L' wt' mcs v.
    Proof. split; intros (s & H1 & H2); exists s; split; auto; now apply like_weight. Qed.
    Lemma like_small v : small n L wt mcs (rho v) <-> small n L' wt' mcs v.
    Proof. split; intros (s & H1 & H2); exists s; split; auto; now apply like_weight. Qed.
    Lemma like_split r r' : row_like r r' -> (true_split n L wt mcs None r <-> true_split n L' wt' mcs None r').
    Proof.
      intro HR. rewrite !split_iff. destruct HR as [[[E1 E2]|[E1 E2]] _]; rewrite E1, E2, !like_large; tauto.
    Qed.
    Lemma like_segment t v : segment n L' wt' mcs None t v -> segment n L wt mcs None (rho t) (rho v).
    Proof.
      induction 1 as [|i r' c _ IH Hr' Hs Hc Hl]; [constructor|]. destruct (like_left i r' Hr') as (r & Hr & HR).
      rewrite (rho_node (n + i)) in IH by lia. eapply seg_step; eauto.
      - intro K. apply Hs. now apply (like_split r r').
      - now apply (like_child r r').
      - now apply like_large.
    Qed.
    Lemma like_under v x : under n L' v x -> under n L (rho v) (p x).
    Proof.
      induction 1 as [x Hx|i r' x Hr' _ IH|i r' x Hr' _ IH].
      - rewrite rho_sample by auto. constructor. now apply Hp.
      - destruct (like_left i r' Hr') as (r & Hr & [[[E1 E2]|[E1 E2]] _]); rewrite (rho_node (n + i)) by lia; [rewrite <- E1 in IH|rewrite <- E2 in IH]; [eapply under_a|eapply under_b]; eauto.
      - destruct (like_left i r' Hr') as (r & Hr & [[[E1 E2]|[E1 E2]] _]); rewrite (rho_node (n + i)) by lia; [rewrite <- E2 in IH|rewrite <- E1 in IH]; [eapply under_b|eapply under_a]; eauto.
    Qed.
    Lemma like_under_inv u y : under n L u y -> forall v, rho v = u -> exists x, x < n /\ p x = y /\ under n L' v x.
    Proof.
      induction 1 as [y Hy|i r y Hr _ IH|i r y Hr _ IH]; intros v E.
      - assert (Hv : v < n) by (apply rho_out; lia). exists v. rewrite rho_sample in E by auto. repeat (split; auto). now constructor.
      - assert (Hv : n <= v) by (destruct (Nat.lt_ge_cases v n) as [Hv|]; auto; apply rho_in in Hv; lia). rewrite rho_node in E by auto. subst v.
        destruct (like_right i r Hr) as (r' & Hr' & [[[E1 E2]|[E1 E2]] _]).
        + destruct (IH (l_a r') (eq_sym E1)) as (x & H1 & H2 & H3). exists x. repeat (split; auto). eapply under_a; eauto.
        + destruct (IH (l_b r') (eq_sym E1)) as (x & H1 & H2 & H3). exists x. repeat (split; auto). eapply under_b; eauto.
      - assert (Hv : n <= v) by (destruct (Nat.lt_ge_cases v n) as [Hv|]; auto; apply rho_in in Hv; lia). rewrite rho_node in E by auto. subst v.
        destruct (like_right i r Hr) as (r' & Hr' & [[[E1 E2]|[E1 E2]] _]).
        + destruct (IH (l_b r') (eq_sym E2)) as (x & H1 & H2 & H3). exists x. repeat (split; auto). eapply under_b; eauto.
        + destruct (IH (l_a r') (eq_sym E2)) as (x & H1 & H2 & H3). exists x. repeat (split; auto). eapply under_a; eauto.
    Qed.
    Lemma like_under_iff v x : x < n -> (under n L (rho v) (p x) <-> under n L' v x).
    Proof.
      intro Hx. split; [|apply like_under]. intro H. destruct (like_under_inv _ _ H v eq_refl) as (y & Hy & E & H').
      apply (proj2 Hp) in E; auto. now subst y.
    Qed.
  End Rows.

  (** ** Condensed trees *)
  Section Trees.
    Context {V : WOrd} {Sz : SOrd}.
    Variables (wt wt' : nat -> Sz) (mcs : Sz) (T : list (crow V Sz)).
    Hypothesis HT : condensed n wt' mcs T.
    Hypothesis Hwt : forall x, x < n -> wt (p x) = wt' x.
    Notation T2 := (map (ren rho) T).

    Lemma parent_same r : In r T -> rho (c_parent r) = c_parent r.
    Proof. intro Hr. apply rho_node. pose proof (parent_ge n wt' mcs T HT r Hr). lia. Qed.
    Lemma ren_samples l : sample_rows n (map (@ren V Sz rho) l) = map (ren rho) (sample_rows n l).
    Proof.
      unfold sample_rows. induction l as [|r l IH]; auto. cbn [map filter]. rewrite IH. cbn [ren c_child].
      destruct (Nat.ltb_spec (rho (c_child r)) n) as [H|H], (Nat.ltb_spec (c_child r) n) as [H'|H']; auto; exfalso.
      - apply (proj1 (rho_lt _)) in H. lia.
      - apply (proj2 (rho_lt _)) in H'. lia.
    Qed.
    Lemma ren_clusters l : cluster_rows n (map (@ren V Sz rho) l) = map (ren rho) (cluster_rows n l).
    Proof.
      unfold cluster_rows. induction l as [|r l IH]; auto. cbn [map filter]. rewrite IH. cbn [ren c_child].
      destruct (Nat.leb_spec n (rho (c_child r))) as [H|H], (Nat.leb_spec n (c_child r)) as [H'|H']; auto; exfalso.
      - apply (proj2 (rho_lt _)) in H'. lia.
      - apply (proj1 (rho_lt _)) in H. lia.
    Qed.
    Lemma ren_cluster_ids : map c_child (cluster_rows n T2) = map c_child (cluster_rows n T).
    Proof.
      rewrite ren_clusters, map_map. apply map_ext_in. intros r Hr. apply filter_In in Hr as [_ Hr]. apply Nat.leb_le in Hr. cbn. now apply rho_node.
    Qed.
    Lemma ren_below c x : below n T c x -> n <= c -> below n T2 c (p x).
    Proof.
      induction 1 as [r x Hr E Hx|r x Hr Hge _ IH]; intro Hc.
      - rewrite <- (parent_same r Hr). apply (below_here n T2 (ren rho r)); [now apply in_map| |now apply Hp]. cbn. rewrite E. now apply rho_sample.
      - rewrite <- (parent_same r Hr). apply (below_deep n T2 (ren rho r)); [now apply in_map| |]; cbn; rewrite rho_node; auto.
    Qed.
    Lemma ren_below_inv c y : below n T2 c y -> exists x, x < n /\ p x = y /\ below n T c x.
    Proof.
      induction 1 as [q y Hq E Hy|q y Hq Hge _ IH]; apply in_map_iff in Hq as (r & <- & Hr); cbn in *.
      - subst y. apply rho_out in Hy. exists (c_child r). rewrite rho_sample by auto. repeat (split; auto). rewrite (parent_same r Hr). now constructor.
      - assert (Hc : n <= c_child r) by (destruct (Nat.lt_ge_cases (c_child r) n) as [H|]; auto; apply rho_in in H; lia).
        rewrite rho_node in IH by auto. destruct IH as (x & Hx & E & H). exists x. repeat (split; auto). rewrite (parent_same r Hr). eapply below_deep; eauto.
    Qed.
    Lemma ren_is_cluster c : is_cluster n T2 c <-> is_cluster n T c.
    Proof.
      split.
      - intros [H|(Hc & q & Hq & E)]; [now left|]. right. split; auto. apply in_map_iff in Hq as (r & <- & Hr). cbn in E. exists r. split; auto.
        destruct (Nat.lt_ge_cases (c_child r) n) as [H|H]; [apply rho_in in H; lia|]. rewrite rho_node in E; auto.
      - intros [H|(Hc & r & Hr & E)]; [now left|]. right. split; auto. exists (ren rho r). split; [now apply in_map|]. cbn. rewrite E. now apply rho_node.
    Qed.

    Lemma ren_condensed : condensed n wt mcs T2.
    Proof.
      destruct HT as [C1 C2 C3 C4 C5 C6 C7]. constructor.
      - rewrite ren_samples, map_map. replace (map (fun x => c_child (ren rho x)) (sample_rows n T)) with (map p (map c_child (sample_rows n T))).
        + eapply Permutation_trans; [apply Permutation_map, C1|apply reorder_perm].
        + rewrite map_map. apply map_ext_in. intros r Hr. apply filter_In in Hr as [_ Hr]. apply Nat.ltb_lt in Hr. cbn. now rewrite rho_sample.
      - destruct C2 as [s E]. exists s. now rewrite ren_cluster_ids.
      - intros j r q H1 H2. rewrite ren_clusters, nth_error_map in H1, H2.
        destruct (nth_error (cluster_rows n T) (2 * j)) as [r0|] eqn:H1'; [|discriminate]. injection H1 as <-.
        destruct (nth_error (cluster_rows n T) (2 * j + 1)) as [q0|] eqn:H2'; [|discriminate]. injection H2 as <-. destruct (C3 j r0 q0 H1' H2') as [E1 E2]. cbn. split; [now rewrite E1|auto].
      - intros T1 r T3 E. assert (HE := E). apply map_eq_app in E as (l1 & l2 & E & E1 & E2). destruct l2 as [|r0 l2]; [discriminate|]. cbn in E2. injection E2 as E2 E3.
        subst r. cbn. assert (Hr0 : In r0 T) by (rewrite E; apply in_app_iff; right; now left). rewrite (parent_same r0 Hr0).
        destruct (C4 l1 r0 l2 E) as [H|(H & q & Hq & Eq)]; auto. right. split; auto. exists (ren rho q). split; [rewrite <- E1; now apply in_map|].
        cbn. rewrite Eq. apply rho_node. lia.
      - intros r q Hr Hq Hc E. apply in_map_iff in Hr as (r0 & <- & Hr). apply in_map_iff in Hq as (q0 & <- & Hq). cbn in *.
        assert (Hge : n <= c_child r0) by (destruct (Nat.lt_ge_cases (c_child r0) n) as [H|]; auto; apply rho_in in H; lia).
        rewrite (parent_same q0 Hq), (rho_node (c_child r0)) in E by auto. auto.
      - intros r Hr Hc. apply in_map_iff in Hr as (r0 & <- & Hr). cbn in *.
        assert (Hge : n <= c_child r0) by (destruct (Nat.lt_ge_cases (c_child r0) n) as [H|]; auto; apply rho_in in H; lia).
        rewrite rho_node by auto. destruct (C6 r0 Hr Hge) as [H1 (xs & N & I & E)]. split; auto.
        assert (Hlt : forall x, In x xs -> x < n) by (intros x Hx; apply I in Hx; now apply (below_lt n T) in Hx).
        exists (map p xs). split; [|split].
        + apply NoDup_map_in; auto. intros x y Hx Hy. apply (proj2 Hp); auto.
        + intro y. split.
          * intro Hy. apply in_map_iff in Hy as (x & <- & Hx). apply ren_below; auto. now apply I.
          * intro Hy. apply ren_below_inv in Hy as (x & Hx & <- & Hb). apply in_map. now apply I.
        + rewrite E, map_map. f_equal. apply map_ext_in. intros x Hx. symmetry. auto.
      - intros r Hr Hc. apply in_map_iff in Hr as (r0 & <- & Hr). cbn in *. apply rho_out in Hc. auto.
    Qed.

    Lemma ren_renamed : renamed n rho T T2.
    Proof.
      split.
      - now apply rho_node.
      - intros x Hx. now apply rho_in.
      - intros c Hc. rewrite rho_node; [now apply ren_is_cluster|]. apply (is_cluster_iff n wt' mcs T HT) in Hc. lia.
      - intros a b _ _. apply rho_inj.
      - reflexivity.
    Qed.

    Context {W : WOrd}.
    Variables (L L' : list (lrow W Sz)) (lam : W -> V).
    Hypothesis HLL : Forall2 row_like L L'.
    Hypothesis Hn : 2 <= n.
    Lemma ren_faithful : faithful n L' wt' mcs None lam T -> faithful n L wt mcs None lam T2.
    Proof.
      intros (top & R & B & SA & C). exists (fun c => rho (top c)). split; [|split; [|split]].
      - rewrite R. apply rho_node. lia.
      - intros c x Hc. apply ren_is_cluster in Hc. assert (Hge : n <= c) by (apply (is_cluster_iff n wt' mcs T HT) in Hc; lia). split.
        + intro H. apply ren_below_inv in H as (y & Hy & <- & H). apply (B c y Hc) in H. now apply (like_under L L' HLL).
        + intro H. destruct (like_under_inv L L' HLL _ _ H (top c) eq_refl) as (y & Hy & <- & H'). apply ren_below; auto. now apply B.
      - intros q Hq Hc. apply in_map_iff in Hq as (q0 & <- & Hq). cbn in *. apply rho_out in Hc. rewrite (parent_same q0 Hq), (rho_sample (c_child q0)) by auto.
        destruct (SA q0 Hq Hc) as (i & r' & v & H1 & H2 & H3 & H4 & H5 & H6). destruct (like_left L L' HLL i r' H2) as (r & Hr & HR).
        exists i, r, (rho v). apply (like_segment L L' wt wt' mcs HLL Hwt) in H1. rewrite (rho_node (n + i)) in H1 by lia.
        split; auto. split; auto. split; [destruct HR as (_ & E & _); congruence|]. split; [now apply (like_child r r')|]. split; [now apply (like_small L L' wt wt' mcs HLL Hwt)|].
        now apply (like_under L L' HLL).
      - intros q Hq Hc. apply in_map_iff in Hq as (q0 & <- & Hq). cbn in *.
        assert (Hge : n <= c_child q0) by (destruct (Nat.lt_ge_cases (c_child q0) n) as [H|]; auto; apply rho_in in H; lia).
        rewrite (parent_same q0 Hq), (rho_node (c_child q0)) by auto.
        destruct (C q0 Hq Hge) as (i & r' & H1 & H2 & H3 & H4 & H5 & H6). destruct (like_left L L' HLL i r' H2) as (r & Hr & HR).
        exists i, r. apply (like_segment L L' wt wt' mcs HLL Hwt) in H1. rewrite (rho_node (n + i)) in H1 by lia.
        split; auto. split; auto. split; [now apply (like_split L L' wt wt' mcs HLL Hwt r r')|]. split; [rewrite H4; f_equal; symmetry; apply HR|].
        split; [now apply (like_child r r')|]. now apply (like_weight L L' wt wt' HLL Hwt).
    Qed.
  End Trees.
End Reorder.
