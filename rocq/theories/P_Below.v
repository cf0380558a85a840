(** Samples below a cluster, and sizes. *)
From Coq Require Import List Arith Lia Bool Permutation QArith Qcanon.
From Verif Require Import Prelude Order Size Num Forest M_Linkage M_Condense S_Condense M_Select S_Select P_CTree P_Eom.
Import ListNotations.
Local Open Scope nat_scope.

Lemma NoDup_app_intro' {A} (l1 l2 : list A) : NoDup l1 -> NoDup l2 -> (forall x, In x l1 -> In x l2 -> False) -> NoDup (l1 ++ l2).
Proof. intros. apply NoDup_app_iff. split; [|split]; auto. Qed.

Section Below.
  Context {V : WOrd} {Sz : SOrd}.
  Variables (n : nat) (wt : nat -> Sz) (mcs : Sz) (T : list (crow V Sz)).
  Hypothesis HT : condensed n wt mcs T.
  Notation CT := (cluster_rows n T).
  Notation ch := (children_of CT).
  Notation top := (top_id n T).
  Notation sb := (sub ch top).

  Lemma sample_row_eq r q : In r T -> In q T -> c_child r = c_child q -> c_child r < n -> r = q.
  Proof.
    intros Hr Hq E Hx. apply (NoDup_map_eq c_child (sample_rows n T)).
    - apply (Permutation_NoDup (Permutation_sym (ct_samples _ _ _ _ HT))). apply seq_NoDup.
    - apply filter_In. split; auto. now apply Nat.ltb_lt.
    - apply filter_In. split; auto. apply Nat.ltb_lt. lia.
    - auto.
  Qed.

  Lemma row_eq r q : In r T -> In q T -> c_child r = c_child q -> r = q.
  Proof.
    intros Hr Hq E. destruct (Nat.lt_ge_cases (c_child r) n) as [H|H].
    - now apply sample_row_eq.
    - apply (ct_row_eq n wt mcs T HT); auto; apply in_ct; auto; lia.
  Qed.

  Lemma sample_row x : x < n -> exists r, In r T /\ c_child r = x.
  Proof.
    intro Hx. assert (Hi : In x (map c_child (sample_rows n T))).
    { apply (Permutation_in _ (Permutation_sym (ct_samples _ _ _ _ HT))). apply in_seq. lia. }
    apply in_map_iff in Hi as (r & E & Hr). apply filter_In in Hr as [Hr _]. eauto.
  Qed.

  Lemma T_NoDup : NoDup T.
  Proof.
    assert (H1 : NoDup (sample_rows n T)).
    { apply (NoDup_map_inv c_child). apply (Permutation_NoDup (Permutation_sym (ct_samples _ _ _ _ HT))). apply seq_NoDup. }
    assert (H2 : NoDup CT) by (apply (NoDup_map_inv c_child); apply (ct_child_NoDup _ _ _ _ HT)).
    apply (Permutation_NoDup (l := filter (fun r => c_child r <? n) T ++ filter (fun r => negb (c_child r <? n)) T)).
    - apply Permutation_sym, filter_split.
    - apply NoDup_app_intro'; auto.
      + erewrite filter_ext; [exact H2|]. intro r. simpl. rewrite Nat.ltb_antisym. now rewrite negb_involutive.
      + intros r Hr Hr'. apply filter_In in Hr as [_ Ha]. apply filter_In in Hr' as [_ Hb]. rewrite Ha in Hb. discriminate.
  Qed.

  Lemma below_sub c x : below n T c x <-> exists r, In r T /\ c_child r = x /\ x < n /\ In (c_parent r) (sb c).
  Proof.
    pose proof (ct_up _ _ _ _ HT) as Hup. pose proof (ct_bound _ _ _ _ HT) as Hbd.
    split.
    - induction 1 as [r x Hr Hx Hlt|r x Hr Hc Hb (q & Hq & Hqx & Hlt & Hs)].
      + exists r. split; auto. split; auto. split; auto. now apply sub_self.
      + exists q. split; auto. split; auto. split; auto.
        eapply sub_child; eauto. apply ch_in. exists r. split; auto. now apply in_ct.
    - intros (r & Hr & <- & Hlt & Hs). remember (c_parent r) as p eqn:Ep.
      revert p r Hr Hlt Hs Ep. induction c as [c IH] using (sub_ind ch top Hup Hbd). intros p r Hr Hlt Hs Ep.
      apply (sub_inv ch top Hup Hbd) in Hs as [Hpc|(u & Hu & Hs)].
      + rewrite <- Hpc, Ep. now apply below_here.
      + pose proof Hu as Hu'. apply ch_in in Hu as (q & Hq & <- & <-). apply (below_deep n T q).
        * now apply (ct_in n T).
        * pose proof (ct_child_in _ _ _ _ HT _ Hq). lia.
        * eapply IH; eauto.
  Qed.

  Lemma below_unique_parent c x r : In r T -> c_child r = x -> x < n -> (below n T c x <-> In (c_parent r) (sb c)).
  Proof.
    intros Hr E Hx. rewrite below_sub. split.
    - intros (q & Hq & Eq & _ & Hs). assert (q = r) as <-; auto. apply row_eq; auto. congruence.
    - intro H. exists r. auto.
  Qed.

  Lemma below_lt c x : below n T c x -> x < n.
  Proof. induction 1; auto. Qed.

  Lemma below_root x : below n T n x <-> x < n.
  Proof.
    split; [apply below_lt|]. intro Hx. destruct (sample_row x Hx) as (r & Hr & E).
    rewrite (below_unique_parent n x r); auto. apply (sub_root _ _ _ _ HT). now apply (parent_ge _ _ _ _ HT).
  Qed.

  Lemma below_up c d x : In d (sb c) -> below n T d x -> below n T c x.
  Proof.
    intros Hd. rewrite !below_sub. intros (r & Hr & E & Hx & Hs). exists r. repeat split; auto.
    eapply sub_trans; eauto using ct_up, ct_bound.
  Qed.

  (** Clusters of a common sample are nested. *)
  Lemma below_nested c d x : below n T c x -> below n T d x -> In c (sb d) \/ In d (sb c).
  Proof.
    intros Hc Hd. pose proof (below_lt _ _ Hc) as Hx. destruct (sample_row x Hx) as (r & Hr & E).
    apply (below_unique_parent c x r) in Hc; auto. apply (below_unique_parent d x r) in Hd; auto.
    eapply sub_chain; eauto using ct_up, ct_bound, ct_one.
  Qed.

  (** The list of samples below a cluster. *)
  Definition bl (c : nat) : list nat :=
    filter (fun x => existsb (fun r => (c_child r =? x) && memb (sb c) (c_parent r)) T) (seq 0 n).

  Lemma bl_in c x : In x (bl c) <-> below n T c x.
  Proof.
    unfold bl. rewrite filter_In, in_seq, existsb_exists, below_sub. split.
    - intros (Hx & r & Hr & E). apply andb_true_iff in E as [E1 E2]. apply Nat.eqb_eq in E1. apply memb_true in E2.
      exists r. repeat split; auto; lia.
    - intros (r & Hr & E & Hx & Hs). split; [lia|]. exists r. split; auto. apply andb_true_iff.
      split; [now apply Nat.eqb_eq|now apply memb_true].
  Qed.
  Lemma bl_NoDup c : NoDup (bl c).
  Proof. apply NoDup_filter, seq_NoDup. Qed.

  Lemma bl_root : Permutation (bl n) (seq 0 n).
  Proof.
    apply NoDup_Permutation; [apply bl_NoDup|apply seq_NoDup|]. intro x. rewrite bl_in, below_root, in_seq. lia.
  Qed.

  Lemma size_bl r : In r T -> n <= c_child r -> c_size r = ssum (map wt (bl (c_child r))).
  Proof.
    intros Hr Hc. destruct (ct_sizes _ _ _ _ HT r Hr Hc) as (_ & xs & HN & Hxs & ->).
    apply ssum_perm, Permutation_map. apply NoDup_Permutation; auto; [apply bl_NoDup|].
    intro x. now rewrite Hxs, bl_in.
  Qed.

  (** Samples that leave with a row. *)
  Definition part (r : crow V Sz) : list nat := if n <=? c_child r then bl (c_child r) else [c_child r].

  Lemma part_in r x : In r T -> In x (part r) -> below n T (c_parent r) x.
  Proof.
    intros Hr. unfold part. destruct (Nat.leb_spec n (c_child r)) as [H|H]; intro Hx.
    - apply bl_in in Hx. now apply below_deep.
    - destruct Hx as [<-|[]]. now apply below_here.
  Qed.

  Lemma part_unique r q x : In r T -> In q T -> c_parent r = c_parent q -> In x (part r) -> In x (part q) -> r = q.
  Proof.
    pose proof (ct_up _ _ _ _ HT) as Hup. pose proof (ct_bound _ _ _ _ HT) as Hbd. pose proof (ct_one _ _ _ _ HT) as Hone.
    intros Hr Hq Ep. unfold part.
    assert (Hdeep : forall a b, In a T -> In b T -> c_parent a = c_parent b -> n <= c_child a -> c_child b < n ->
              ~ below n T (c_child a) (c_child b)).
    { intros a b Ha Hb E H1 H2 H. apply (below_unique_parent _ _ b) in H; auto.
      apply (sub_ge ch top Hup Hbd) in H. assert (Hac : In a CT) by now apply in_ct.
      pose proof (parent_lt_child _ _ _ _ HT a Hac). lia. }
    destruct (Nat.leb_spec n (c_child r)) as [H1|H1], (Nat.leb_spec n (c_child q)) as [H2|H2]; intros Hx Hy.
    - apply bl_in in Hx, Hy. apply row_eq; auto.
      assert (Hx' := Hx). apply below_sub in Hx as (a & Ha & Ea & Hlt & Hs).
      apply (below_unique_parent _ _ a) in Hy; auto.
      apply (sub_siblings ch top Hup Hbd Hone (c_parent r) _ _ (c_parent a)); auto.
      + apply ch_in. exists r. split; auto. now apply in_ct.
      + apply ch_in. exists q. split; auto. now apply in_ct.
    - destruct Hy as [<-|[]]. apply bl_in in Hx. exfalso. exact (Hdeep r q Hr Hq Ep H1 H2 Hx).
    - destruct Hx as [<-|[]]. apply bl_in in Hy. exfalso. exact (Hdeep q r Hq Hr (eq_sym Ep) H2 H1 Hy).
    - destruct Hx as [<-|[]], Hy as [E|[]]. apply row_eq; auto.
  Qed.

  Definition rows_of (c : nat) : list (crow V Sz) := filter (fun r => c_parent r =? c) T.
  Lemma rows_of_in c r : In r (rows_of c) <-> In r T /\ c_parent r = c.
  Proof. unfold rows_of. rewrite filter_In, Nat.eqb_eq. tauto. Qed.

  Lemma bl_parts c : Permutation (bl c) (flat_map part (rows_of c)).
  Proof.
    apply NoDup_Permutation; [apply bl_NoDup| |].
    - assert (H : forall l, NoDup l -> incl l (rows_of c) -> NoDup (flat_map part l)).
      { induction l as [|r l IH]; intros HN Hl; simpl; [constructor|]. inversion_clear HN as [|? ? Hr HN'].
        apply NoDup_app_intro'.
        - unfold part. destruct (n <=? c_child r); [apply bl_NoDup|repeat constructor; simpl; tauto].
        - apply IH; auto. intros x Hx. apply Hl. simpl; auto.
        - intros x Hx Hx'. apply in_flat_map in Hx' as (q & Hq & Hx').
          assert (Hrc := Hl r (or_introl eq_refl)). assert (Hqc := Hl q (or_intror Hq)).
          apply rows_of_in in Hrc as [Hr1 Hr2], Hqc as [Hq1 Hq2].
          apply Hr. assert (r = q) as ->; auto. eapply part_unique; eauto. congruence. }
      apply H; [|apply incl_refl]. apply NoDup_filter, T_NoDup.
    - intro x. rewrite bl_in, in_flat_map. split.
      + intro H. assert (Hx := below_lt _ _ H). inversion H as [r y Hr E Hlt Ec|r y Hr Hc Hb Ec]; subst.
        * exists r. split; [apply rows_of_in; auto|]. unfold part. rewrite (proj2 (Nat.leb_gt _ _) Hlt). simpl; auto.
        * exists r. split; [apply rows_of_in; auto|]. unfold part. rewrite (proj2 (Nat.leb_le _ _) Hc). now apply bl_in.
      + intros (r & Hr & Hx). apply rows_of_in in Hr as [Hr <-]. now apply part_in.
  Qed.

  (** What leaves a cluster weighs as much as the cluster. *)
  Definition row_weight (r : crow V Sz) : Sz := if n <=? c_child r then c_size r else wt (c_child r).

  Lemma part_weight r : In r T -> ssum (map wt (part r)) = row_weight r.
  Proof.
    intro Hr. unfold part, row_weight. destruct (Nat.leb_spec n (c_child r)) as [H|H].
    - symmetry. now apply size_bl.
    - simpl. apply sadd_0_r.
  Qed.

  Lemma weight_conserved c : ssum (map wt (bl c)) = ssum (map row_weight (rows_of c)).
  Proof.
    rewrite (ssum_perm _ _ (Permutation_map wt (bl_parts c))).
    assert (H : forall l, incl l T -> ssum (map wt (flat_map part l)) = ssum (map row_weight l)).
    { induction l as [|r l IH]; intro Hl; simpl; auto. rewrite map_app, ssum_app, IH, part_weight; auto.
      - apply Hl; simpl; auto.
      - intros x Hx. apply Hl; simpl; auto. }
    apply H. intros r Hr. now apply rows_of_in in Hr.
  Qed.

  Lemma size_conserved r : (forall x, x < n -> wt x = sone) -> In r T -> n <= c_child r ->
    c_size r = ssum (map c_size (rows_of (c_child r))).
  Proof.
    intros H1 Hr Hc. rewrite (size_bl r Hr Hc), weight_conserved. f_equal. apply map_ext_in. intros q Hq.
    apply rows_of_in in Hq as [Hq _]. unfold row_weight. destruct (Nat.leb_spec n (c_child q)) as [|H]; auto.
    rewrite H1 by auto. symmetry. now apply (ct_sample_size _ _ _ _ HT).
  Qed.
End Below.
