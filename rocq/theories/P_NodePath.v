(** Paths in a dendrogram. *)
From Coq Require Import List Arith Lia Bool Permutation.
From Verif Require Import Prelude Order Size M_Linkage S_Linkage.
Import ListNotations.

Section Dendro.
  Context {W Sz : Type}.
  Variables (n : nat) (L : list (lrow W Sz)).
  Hypothesis HD : dendrogram n L.

  (** [dn t v]: node [v] is [t] or lies below it. *)
  Inductive dn (t : nat) : nat -> Prop :=
  | dn_refl : dn t t
  | dn_step i r c : dn t (n + i) -> nth_error L i = Some r -> (c = l_a r \/ c = l_b r) -> dn t c.

  Lemma child_at (L0 : list (lrow W Sz)) i r c : nth_error L0 i = Some r -> (c = l_a r \/ c = l_b r) ->
    nth_error (child_list L0) (2 * i) = Some (l_a r) /\ nth_error (child_list L0) (2 * i + 1) = Some (l_b r).
  Proof.
    intros H _. revert i H. induction L0 as [|q L0 IH]; intros [|i] H; try discriminate.
    - injection H as ->. split; reflexivity.
    - replace (2 * S i) with (S (S (2 * i))) by lia. replace (S (S (2 * i)) + 1) with (S (S (2 * i + 1))) by lia. cbn [child_list flat_map app nth_error]. now apply IH.
  Qed.
  Lemma child_nodup : NoDup (child_list L).
  Proof. eapply Permutation_NoDup; [apply Permutation_sym, (dg_once _ _ HD)|apply seq_NoDup]. Qed.
  Lemma nth_error_inj i j (c : nat) : nth_error (child_list L) i = Some c -> nth_error (child_list L) j = Some c -> i = j.
  Proof.
    intros H1 H2. apply (proj1 (NoDup_nth_error (child_list L)) child_nodup); [|congruence]. apply nth_error_Some. congruence.
  Qed.
  Lemma parent_unique i j r q c : nth_error L i = Some r -> nth_error L j = Some q -> (c = l_a r \/ c = l_b r) -> (c = l_a q \/ c = l_b q) -> i = j.
  Proof.
    intros H1 H2 C1 C2. destruct (child_at L i r c H1 C1) as [A1 B1]. destruct (child_at L j q c H2 C2) as [A2 B2].
    destruct C1 as [->| ->], C2 as [E|E]; rewrite E in *.
    - pose proof (nth_error_inj _ _ _ A1 A2). lia.
    - pose proof (nth_error_inj _ _ _ A1 B2). lia.
    - pose proof (nth_error_inj _ _ _ B1 A2). lia.
    - pose proof (nth_error_inj _ _ _ B1 B2). lia.
  Qed.
  Lemma children_differ i r : nth_error L i = Some r -> l_a r <> l_b r.
  Proof.
    intros H E. destruct (child_at L i r (l_a r) H (or_introl eq_refl)) as [A B]. rewrite <- E in B. pose proof (nth_error_inj _ _ _ A B). lia.
  Qed.
  Lemma child_lt i r c : nth_error L i = Some r -> (c = l_a r \/ c = l_b r) -> c < n + i.
  Proof. intros H [->| ->]; apply (dg_down _ _ HD i r H). Qed.
  Lemma row_lt i r : nth_error L i = Some r -> i < n - 1.
  Proof. intro H. assert (i < length L) by (apply nth_error_Some; congruence). pose proof (dg_len _ _ HD). lia. Qed.

  Lemma dn_le t v : dn t v -> v <= t.
  Proof. induction 1 as [|i r c _ IH Hr Hc]; auto. pose proof (child_lt i r c Hr Hc). lia. Qed.
  Lemma dn_trans t u v : dn t u -> dn u v -> dn t v.
  Proof. intros H1 H2. induction H2 as [|i r c _ IH Hr Hc]; auto. eapply dn_step; eauto. Qed.
  Lemma dn_antisym t u : dn t u -> dn u t -> t = u.
  Proof. intros H1 H2. apply dn_le in H1. apply dn_le in H2. lia. Qed.
  (** The last step to [c] comes from its only parent. *)
  Lemma dn_parent t i r c : dn t c -> t <> c -> nth_error L i = Some r -> (c = l_a r \/ c = l_b r) -> dn t (n + i).
  Proof.
    intros H Hne Hr Hc. destruct H as [|j q c H Hq Hc']; [congruence|]. rewrite (parent_unique i j r q c); auto.
  Qed.
  Lemma dn_chain t s v : dn t v -> dn s v -> dn t s \/ dn s t.
  Proof.
    intros H. revert s. induction H as [|i r c H IH Hr Hc]; intros s Hs; auto.
    destruct (Nat.eq_dec s c) as [->|Hne]; [left; eapply dn_step; eauto|]. apply IH. eapply dn_parent; eauto.
  Qed.
  Lemma dn_first t v : dn t v -> t <> v -> exists i r c, t = n + i /\ nth_error L i = Some r /\ (c = l_a r \/ c = l_b r) /\ dn c v.
  Proof.
    induction 1 as [|i r c H IH Hr Hc]; [congruence|]. intros _. destruct (Nat.eq_dec t (n + i)) as [->|Hne].
    - exists i, r, c. repeat (split; auto). constructor.
    - destruct (IH Hne) as (j & q & d & E & Hq & Hd & Hdc). exists j, q, d. repeat (split; auto). eapply dn_step; eauto.
  Qed.

  Lemma under_lt v x : under n L v x -> x < n.
  Proof. induction 1; auto. Qed.
  Lemma under_dn v x : under n L v x -> dn v x.
  Proof.
    induction 1 as [x Hx|i r x Hr _ IH|i r x Hr _ IH]; [constructor| |]; (eapply dn_trans; [|exact IH]); eapply dn_step; eauto; constructor.
  Qed.
  Lemma dn_under_up t v x : dn t v -> under n L v x -> under n L t x.
  Proof.
    intro H. revert x. induction H as [|i r c H IH Hr Hc]; intros x Hx; auto. apply IH. destruct Hc as [->| ->]; [eapply under_a|eapply under_b]; eauto.
  Qed.
  Lemma dn_under v x : dn v x -> x < n -> under n L v x.
  Proof. intros H Hx. eapply dn_under_up; eauto. now constructor. Qed.

  Definition node (v : nat) : Prop := v < n \/ exists i r, v = n + i /\ nth_error L i = Some r.
  Lemma node_iff v : node v <-> v <= 2 * n - 2.
  Proof.
    pose proof (dg_len _ _ HD) as Hl. unfold node. split.
    - intros [H|(i & r & -> & H)]; [lia|]. apply row_lt in H. lia.
    - intro H. destruct (Nat.lt_ge_cases v n) as [|Hv]; auto. right. exists (v - n). destruct (nth_error L (v - n)) as [r|] eqn:E.
      + exists r. split; auto. lia.
      + apply nth_error_None in E. lia.
  Qed.
  Lemma has_sample v : node v -> exists x, under n L v x.
  Proof.
    induction v as [v IH] using (well_founded_induction lt_wf). intros [H|(i & r & -> & Hr)]; [exists v; now constructor|].
    assert (Ha : l_a r < n + i) by (eapply child_lt; eauto). destruct (IH _ Ha) as [x Hx].
    { apply node_iff. apply row_lt in Hr. lia. }
    exists x. eapply under_a; eauto.
  Qed.
  Lemma child_node i r c : nth_error L i = Some r -> (c = l_a r \/ c = l_b r) -> node c.
  Proof. intros Hr Hc. apply node_iff. pose proof (child_lt i r c Hr Hc). apply row_lt in Hr. lia. Qed.
  Lemma parent_exists v : v < 2 * n - 2 -> exists i r, nth_error L i = Some r /\ (v = l_a r \/ v = l_b r).
  Proof.
    intro H. assert (HI : In v (child_list L)) by (apply (Permutation_in _ (Permutation_sym (dg_once _ _ HD))), in_seq; lia).
    unfold child_list in HI. apply in_flat_map in HI as (r & Hr & Hc). apply In_nth_error in Hr as [i Hr]. exists i, r. split; auto.
    cbn in Hc. destruct Hc as [->|[->|[]]]; auto.
  Qed.
  Lemma root_dn v : v <= 2 * n - 2 -> dn (2 * n - 2) v.
  Proof.
    remember (2 * n - 2 - v) as k eqn:E. revert v E. induction k as [k IH] using (well_founded_induction lt_wf). intros v E H.
    destruct (Nat.eq_dec v (2 * n - 2)) as [->|Hne]; [constructor|]. destruct (parent_exists v) as (i & r & Hr & Hc); [lia|].
    pose proof (child_lt i r v Hr Hc). pose proof (row_lt i r Hr). eapply dn_step; eauto. eapply IH; [|reflexivity|]; lia.
  Qed.
  Lemma siblings_apart i r x : nth_error L i = Some r -> under n L (l_a r) x -> under n L (l_b r) x -> False.
  Proof.
    intros Hr H1 H2. apply under_dn in H1. apply under_dn in H2. pose proof (children_differ i r Hr) as Hne.
    destruct (dn_chain _ _ _ H1 H2) as [H|H].
    - apply (dn_parent _ i r _ H) in Hr as H'; auto. apply dn_le in H'. pose proof (child_lt i r (l_a r) Hr (or_introl eq_refl)). lia.
    - apply (dn_parent _ i r _ H) in Hr as H'; auto. apply dn_le in H'. pose proof (child_lt i r (l_b r) Hr (or_intror eq_refl)). lia.
  Qed.
End Dendro.
