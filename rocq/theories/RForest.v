(** Forests given by a children function in which a rank grows downwards and every
    node has at most one parent.  As Forest.v, which is the case of [rk v = v].  Nothing here models project code. *)
From Coq Require Import List Arith Lia Bool Permutation.
From Verif Require Import Prelude.
Import ListNotations.

Section RForest.
  Variable ch : nat -> list nat.
  Variable rk : nat -> nat.
  Variable M : nat.
  Hypothesis ch_up : forall v w, In w (ch v) -> rk v < rk w.
  Hypothesis ch_bound : forall v w, In w (ch v) -> rk w < M.
  Hypothesis ch_one : forall v v' w, In w (ch v) -> In w (ch v') -> v = v'.
  Hypothesis ch_nodup : forall v, NoDup (ch v).

  Fixpoint rsubf (fuel v : nat) : list nat :=
    match fuel with
    | 0 => [v]
    | S f => v :: flat_map (rsubf f) (ch v)
    end.
  (** The nodes of the subtree of [v]. *)
  Definition rsub (v : nat) : list nat := rsubf (M - rk v) v.

  Lemma rflat_map_ext {A B} (f g : A -> list B) l : (forall x, In x l -> f x = g x) -> flat_map f l = flat_map g l.
  Proof.
    induction l as [|x l IH]; intro H; simpl; auto. rewrite H by (simpl; auto). f_equal.
    apply IH. intros; apply H; simpl; auto.
  Qed.

  Lemma rsubf_enough : forall f g v, M - rk v <= f -> M - rk v <= g -> rsubf f v = rsubf g v.
  Proof.
    induction f as [|f IH]; intros g v Hf Hg.
    - destruct g as [|g]; auto. simpl. destruct (ch v) as [|w l] eqn:E; auto.
      exfalso. assert (Hw : In w (ch v)) by (rewrite E; simpl; auto).
      pose proof (ch_up _ _ Hw). pose proof (ch_bound _ _ Hw). lia.
    - destruct g as [|g]; simpl.
      + destruct (ch v) as [|w l] eqn:E; auto.
        exfalso. assert (Hw : In w (ch v)) by (rewrite E; simpl; auto).
        pose proof (ch_up _ _ Hw). pose proof (ch_bound _ _ Hw). lia.
      + f_equal. apply rflat_map_ext. intros w Hw.
        pose proof (ch_up _ _ Hw). pose proof (ch_bound _ _ Hw). apply IH; lia.
  Qed.

  Lemma rsub_eq v : rsub v = v :: flat_map rsub (ch v).
  Proof.
    unfold rsub at 1. rewrite (rsubf_enough (M - rk v) (S (M - rk v)) v) by lia. simpl. f_equal.
    apply rflat_map_ext. intros w Hw. pose proof (ch_up _ _ Hw). pose proof (ch_bound _ _ Hw).
    unfold rsub. apply rsubf_enough; lia.
  Qed.

  Lemma rsub_self v : In v (rsub v).
  Proof. rewrite rsub_eq. simpl; auto. Qed.

  Lemma rsub_child v w : In w (ch v) -> incl (rsub w) (rsub v).
  Proof. intros H u Hu. rewrite rsub_eq. right. apply in_flat_map. eauto. Qed.

  Lemma rsub_ind (P : nat -> Prop) : (forall v, (forall w, In w (ch v) -> P w) -> P v) -> forall v, P v.
  Proof.
    intros H v. remember (M - rk v) as k eqn:E. revert v E.
    induction k as [k IH] using lt_wf_ind. intros v E. apply H. intros w Hw.
    pose proof (ch_up _ _ Hw). pose proof (ch_bound _ _ Hw). apply (IH (M - rk w)); auto. lia.
  Qed.

  Lemma rsub_inv v w : In w (rsub v) -> w = v \/ exists u, In u (ch v) /\ In w (rsub u).
  Proof. rewrite rsub_eq. intros [<-|H]; auto. right. apply in_flat_map in H. auto. Qed.

  Lemma rsub_ge v : forall w, In w (rsub v) -> w = v \/ rk v < rk w.
  Proof.
    induction v as [v IH] using rsub_ind. intros w H. apply rsub_inv in H as [->|(u & Hu & Hw)]; auto.
    pose proof (ch_up _ _ Hu). right. destruct (IH u Hu w Hw) as [->|]; lia.
  Qed.

  Lemma rsub_trans v : forall w u, In w (rsub v) -> In u (rsub w) -> In u (rsub v).
  Proof.
    induction v as [v IH] using rsub_ind. intros w u H1 H2.
    apply rsub_inv in H1 as [->|(x & Hx & Hw)]; auto.
    apply (rsub_child v x Hx). eauto.
  Qed.

  Lemma rsub_up v : forall w, In w (rsub v) -> w <> v -> exists p, In w (ch p) /\ In p (rsub v).
  Proof.
    induction v as [v IH] using rsub_ind. intros w H Hne.
    apply rsub_inv in H as [->|(x & Hx & Hw)]; [congruence|].
    destruct (Nat.eq_dec w x) as [->|Hwx].
    - exists v. split; auto. apply rsub_self.
    - destruct (IH x Hx w Hw Hwx) as (p & Hp & Hpx). exists p. split; auto. apply (rsub_child v x Hx). auto.
  Qed.

  Lemma rsub_chain w : forall u u', In w (rsub u) -> In w (rsub u') -> In u (rsub u') \/ In u' (rsub u).
  Proof.
    remember (rk w) as k eqn:E. revert w E. induction k as [k IH] using lt_wf_ind. intros w E u u' H1 H2.
    destruct (Nat.eq_dec w u) as [->|Hu]; auto.
    destruct (Nat.eq_dec w u') as [->|Hu']; auto.
    destruct (rsub_up u w H1 Hu) as (p & Hp & Hpu).
    destruct (rsub_up u' w H2 Hu') as (p' & Hp' & Hpu').
    rewrite <- (ch_one _ _ _ Hp Hp') in Hpu'. apply (IH (rk p)) with (w := p); auto. pose proof (ch_up _ _ Hp). lia.
  Qed.

  Lemma rsub_antisym u v : In u (rsub v) -> In v (rsub u) -> u = v.
  Proof. intros H1 H2. apply rsub_ge in H1, H2. destruct H1 as [|H1], H2 as [|H2]; auto. lia. Qed.

  Lemma rsub_siblings v u u' w : In u (ch v) -> In u' (ch v) -> In w (rsub u) -> In w (rsub u') -> u = u'.
  Proof.
    assert (H : forall a b, In a (ch v) -> In b (ch v) -> In a (rsub b) -> a = b).
    { intros a b Ha Hb Hab. destruct (Nat.eq_dec a b) as [|Hne]; auto.
      destruct (rsub_up b a Hab Hne) as (p & Hp & Hpb). rewrite (ch_one _ _ _ Hp Ha) in Hpb.
      apply rsub_ge in Hpb. pose proof (ch_up _ _ Hb). destruct Hpb as [->|]; lia. }
    intros Hu Hu' H1 H2. destruct (rsub_chain w u u' H1 H2) as [H'|H']; [auto|symmetry; auto].
  Qed.

  Lemma rsub_NoDup v : NoDup (rsub v).
  Proof.
    induction v as [v IH] using rsub_ind. rewrite rsub_eq. constructor.
    - intro H. apply in_flat_map in H as (u & Hu & H). apply rsub_ge in H. pose proof (ch_up _ _ Hu). destruct H as [->|]; lia.
    - assert (HN := ch_nodup v).
      assert (Hs : forall u u' w, In u (ch v) -> In u' (ch v) -> In w (rsub u) -> In w (rsub u') -> u = u').
      { intros. eapply rsub_siblings; eauto. }
      revert HN IH Hs. induction (ch v) as [|c l IHl]; intros HN IH Hs; simpl; [constructor|].
      inversion_clear HN as [|? ? Hc Hl]. apply NoDup_app_iff. split; [apply IH; simpl; auto|]. split.
      + apply IHl; auto. { intros; apply IH; simpl; auto. } intros; eapply Hs; simpl; eauto.
      + intros w H1 H2. apply in_flat_map in H2 as (u & Hu & H2).
        assert (c = u) by (eapply Hs; simpl; eauto). congruence.
  Qed.

  (** Sets of nodes none of which lies strictly below another. *)
  Definition rantichain (S : list nat) : Prop :=
    forall s t, In s S -> In t S -> In t (rsub s) -> s = t.
End RForest.
