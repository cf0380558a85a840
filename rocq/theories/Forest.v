(** Forests given by a children function in which ids grow downwards and every
    node has at most one parent.  Nothing here models project code. *)
From Coq Require Import List Arith Lia Bool Permutation.
From Verif Require Import Prelude.
Import ListNotations.

Section Forest.
  Variable ch : nat -> list nat.
  Variable M : nat.
  Hypothesis ch_up : forall v w, In w (ch v) -> v < w.
  Hypothesis ch_bound : forall v w, In w (ch v) -> w < M.
  Hypothesis ch_one : forall v v' w, In w (ch v) -> In w (ch v') -> v = v'.
  Hypothesis ch_nodup : forall v, NoDup (ch v).

  Fixpoint subf (fuel v : nat) : list nat :=
    match fuel with
    | 0 => [v]
    | S f => v :: flat_map (subf f) (ch v)
    end.
  (** The nodes of the subtree of [v]. *)
  Definition sub (v : nat) : list nat := subf (M - v) v.

  Lemma flat_map_ext_in' {A B} (f g : A -> list B) l : (forall x, In x l -> f x = g x) -> flat_map f l = flat_map g l.
  Proof.
    induction l as [|x l IH]; intro H; simpl; auto. rewrite H by (simpl; auto). f_equal.
    apply IH. intros; apply H; simpl; auto.
  Qed.

  Lemma subf_enough : forall f g v, M - v <= f -> M - v <= g -> subf f v = subf g v.
  Proof.
    induction f as [|f IH]; intros g v Hf Hg.
    - destruct g as [|g]; auto. simpl. destruct (ch v) as [|w l] eqn:E; auto.
      exfalso. assert (Hw : In w (ch v)) by (rewrite E; simpl; auto).
      pose proof (ch_up _ _ Hw). pose proof (ch_bound _ _ Hw). lia.
    - destruct g as [|g]; simpl.
      + destruct (ch v) as [|w l] eqn:E; auto.
        exfalso. assert (Hw : In w (ch v)) by (rewrite E; simpl; auto).
        pose proof (ch_up _ _ Hw). pose proof (ch_bound _ _ Hw). lia.
      + f_equal. apply flat_map_ext_in'. intros w Hw.
        pose proof (ch_up _ _ Hw). pose proof (ch_bound _ _ Hw). apply IH; lia.
  Qed.

  Lemma sub_eq v : sub v = v :: flat_map sub (ch v).
  Proof.
    unfold sub at 1. rewrite (subf_enough (M - v) (S (M - v)) v) by lia. simpl. f_equal.
    apply flat_map_ext_in'. intros w Hw. pose proof (ch_up _ _ Hw). pose proof (ch_bound _ _ Hw).
    unfold sub. apply subf_enough; lia.
  Qed.

  Lemma sub_self v : In v (sub v).
  Proof. rewrite sub_eq. simpl; auto. Qed.

  Lemma sub_child v w : In w (ch v) -> incl (sub w) (sub v).
  Proof. intros H u Hu. rewrite sub_eq. right. apply in_flat_map. eauto. Qed.

  Lemma sub_ind (P : nat -> Prop) : (forall v, (forall w, In w (ch v) -> P w) -> P v) -> forall v, P v.
  Proof.
    intros H v. remember (M - v) as k eqn:E. revert v E.
    induction k as [k IH] using lt_wf_ind. intros v E. apply H. intros w Hw.
    pose proof (ch_up _ _ Hw). pose proof (ch_bound _ _ Hw). apply (IH (M - w)); auto. lia.
  Qed.

  Lemma sub_inv v w : In w (sub v) -> w = v \/ exists u, In u (ch v) /\ In w (sub u).
  Proof. rewrite sub_eq. intros [<-|H]; auto. right. apply in_flat_map in H. auto. Qed.

  Lemma sub_ge v : forall w, In w (sub v) -> v <= w.
  Proof.
    induction v as [v IH] using sub_ind. intros w H. apply sub_inv in H as [->|(u & Hu & Hw)]; auto.
    pose proof (ch_up _ _ Hu). specialize (IH u Hu w Hw). lia.
  Qed.

  Lemma sub_trans v : forall w u, In w (sub v) -> In u (sub w) -> In u (sub v).
  Proof.
    induction v as [v IH] using sub_ind. intros w u H1 H2.
    apply sub_inv in H1 as [->|(x & Hx & Hw)]; auto.
    apply (sub_child v x Hx). eauto.
  Qed.

  Lemma sub_up v : forall w, In w (sub v) -> w <> v -> exists p, In w (ch p) /\ In p (sub v).
  Proof.
    induction v as [v IH] using sub_ind. intros w H Hne.
    apply sub_inv in H as [->|(x & Hx & Hw)]; [congruence|].
    destruct (Nat.eq_dec w x) as [->|Hwx].
    - exists v. split; auto. apply sub_self.
    - destruct (IH x Hx w Hw Hwx) as (p & Hp & Hpx). exists p. split; auto. apply (sub_child v x Hx). auto.
  Qed.

  Lemma sub_chain w : forall u u', In w (sub u) -> In w (sub u') -> In u (sub u') \/ In u' (sub u).
  Proof.
    induction w as [w IH] using lt_wf_ind. intros u u' H1 H2.
    destruct (Nat.eq_dec w u) as [->|Hu]; auto.
    destruct (Nat.eq_dec w u') as [->|Hu']; auto.
    destruct (sub_up u w H1 Hu) as (p & Hp & Hpu).
    destruct (sub_up u' w H2 Hu') as (p' & Hp' & Hpu').
    rewrite <- (ch_one _ _ _ Hp Hp') in Hpu'. apply (IH p); auto.
  Qed.

  Lemma sub_antisym u v : In u (sub v) -> In v (sub u) -> u = v.
  Proof. intros H1 H2. apply sub_ge in H1, H2. lia. Qed.

  Lemma sub_siblings v u u' w : In u (ch v) -> In u' (ch v) -> In w (sub u) -> In w (sub u') -> u = u'.
  Proof.
    assert (H : forall a b, In a (ch v) -> In b (ch v) -> In a (sub b) -> a = b).
    { intros a b Ha Hb Hab. destruct (Nat.eq_dec a b) as [|Hne]; auto.
      destruct (sub_up b a Hab Hne) as (p & Hp & Hpb). rewrite (ch_one _ _ _ Hp Ha) in Hpb.
      apply sub_ge in Hpb. pose proof (ch_up _ _ Hb). lia. }
    intros Hu Hu' H1 H2. destruct (sub_chain w u u' H1 H2) as [H'|H']; [auto|symmetry; auto].
  Qed.

  Lemma sub_NoDup v : NoDup (sub v).
  Proof.
    induction v as [v IH] using sub_ind. rewrite sub_eq. constructor.
    - intro H. apply in_flat_map in H as (u & Hu & H). apply sub_ge in H. pose proof (ch_up _ _ Hu). lia.
    - assert (HN := ch_nodup v).
      assert (Hs : forall u u' w, In u (ch v) -> In u' (ch v) -> In w (sub u) -> In w (sub u') -> u = u').
      { intros. eapply sub_siblings; eauto. }
      revert HN IH Hs. induction (ch v) as [|c l IHl]; intros HN IH Hs; simpl; [constructor|].
      inversion_clear HN as [|? ? Hc Hl]. apply NoDup_app_iff. split; [apply IH; simpl; auto|]. split.
      + apply IHl; auto. { intros; apply IH; simpl; auto. } intros; eapply Hs; simpl; eauto.
      + intros w H1 H2. apply in_flat_map in H2 as (u & Hu & H2).
        assert (c = u) by (eapply Hs; simpl; eauto). congruence.
  Qed.

  (** Sets of nodes none of which lies strictly below another. *)
  Definition antichain (S : list nat) : Prop :=
    forall s t, In s S -> In t S -> In t (sub s) -> s = t.
End Forest.
