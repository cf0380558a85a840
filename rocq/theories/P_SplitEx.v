(** Checking on concrete samples that no two groups are apart. *)
From Coq Require Import List Arith Lia Bool.
From Verif Require Import Prelude Order Size S_Dbscan P_Dbscan S_Join S_Split.
Import ListNotations.
Local Open Scope nat_scope.

(** [up] leads from every sample to sample 0 in steps no longer than the distance
    from that sample to any other. *)
Definition one_group {W : WOrd} (D : nat -> nat -> W) (n : nat) (up : nat -> nat) : bool :=
  forallb (fun x => (Nat.iter n up x =? 0) && forallb (fun z => (z =? x) || forallb (fun k => let w := Nat.iter k up x in
    (up w <? n) && ((up w =? w) || wle (D w (up w)) (D x z))) (seq 0 n)) (seq 0 n)) (seq 0 n).

Lemma one_group_unparted {W : WOrd} (D : nat -> nat -> W) n ms k up :
  (forall i j, D i j = D j i) -> ms <= 1 -> 2 <= k -> one_group D n up = true -> ~ parted D n ms k.
Proof.
  intros Sym Hms Hk HC (eps & x & y & Hx & Hy & Gx & Gy & K). apply K.
  assert (H0 : forall x, x < n -> gathered D n ms k eps x -> density_connected D n ms eps x 0).
  { clear x y Hx Hy Gx Gy K. intros x Hx (xs & N & E & U). unfold one_group in HC. rewrite forallb_forall in HC. specialize (HC x ltac:(apply in_seq; lia)).
    apply andb_true_iff in HC as [H1 H2]. apply Nat.eqb_eq in H1.
    assert (HN : exists z, z < n /\ z <> x /\ wlt (D x z) eps = true).
    { assert (exists y, In y xs /\ y <> x) as (y & Hy & Hne).
      { destruct xs as [|a [|b l]]; cbn in E; try lia. destruct (Nat.eq_dec a x) as [->|]; [|exists a; split; [now left|auto]].
        exists b. split; [right; now left|]. intros ->. inversion_clear N. apply H. now left. }
      destruct (U y Hy) as [_ K]. clear -K Hne. induction K as [|y z K IH Hy Hz Cy Cz L]; [congruence|]. destruct (Nat.eq_dec y x) as [->|]; eauto. }
    destruct HN as (z & Hz & Hne & Lz). rewrite forallb_forall in H2. specialize (H2 z ltac:(apply in_seq; lia)). apply orb_true_iff in H2 as [H2|H2]; [apply Nat.eqb_eq in H2; congruence|].
    rewrite forallb_forall in H2.
    assert (HI : forall k, k <= n -> Nat.iter k up x < n /\ density_connected D n ms eps x (Nat.iter k up x)).
    { induction k0 as [|j IH]; intro Hj; [split; [auto|constructor]|]. destruct IH as [I1 I2]; [lia|]. specialize (H2 j ltac:(apply in_seq; lia)). cbn zeta in H2.
      apply andb_true_iff in H2 as [H2 H3]. apply Nat.ltb_lt in H2. split; [exact H2|]. cbn [Nat.iter]. apply orb_true_iff in H3 as [H3|H3]; [apply Nat.eqb_eq in H3; unfold Nat.iter in *; cbn; rewrite H3; exact I2|].
      eapply dc_next; [exact I2|exact I1|exact H2|left; lia|left; lia|]. eapply wle_lt_trans; [exact H3|exact Lz]. }
    destruct (HI n ltac:(lia)) as [_ I]. now rewrite H1 in I. }
  eapply P_Dbscan.dc_trans; [apply H0; auto|]. apply (P_Dbscan.dc_sym D n ms eps (fun i j _ _ => Sym i j)). apply H0; auto.
Qed.

Lemma row_distance_sym {W : WOrd} {Row} (ok : Row -> bool) (dist : Row -> Row -> W) X i j : (forall a b, dist a b = dist b a) -> row_distance ok dist X i j = row_distance ok dist X j i.
Proof. intro H. unfold row_distance. destruct (nth_error X i) as [a|], (nth_error X j) as [b|]; auto. rewrite andb_comm, H. reflexivity. Qed.
