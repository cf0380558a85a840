(** Lists of adjacent pairs. *)
From Coq Require Import List Arith Lia Bool.
Import ListNotations.

Definition two {A} (PL : list (A * A)) : list A := flat_map (fun p => [fst p; snd p]) PL.

Lemma two_exists {A} : forall k (l : list A), length l = 2 * k -> exists PL, l = two PL.
Proof.
  induction k as [|k IH]; intros l Hl.
  - destruct l; [exists []; auto|discriminate].
  - destruct l as [|a [|b l]]; try (simpl in Hl; lia).
    destruct (IH l) as (PL & ->); [simpl in Hl; lia|]. exists ((a, b) :: PL). reflexivity.
Qed.
Lemma two_nth0 {A} (PL : list (A * A)) : forall j, nth_error (two PL) (2 * j) = option_map fst (nth_error PL j).
Proof.
  induction PL as [|p PL IH]; intros [|j]; try reflexivity.
  replace (2 * S j) with (S (S (2 * j))) by lia. apply IH.
Qed.
Lemma two_nth1 {A} (PL : list (A * A)) : forall j, nth_error (two PL) (2 * j + 1) = option_map snd (nth_error PL j).
Proof.
  induction PL as [|p PL IH]; intros [|j]; try reflexivity.
  replace (2 * S j + 1) with (S (S (2 * j + 1))) by lia. apply IH.
Qed.
Lemma two_app {A} (l1 l2 : list (A * A)) : two (l1 ++ l2) = two l1 ++ two l2.
Proof. unfold two. apply flat_map_app. Qed.
Lemma in_two {A} (PL : list (A * A)) x : In x (two PL) <-> exists p, In p PL /\ (x = fst p \/ x = snd p).
Proof.
  unfold two. rewrite in_flat_map. split; intros (p & Hp & H); exists p; split; auto; simpl in *; intuition.
Qed.
Lemma two_filter {A} (f : A -> bool) (PL : list (A * A)) : (forall p, In p PL -> f (fst p) = f (snd p)) ->
  filter f (two PL) = two (filter (fun p => f (fst p)) PL).
Proof.
  induction PL as [|p PL IH]; intro H; auto.
  assert (E : filter f (two PL) = two (filter (fun p => f (fst p)) PL)) by (apply IH; intros; apply H; simpl; auto).
  change (two (p :: PL)) with (fst p :: snd p :: two PL). cbn [filter]. rewrite <- (H p) by (simpl; auto).
  destruct (f (fst p)); rewrite E; auto.
Qed.
Lemma two_map {A B} (f : A -> B) (PL : list (A * A)) : map f (two PL) = two (map (fun p => (f (fst p), f (snd p))) PL).
Proof.
  induction PL as [|p PL IH]; auto. change (two (p :: PL)) with (fst p :: snd p :: two PL). cbn [map]. now rewrite IH.
Qed.
Lemma two_length {A} (PL : list (A * A)) : length (two PL) = 2 * length PL.
Proof. induction PL as [|p PL IH]; auto. cbn [two flat_map app length]. fold (two PL). rewrite IH. lia. Qed.

Lemma map_filter_split {A B} (f : A -> B) (k : A -> bool) : forall l l1 x l2, map f (filter k l) = l1 ++ x :: l2 ->
  exists k1 y k2, l = k1 ++ y :: k2 /\ k y = true /\ f y = x /\ l1 = map f (filter k k1) /\ l2 = map f (filter k k2).
Proof.
  induction l as [|a l IH]; intros l1 x l2 E; [destruct l1; discriminate|].
  cbn [filter] in E. destruct (k a) eqn:Ek.
  - destruct l1 as [|b l1]; cbn in E; injection E as E1 E2.
    + exists [], a, l. cbn. auto.
    + destruct (IH _ _ _ E2) as (k1 & y & k2 & -> & H1 & H2 & H3 & H4).
      exists (a :: k1), y, k2. cbn. rewrite Ek. cbn. subst. auto.
  - destruct (IH _ _ _ E) as (k1 & y & k2 & -> & H1 & H2 & H3 & H4).
    exists (a :: k1), y, k2. cbn. rewrite Ek. auto.
Qed.
