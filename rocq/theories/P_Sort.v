(** Facts about sorting by natural keys, [unique] and CSR slices. *)
From Coq Require Import List Arith Lia Bool Permutation Sorted.
From Verif Require Import Prelude Order.
Import ListNotations.

Section NSort.
  Context {A : Type}.

  Definition nsorted (key : A -> nat) : list A -> Prop :=
    StronglySorted (fun x y => key x <= key y).

  Lemma nsort_perm key (l : list A) : Permutation l (nsort key l).
  Proof. apply (isort_perm (W := NInf)). Qed.

  Lemma nsort_sorted key (l : list A) : nsorted key (nsort key l).
  Proof.
    unfold nsorted, nsort.
    pose proof (isort_sorted (W := NInf) (fun x => Some (key x)) l) as H.
    unfold sorted_by in H.
    induction H as [|x l' Hs IH Hf]; constructor; auto.
    eapply Forall_impl; [|exact Hf]. intros y Hy. simpl in Hy. now apply Nat.leb_le.
  Qed.

  Lemma nsort_in key (l : list A) x : In x (nsort key l) <-> In x l.
  Proof.
    split; apply Permutation_in; [apply Permutation_sym|]; apply nsort_perm.
  Qed.

  Lemma nsort_length key (l : list A) : length (nsort key l) = length l.
  Proof. symmetry. apply Permutation_length, nsort_perm. Qed.

  Lemma nsort_NoDup key (l : list A) : NoDup l -> NoDup (nsort key l).
  Proof. apply Permutation_NoDup, nsort_perm. Qed.

  Definition lex_le (k1 k2 : A -> nat) (x y : A) : Prop :=
    k1 x < k1 y \/ (k1 x = k1 y /\ k2 x <= k2 y).

  Lemma insert_lex k1 k2 x l :
    StronglySorted (lex_le k1 k2) l -> Forall (fun y => k2 x <= k2 y) l ->
    StronglySorted (lex_le k1 k2) (insert (W := NInf) (fun x => Some (k1 x)) x l).
  Proof.
    induction 1 as [|y l Hs IH Hf]; intro Hx; simpl.
    - repeat constructor.
    - inversion_clear Hx as [|? ? Hxy Hxl]. destruct (Nat.leb_spec (k1 x) (k1 y)) as [L|L].
      + constructor; [constructor; auto|].
        rewrite Forall_forall in *. intros z [<-|Hz].
        * unfold lex_le. lia.
        * specialize (Hf z Hz). specialize (Hxl z Hz). unfold lex_le in *. lia.
      + constructor; [now apply IH|].
        rewrite Forall_forall in *. intros z Hz.
        apply (Permutation_in _ (Permutation_sym (insert_perm (W := NInf) _ x l))) in Hz.
        destruct Hz as [<-|Hz]; auto. left. lia.
  Qed.

  Lemma nsort_lex k1 k2 l : nsorted k2 l -> StronglySorted (lex_le k1 k2) (nsort k1 l).
  Proof.
    unfold nsort. induction 1 as [|x l Hs IH Hf]; simpl; [constructor|].
    apply insert_lex; auto. rewrite Forall_forall in *. intros y Hy. apply Hf.
    eapply Permutation_in; [apply Permutation_sym, (isort_perm (W := NInf) (fun x => Some (k1 x)))|exact Hy].
  Qed.

  Lemma lexsort_sorted k1 k2 l : StronglySorted (lex_le k1 k2) (nsort k1 (nsort k2 l)).
  Proof. apply nsort_lex, nsort_sorted. Qed.
End NSort.

Lemma unique_in x l : In x (unique l) <-> In x l.
Proof. unfold unique. rewrite nsort_in. apply nodup_In. Qed.

Lemma unique_NoDup l : NoDup (unique l).
Proof. apply nsort_NoDup, NoDup_nodup. Qed.

Lemma unique_sorted l : nsorted (fun x => x) (unique l).
Proof. apply nsort_sorted. Qed.

Section Slices.
  Context {A : Type} (f : A -> nat).

  Lemma sorted_split i l :
    nsorted f l -> l = filter (fun x => f x <? i) l ++ filter (fun x => negb (f x <? i)) l.
  Proof.
    induction 1 as [|x l Hs IH Hf]; simpl; auto.
    destruct (Nat.ltb_spec (f x) i) as [L|L]; simpl.
    - congruence.
    - assert (E : forall y, In y l -> (f y <? i) = false).
      { intros y Hy. rewrite Forall_forall in Hf. apply Nat.ltb_ge. specialize (Hf y Hy). lia. }
      assert (E1 : filter (fun x => f x <? i) l = []).
      { clear -E. induction l as [|y l IH]; simpl; auto. rewrite (E y) by (simpl; auto).
        apply IH. intros; apply E; simpl; auto. }
      assert (E2 : filter (fun x => negb (f x <? i)) l = l).
      { clear -E. induction l as [|y l IH]; simpl; auto. rewrite (E y) by (simpl; auto). simpl.
        f_equal. apply IH. intros; apply E; simpl; auto. }
      rewrite E1, E2. reflexivity.
  Qed.

  Lemma nsorted_filter p l : nsorted f l -> nsorted f (filter p l).
  Proof.
    induction 1 as [|x l Hs IH Hf]; simpl; [constructor|]. destruct (p x); auto.
    constructor; auto. rewrite Forall_forall in *. intros y Hy. apply filter_In in Hy. now apply Hf.
  Qed.

  Lemma filter_filter {B} (p q : B -> bool) l :
    filter p (filter q l) = filter (fun x => p x && q x) l.
  Proof.
    induction l as [|x l IH]; simpl; auto. destruct (q x) eqn:E; simpl; rewrite IH.
    - now rewrite andb_true_r.
    - now rewrite andb_false_r.
  Qed.

  Lemma slice_counts i l :
    nsorted f l ->
    slice (countp (fun x => f x <? i) l) (countp (fun x => f x <? S i) l) l
    = filter (fun x => f x =? i) l.
  Proof.
    intro Hs. unfold slice. rewrite !countp_filter.
    assert (E1 : skipn (length (filter (fun x => f x <? i) l)) l
                 = filter (fun x => negb (f x <? i)) l).
    { rewrite (sorted_split i l Hs) at 2. rewrite skipn_app, skipn_all, Nat.sub_diag. reflexivity. }
    rewrite E1. set (l' := filter (fun x => negb (f x <? i)) l).
    assert (Hs' : nsorted f l') by (apply nsorted_filter; auto).
    assert (E2 : filter (fun x => f x <? S i) l' = filter (fun x => f x =? i) l).
    { unfold l'. rewrite filter_filter. apply filter_ext. intro x.
      destruct (Nat.ltb_spec (f x) (S i)), (Nat.ltb_spec (f x) i), (Nat.eqb_spec (f x) i); simpl; auto; lia. }
    assert (E3 : length (filter (fun x => f x <? S i) l)
                 = length (filter (fun x => f x <? i) l) + length (filter (fun x => f x =? i) l)).
    { clear. induction l as [|x l IH]; simpl; auto.
      destruct (Nat.ltb_spec (f x) (S i)), (Nat.ltb_spec (f x) i), (Nat.eqb_spec (f x) i); simpl; lia. }
    rewrite E3, Nat.add_comm, Nat.add_sub.
    rewrite (sorted_split (S i) l' Hs'), E2.
    rewrite firstn_app, firstn_all, Nat.sub_diag. simpl. apply app_nil_r.
  Qed.
End Slices.

Lemma slice_map {A B} (g : A -> B) a b l : slice a b (map g l) = map g (slice a b l).
Proof. unfold slice. now rewrite skipn_map, firstn_map. Qed.

Lemma combine_map {A B C} (g : A -> B) (h : A -> C) l :
  combine (map g l) (map h l) = map (fun x => (g x, h x)) l.
Proof. induction l; simpl; congruence. Qed.

Lemma nth_map_seq {A} (g : nat -> A) n i d : i < n -> nth i (map g (seq 0 n)) d = g i.
Proof.
  intro H. rewrite (nth_indep _ d (g 0)) by (rewrite map_length, seq_length; auto).
  rewrite map_nth. now rewrite seq_nth.
Qed.

Lemma slice_in {A} a b (l : list A) x : In x (slice a b l) -> In x l.
Proof.
  unfold slice. intro H.
  assert (In x (skipn a l)).
  { rewrite <- (firstn_skipn (b - a) (skipn a l)). apply in_app_iff. auto. }
  rewrite <- (firstn_skipn a l). apply in_app_iff. auto.
Qed.

(** Row [i] of concatenated rows. *)
Lemma slice_concat {A} (rows : list (list A)) i :
  i < length rows ->
  slice (length (concat (firstn i rows))) (length (concat (firstn (S i) rows))) (concat rows)
  = nth i rows [].
Proof.
  intro H. destruct (nth_error rows i) as [r|] eqn:E.
  2: { apply nth_error_None in E. lia. }
  rewrite (firstn_S_nth rows i r E), concat_app, app_length. simpl. rewrite app_nil_r.
  unfold slice. rewrite Nat.add_comm, Nat.add_sub.
  rewrite (nth_error_nth _ _ [] E).
  rewrite (nth_error_split_eq rows i r E) at 2. rewrite concat_app. simpl.
  rewrite skipn_app, skipn_all, Nat.sub_diag. simpl.
  rewrite firstn_app, firstn_all, Nat.sub_diag. simpl. apply app_nil_r.
Qed.
