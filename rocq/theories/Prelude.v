(** Shared vocabulary of the model: errors as values, functional arrays,
    and a few facts about lists.  Nothing here models project code. *)
From Coq Require Import List Arith Lia Bool Permutation.
Import ListNotations.

(** Everything that can go wrong when the python code runs.  [OutOfFuel] is the
    artefact of modelling [while] by recursion on fuel: a theorem that shows a
    result is [Ok _] therefore also shows that the loop terminates. *)
Inductive err :=
| OutOfFuel | KeyError | IndexError | ValueError | TypeError
| NotImplementedError | ZeroDivisionError | ImportError.

Inductive res (A : Type) :=
| Ok (a : A)
| Err (e : err).
Arguments Ok {A} _.
Arguments Err {A} _.

Definition bind {A B} (m : res A) (k : A -> res B) : res B :=
  match m with Ok a => k a | Err e => Err e end.

Declare Scope res_scope.
Notation "'let*' x ':=' m 'in' k" := (bind m (fun x => k))
  (at level 200, x pattern, m at level 100, k at level 200,
   format "'let*'  x  ':='  m  'in' '//' k") : res_scope.
Global Open Scope res_scope.

Definition is_ok {A} (m : res A) : bool :=
  match m with Ok _ => true | Err _ => false end.

(** A mutable array is a function; [upd f i v] is the array after [f[i] = v]. *)
Definition upd {A} (f : nat -> A) (i : nat) (v : A) : nat -> A :=
  fun j => if j =? i then v else f j.

(** The loop [while p[x] != x: x = p[x]] over a parent array, as it occurs in
    kruskal.py:66-68, 75-77, 122-123, 221-222 and elsewhere; on fuel. *)
Fixpoint walk (fuel : nat) (p : nat -> nat) (x : nat) : res nat :=
  if p x =? x then Ok x
  else match fuel with 0 => Err OutOfFuel | S f => walk f p (p x) end.

(** [l[a:b]]. *)
Definition slice {A} (a b : nat) (l : list A) : list A := firstn (b - a) (skipn a l).

Lemma upd_eq {A} (f : nat -> A) i v : upd f i v i = v.
Proof. unfold upd. now rewrite Nat.eqb_refl. Qed.

Lemma upd_neq {A} (f : nat -> A) i j v : j <> i -> upd f i v j = f j.
Proof. intro H. unfold upd. now rewrite (proj2 (Nat.eqb_neq j i) H). Qed.

Lemma upd_case {A} (f : nat -> A) i j v :
  (j = i /\ upd f i v j = v) \/ (j <> i /\ upd f i v j = f j).
Proof.
  destruct (Nat.eq_dec j i) as [->|H]; [left|right]; split; auto.
  - apply upd_eq.
  - now apply upd_neq.
Qed.

Lemma bind_ok {A B} (m : res A) (k : A -> res B) b :
  bind m k = Ok b -> exists a, m = Ok a /\ k a = Ok b.
Proof. destruct m; simpl; [eauto | discriminate]. Qed.

(** Lists. *)
Fixpoint countp {A} (p : A -> bool) (l : list A) : nat :=
  match l with
  | [] => 0
  | x :: l' => (if p x then 1 else 0) + countp p l'
  end.

Lemma countp_filter {A} (p : A -> bool) l : countp p l = length (filter p l).
Proof. induction l as [|x l IH]; simpl; auto. destruct (p x); simpl; lia. Qed.

Lemma countp_app {A} (p : A -> bool) l1 l2 :
  countp p (l1 ++ l2) = countp p l1 + countp p l2.
Proof. induction l1; simpl; lia. Qed.

Lemma countp_ext {A} (p q : A -> bool) l :
  (forall x, In x l -> p x = q x) -> countp p l = countp q l.
Proof.
  induction l as [|x l IH]; simpl; intro H; auto.
  rewrite (H x) by auto. rewrite IH; auto.
Qed.

Lemma countp_perm {A} (p : A -> bool) l1 l2 :
  Permutation l1 l2 -> countp p l1 = countp p l2.
Proof. induction 1; simpl; lia. Qed.

Lemma countp_le {A} (p : A -> bool) l : countp p l <= length l.
Proof. induction l as [|x l IH]; simpl; auto. destruct (p x); lia. Qed.

Lemma countp_zero {A} (p : A -> bool) l :
  countp p l = 0 <-> (forall x, In x l -> p x = false).
Proof.
  induction l as [|x l IH]; simpl; split; intros; try tauto.
  - destruct H0 as [->|H0]; destruct (p x0) eqn:E; try lia; auto.
    + destruct (p x); try lia. assert (H' : countp p l = 0) by lia.
      rewrite IH in H'. now rewrite H' in E.
  - rewrite (H x) by auto. simpl. apply IH. auto.
Qed.

Lemma seq_NoDup' n : NoDup (seq 0 n).
Proof. apply seq_NoDup. Qed.

Lemma NoDup_bound_length (l : list nat) n :
  NoDup l -> (forall x, In x l -> x < n) -> length l <= n.
Proof.
  intros H1 H2. rewrite <- (seq_length n 0).
  apply NoDup_incl_length; auto.
  intros x Hx. apply in_seq. specialize (H2 x Hx). lia.
Qed.

Lemma filter_perm {A} (p : A -> bool) l1 l2 :
  Permutation l1 l2 -> Permutation (filter p l1) (filter p l2).
Proof.
  induction 1; simpl; auto.
  - destruct (p x); auto.
  - destruct (p x), (p y); auto using perm_swap.
  - eauto using Permutation_trans.
Qed.

Lemma NoDup_app_iff {A} (l1 l2 : list A) :
  NoDup (l1 ++ l2) <->
  NoDup l1 /\ NoDup l2 /\ (forall x, In x l1 -> In x l2 -> False).
Proof.
  induction l1 as [|a l1 IH]; simpl.
  - split; [intro; repeat split; auto using NoDup_nil | tauto].
  - split.
    + intro H; inversion_clear H as [|? ? Hn Hd]. apply IH in Hd as (H1 & H2 & H3).
      rewrite in_app_iff in Hn. repeat split; auto.
      * constructor; tauto.
      * intros x [->|Hx] Hx2; eauto.
    + intros (H1 & H2 & H3). inversion_clear H1 as [|? ? Hn Hd]. constructor.
      * rewrite in_app_iff. intros [?|?]; eauto.
      * apply IH. repeat split; auto. intros x ? ?. eapply H3; eauto.
Qed.

Lemma nth_error_split_eq {A} (l : list A) i x :
  nth_error l i = Some x -> l = firstn i l ++ x :: skipn (S i) l.
Proof.
  revert i. induction l as [|y l IH]; intros [|i] H; simpl in *; try discriminate.
  - now injection H as ->.
  - f_equal. now apply IH.
Qed.

Lemma firstn_S_nth {A} (l : list A) i x :
  nth_error l i = Some x -> firstn (S i) l = firstn i l ++ [x].
Proof.
  revert i. induction l as [|y l IH]; intros [|i] H; simpl in *; try discriminate.
  - now injection H as ->.
  - f_equal. now apply IH.
Qed.

Lemma Forall2_len {A B} (R : A -> B -> Prop) l1 l2 : Forall2 R l1 l2 -> length l1 = length l2.
Proof. induction 1; simpl; congruence. Qed.

Lemma Forall2_weaken {A B} (R Q : A -> B -> Prop) l1 l2 :
  (forall a b, R a b -> Q a b) -> Forall2 R l1 l2 -> Forall2 Q l1 l2.
Proof. induction 2; constructor; auto. Qed.

Lemma NoDup_map_inj {A B} (f : A -> B) l :
  NoDup l -> (forall x y, In x l -> In y l -> f x = f y -> x = y) -> NoDup (map f l).
Proof.
  induction 1 as [|x l Hx Hn IH]; intro H; simpl; constructor.
  - intro Hi. apply in_map_iff in Hi as (y & E & Hy). apply Hx.
    rewrite (H x y); simpl; auto.
  - apply IH. intros; apply H; simpl; auto.
Qed.
