(** Decidable checks used by the examples: a concrete edge list is a spanning tree. *)
From Coq Require Import List Arith Lia Bool.
From Verif Require Import Prelude Order Graph.
Import ListNotations.

(** Process the edges; [comp] names the component of each sample. *)
Fixpoint forest_check {W} (M : list (edge W)) (comp : nat -> nat) : option (nat -> nat) :=
  match M with
  | [] => Some comp
  | e :: M' =>
      let a := comp (esrc e) in let b := comp (edst e) in
      if a =? b then None
      else forest_check M' (fun x => if comp x =? a then b else comp x)
  end.

Definition spanning_tree_check {W} (n : nat) (M : list (edge W)) : bool :=
  (S (length M) =? n) &&
  forallb (fun e => (esrc e <? n) && (edst e <? n)) M &&
  match forest_check M (fun x => x) with
  | Some comp => forallb (fun x => comp x =? comp 0) (seq 0 n)
  | None => false
  end.

Lemma forest_check_ok {W} (M : list (edge W)) : forall E comp comp',
  acyclic E -> (forall x y, connected E x y <-> comp x = comp y) ->
  forest_check M comp = Some comp' ->
  acyclic (E ++ M) /\ (forall x y, connected (E ++ M) x y <-> comp' x = comp' y).
Proof.
  induction M as [|e M IH]; intros E comp comp' HA HC H; simpl in H.
  - injection H as <-. rewrite app_nil_r. auto.
  - destruct (Nat.eqb_spec (comp (esrc e)) (comp (edst e))) as [?|Hne]; [discriminate|].
    replace (E ++ e :: M) with ((E ++ [e]) ++ M) by (rewrite <- app_assoc; reflexivity).
    eapply IH; [| |apply H].
    + apply acyclic_snoc; auto. now rewrite HC.
    + intros x y. rewrite connected_snoc, !HC.
      destruct (Nat.eqb_spec (comp x) (comp (esrc e))), (Nat.eqb_spec (comp y) (comp (esrc e))); lia.
Qed.

Lemma spanning_tree_checked {W} n (M : list (edge W)) :
  spanning_tree_check n M = true -> spanning_tree n M.
Proof.
  unfold spanning_tree_check. rewrite !andb_true_iff. intros [[H1 H2] H3].
  destruct (forest_check M (fun x => x)) as [comp|] eqn:E; [|discriminate].
  destruct (forest_check_ok M [] (fun x => x) comp) as [HA HC]; auto using acyclic_nil.
  { intros x y. apply connected_nil. }
  simpl in HA, HC. split; auto.
  - intros e He. rewrite forallb_forall in H2. specialize (H2 e He).
    rewrite andb_true_iff, !Nat.ltb_lt in H2. exact H2.
  - intros x y Hx Hy. apply HC. rewrite forallb_forall in H3.
    pose proof (H3 x) as Kx. pose proof (H3 y) as Ky. rewrite in_seq, Nat.eqb_eq in Kx, Ky.
    rewrite Kx, Ky by lia. reflexivity.
  - now apply Nat.eqb_eq.
Qed.
