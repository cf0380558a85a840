(** Specification vocabulary about weighted graphs on samples 0, 1, 2, ...
    Independent of the model. *)
From Coq Require Import List Arith Lia Bool Relations Permutation.
From Verif Require Import Prelude Order.
Import ListNotations.

(** A weighted edge: source, destination, weight (one row of an MST array). *)
Definition edge (W : Type) : Type := nat * nat * W.
Definition esrc {W} (e : edge W) : nat := fst (fst e).
Definition edst {W} (e : edge W) : nat := snd (fst e).
Definition ewt {W} (e : edge W) : W := snd e.

(** [joins E x y]: some edge of [E] goes from [x] to [y]. *)
Definition joins {W} (E : list (edge W)) (x y : nat) : Prop :=
  exists e, In e E /\ esrc e = x /\ edst e = y.

(** [connected E x y]: a chain of edges of [E], taken in either direction,
    leads from [x] to [y]. *)
Definition connected {W} (E : list (edge W)) : nat -> nat -> Prop :=
  clos_refl_sym_trans nat (joins E).

(** No edge is redundant: removing it disconnects its end points. *)
Definition acyclic {W} (E : list (edge W)) : Prop :=
  forall l1 e l2, E = l1 ++ e :: l2 -> ~ connected (l1 ++ l2) (esrc e) (edst e).

(** All end points are samples of a data set of size [n]. *)
Definition in_range {W} (n : nat) (E : list (edge W)) : Prop :=
  forall e, In e E -> esrc e < n /\ edst e < n.

(** A threshold on weights, in either form ("at most t", "less than t"): any
    set of weights closed downwards. *)
Definition threshold {W : WOrd} (P : W -> bool) : Prop :=
  forall x y : W, wle x y = true -> P y = true -> P x = true.

(** The edges of [E] whose weight passes [P]. *)
Definition passing {W : Type} (P : W -> bool) (E : list (edge W)) : list (edge W) :=
  filter (fun e => P (ewt e)) E.

(** [M] has, at every threshold, exactly the components of [E]. *)
Definition same_components_at_every_threshold {W : WOrd} (M E : list (edge W)) : Prop :=
  forall P, threshold P ->
  forall x y, connected (passing P M) x y <-> connected (passing P E) x y.

(** Minimum spanning forest, in bottleneck form. *)
Record min_spanning_forest {W : WOrd} (E M : list (edge W)) : Prop := {
  msf_incl : incl M E;
  msf_acyclic : acyclic M;
  msf_levels : same_components_at_every_threshold M E
}.

(** The edges of a spanning tree of samples 0..n-1. *)
Record spanning_tree {W} (n : nat) (M : list (edge W)) : Prop := {
  st_range : in_range n M;
  st_acyclic : acyclic M;
  st_connected : forall x y, x < n -> y < n -> connected M x y;
  st_count : S (length M) = n
}.

(** ** Facts *)
Section Facts.
  Context {W : Type}.
  Implicit Types E M : list (edge W).

  Lemma connected_refl E x : connected E x x.
  Proof. apply rst_refl. Qed.
  Lemma connected_sym E x y : connected E x y -> connected E y x.
  Proof. apply rst_sym. Qed.
  Lemma connected_trans E x y z : connected E x y -> connected E y z -> connected E x z.
  Proof. apply rst_trans. Qed.
  Lemma connected_edge E e : In e E -> connected E (esrc e) (edst e).
  Proof. intro H. apply rst_step. exists e. auto. Qed.

  (** Induction principle: to show that connectivity in [E] implies an
      equivalence, check it on the edges. *)
  Lemma connected_ind_equiv E (R : nat -> nat -> Prop) :
    (forall x, R x x) -> (forall x y, R x y -> R y x) ->
    (forall x y z, R x y -> R y z -> R x z) ->
    (forall e, In e E -> R (esrc e) (edst e)) ->
    forall x y, connected E x y -> R x y.
  Proof.
    intros Hr Hs Ht He x y H. induction H; eauto.
    destruct H as (e & Hi & <- & <-). auto.
  Qed.

  Lemma connected_mono E M : 
    (forall e, In e E -> connected M (esrc e) (edst e)) ->
    forall x y, connected E x y -> connected M x y.
  Proof.
    intros H. apply connected_ind_equiv; eauto using connected_refl, connected_sym, connected_trans.
  Qed.

  Lemma connected_incl E M : incl E M -> forall x y, connected E x y -> connected M x y.
  Proof. intros H. apply connected_mono. intros e He. apply connected_edge. auto. Qed.

  Lemma connected_nil x y : connected (@nil (edge W)) x y <-> x = y.
  Proof.
    split.
    - revert x y. apply connected_ind_equiv; try congruence. intros e [].
    - intros ->. apply connected_refl.
  Qed.

  (** Adding one edge merges the two classes of its end points. *)
  Lemma connected_cons e E x y :
    connected (e :: E) x y <->
    connected E x y
    \/ (connected E x (esrc e) /\ connected E (edst e) y)
    \/ (connected E x (edst e) /\ connected E (esrc e) y).
  Proof.
    split.
    - revert x y. apply connected_ind_equiv.
      + intro x. left. apply connected_refl.
      + intros x y [H|[[H1 H2]|[H1 H2]]]; eauto 6 using connected_sym.
      + intros x y z [H|[[H1 H2]|[H1 H2]]] [K|[[K1 K2]|[K1 K2]]];
          eauto 6 using connected_trans, connected_sym.
      + intros e' [<-|Hi]; eauto 6 using connected_refl, connected_edge.
    - assert (I : incl E (e :: E)) by (intros z Hz; right; auto).
      assert (S : connected (e :: E) (esrc e) (edst e)) by (apply connected_edge; left; auto).
      intros [H|[[H1 H2]|[H1 H2]]].
      + eapply connected_incl; eauto.
      + eapply connected_trans; [eapply connected_incl; eauto|].
        eapply connected_trans; [apply S|]. eapply connected_incl; eauto.
      + eapply connected_trans; [eapply connected_incl; eauto|].
        eapply connected_trans; [apply connected_sym, S|]. eapply connected_incl; eauto.
  Qed.

  Lemma connected_perm E M : Permutation E M -> forall x y, connected E x y <-> connected M x y.
  Proof.
    intros H x y. split; apply connected_incl; intros e He.
    - eapply Permutation_in; eauto.
    - eapply Permutation_in; [apply Permutation_sym|]; eauto.
  Qed.

  Lemma connected_range n E : in_range n E ->
    forall x y, connected E x y -> x = y \/ (x < n /\ y < n).
  Proof.
    intros H. apply connected_ind_equiv; intuition (try congruence; try lia).
    right. apply (H e H0).
  Qed.

  Lemma in_range_incl n E M : incl M E -> in_range n E -> in_range n M.
  Proof. intros H1 H2 e He. apply H2, H1, He. Qed.

  Lemma acyclic_nil : acyclic (@nil (edge W)).
  Proof. intros l1 e l2 H. now apply app_cons_not_nil in H. Qed.

  Lemma Permutation_split {A} (l1 l2 : list A) x l :
    Permutation (l1 ++ x :: l2) l -> exists k1 k2, l = k1 ++ x :: k2 /\ Permutation (l1 ++ l2) (k1 ++ k2).
  Proof.
    intro H. assert (Hin : In x l).
    { eapply Permutation_in; eauto. apply in_or_app. right. left. auto. }
    apply in_split in Hin as (k1 & k2 & ->). exists k1, k2. split; auto.
    now apply Permutation_app_inv in H.
  Qed.

  Lemma acyclic_perm E M : Permutation E M -> acyclic E -> acyclic M.
  Proof.
    intros HP HA l1 e l2 -> Hc. apply Permutation_sym in HP.
    apply Permutation_split in HP as (k1 & k2 & -> & HP).
    apply (HA k1 e k2 eq_refl). now apply (connected_perm _ _ HP).
  Qed.

  (** Extending a forest by an edge between two components keeps it a forest. *)
  Lemma acyclic_cons e E :
    acyclic E -> ~ connected E (esrc e) (edst e) -> acyclic (e :: E).
  Proof.
    intros HA HN l1 f l2 Heq Hc.
    destruct l1 as [|g l1]; simpl in *.
    - injection Heq as <- <-. auto.
    - injection Heq as <- ->.
      apply connected_cons in Hc.
      assert (I : incl (l1 ++ l2) (l1 ++ f :: l2)).
      { intros z Hz. apply in_app_iff in Hz. apply in_app_iff. simpl. tauto. }
      assert (S : connected (l1 ++ f :: l2) (esrc f) (edst f)).
      { apply connected_edge. apply in_app_iff. simpl. auto. }
      destruct Hc as [Hc|[[H1 H2]|[H1 H2]]].
      + eapply HA; eauto.
      + apply HN. apply (connected_incl _ _ I) in H1. apply (connected_incl _ _ I) in H2.
        eauto using connected_trans, connected_sym.
      + apply HN. apply (connected_incl _ _ I) in H1. apply (connected_incl _ _ I) in H2.
        eauto using connected_trans, connected_sym.
  Qed.

  Lemma acyclic_tail e E : acyclic (e :: E) -> acyclic E /\ ~ connected E (esrc e) (edst e).
  Proof.
    intro H. split.
    - intros l1 f l2 -> Hc. apply (H (e :: l1) f l2 eq_refl). simpl.
      eapply connected_incl; eauto. intros z Hz. right. auto.
    - apply (H [] e E eq_refl).
  Qed.

  Lemma acyclic_app_l E M : acyclic (E ++ M) -> acyclic E.
  Proof.
    intro H. apply (acyclic_perm _ (M ++ E)) in H; [|apply Permutation_app_comm].
    induction M as [|e M IH]; simpl in *; auto. apply IH. now apply acyclic_tail in H.
  Qed.

  Lemma acyclic_snoc e E :
    acyclic E -> ~ connected E (esrc e) (edst e) -> acyclic (E ++ [e]).
  Proof.
    intros. apply (acyclic_perm (e :: E)); [apply Permutation_cons_append|].
    now apply acyclic_cons.
  Qed.

  Lemma connected_snoc e E x y :
    connected (E ++ [e]) x y <->
    connected E x y
    \/ (connected E x (esrc e) /\ connected E (edst e) y)
    \/ (connected E x (edst e) /\ connected E (esrc e) y).
  Proof.
    rewrite <- connected_cons.
    apply connected_perm. apply Permutation_sym, Permutation_cons_append.
  Qed.
End Facts.

Section WFacts.
  Context {W : WOrd}.
  Implicit Types E M : list (edge W).

  Lemma threshold_le (t : W) : threshold (fun w => wle w t).
  Proof. intros x y H1 H2. eapply wle_trans; eauto. Qed.

  Lemma threshold_lt (t : W) : threshold (fun w => wlt w t).
  Proof. intros x y H1 H2. eapply wle_lt_trans; eauto. Qed.

  Lemma threshold_all : threshold (fun _ : W => true).
  Proof. intros x y; auto. Qed.

  Lemma passing_all (E : list (edge W)) : passing (fun _ => true) E = E.
  Proof. unfold passing. induction E; simpl; congruence. Qed.

  Lemma in_passing {T} (P : T -> bool) (E : list (edge T)) e :
    In e (passing P E) <-> In e E /\ P (ewt e) = true.
  Proof. unfold passing. apply filter_In. Qed.

  (** The cycle property on single edges gives equality at every threshold. *)
  Lemma levels_of_bottleneck E M :
    incl M E ->
    (forall e, In e E -> connected (passing (fun w => wle w (ewt e)) M) (esrc e) (edst e)) ->
    same_components_at_every_threshold M E.
  Proof.
    intros HI HB P HP x y. split.
    - apply connected_incl. intros e He. apply in_passing in He as [He Hp].
      apply in_passing. auto.
    - apply connected_mono. intros e He. apply in_passing in He as [He Hp].
      eapply connected_incl; [|apply (HB e He)].
      intros f Hf. apply in_passing in Hf as [Hf Hle]. apply in_passing. split; auto.
      eapply HP; eauto.
  Qed.
End WFacts.
