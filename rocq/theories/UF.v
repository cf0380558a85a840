(** Proof infrastructure: parent arrays seen as forests of pointers. *)
From Coq Require Import List Arith Lia Bool Permutation Relations.
From Verif Require Import Prelude Order Graph.
Import ListNotations.

(** [Root p x r]: following [p] from [x] ends in the fixed point [r]. *)
Inductive Root (p : nat -> nat) : nat -> nat -> Prop :=
| Root_here x : p x = x -> Root p x x
| Root_up x r : p x <> x -> Root p (p x) r -> Root p x r.

Inductive RootN (p : nat -> nat) : nat -> nat -> nat -> Prop :=
| RootN_here x : p x = x -> RootN p x x 0
| RootN_up x r k : p x <> x -> RootN p (p x) r k -> RootN p x r (S k).

Definition same (p : nat -> nat) (x y : nat) : Prop := exists r, Root p x r /\ Root p y r.

Definition uf_wf (n : nat) (p : nat -> nat) : Prop :=
  (forall x, x < n -> p x < n) /\ (forall x, x < n -> exists r, Root p x r).

(** The classes of [p] are the classes of the relation [R]. *)
Definition classes (n : nat) (p : nat -> nat) (R : nat -> nat -> Prop) : Prop :=
  forall x y, x < n -> y < n -> (same p x y <-> R x y).

Definition nroots (n : nat) (p : nat -> nat) : nat :=
  countp (fun x => p x =? x) (seq 0 n).

Section Facts.
  Implicit Types p q : nat -> nat.

  Lemma Root_root p x r : Root p x r -> p r = r.
  Proof. induction 1; auto. Qed.

  Lemma Root_det p x r s : Root p x r -> Root p x s -> r = s.
  Proof.
    intro H. revert s. induction H; intros s Hs; inversion Hs; subst; auto; congruence.
  Qed.

  Lemma Root_self p x : p x = x -> Root p x x.
  Proof. apply Root_here. Qed.

  Lemma Root_fix p x r : Root p x r -> p x = x -> r = x.
  Proof. intros H E. inversion H; subst; congruence. Qed.

  Lemma Root_step p x r : Root p x r -> Root p (p x) r.
  Proof. intro H. inversion H; subst; auto. rewrite H0. auto. Qed.

  Lemma Root_back p x r : Root p (p x) r -> Root p x r.
  Proof.
    intro H. destruct (Nat.eq_dec (p x) x) as [E|E].
    - rewrite E in H. auto.
    - now apply Root_up.
  Qed.

  Lemma Root_range n p x r :
    (forall x, x < n -> p x < n) -> Root p x r -> x < n -> r < n.
  Proof. intros Hp H. induction H; auto. Qed.

  Lemma Root_ext p q x r : (forall j, p j = q j) -> Root p x r -> Root q x r.
  Proof.
    intros E H. induction H.
    - apply Root_here. now rewrite <- E.
    - apply Root_up; rewrite <- E; auto.
  Qed.

  Lemma RootN_Root p x r k : RootN p x r k -> Root p x r.
  Proof. induction 1; [apply Root_here | apply Root_up]; auto. Qed.

  Lemma Root_RootN p x r : Root p x r -> exists k, RootN p x r k.
  Proof.
    induction 1 as [x H|x r H _ [k IH]]; [exists 0|exists (S k)]; constructor; auto.
  Qed.

  Lemma RootN_det p x r s k j : RootN p x r k -> RootN p x s j -> k = j.
  Proof.
    intro H. revert s j. induction H; intros s j Hs; inversion Hs; subst; auto; try congruence.
    f_equal. eauto.
  Qed.

  (** The nodes met on the way to the root are pairwise different, so the walk
      is shorter than the number of nodes. *)
  Lemma RootN_path n p x r k :
    (forall x, x < n -> p x < n) -> x < n -> RootN p x r k ->
    exists l, length l = S k /\ NoDup l /\
              (forall y, In y l -> y < n /\ exists j, j <= k /\ RootN p y r j).
  Proof.
    intros Hp Hx H. induction H as [x H|x r k H HR IH].
    - exists [x]. split; [reflexivity|split].
      + constructor; auto using NoDup_nil.
      + intros y [<-|[]]. split; auto. exists 0. split; auto. now constructor.
    - destruct IH as (l & Hl & Hn & Ha); auto.
      exists (x :: l). split; [simpl; lia|split].
      + constructor; auto. intro Hi. apply Ha in Hi as (_ & j & Hj & Hr).
        assert (S k = j). { eapply RootN_det; eauto. constructor; eauto. } lia.
      + intros y [<-|H0].
        * split; auto. exists (S k). split; auto. now constructor.
        * apply Ha in H0 as (Hy & j & Hj & Hr). split; auto. exists j. split; auto.
  Qed.

  Lemma RootN_lt n p x r k :
    (forall x, x < n -> p x < n) -> x < n -> RootN p x r k -> k < n.
  Proof.
    intros Hp Hx H. destruct (RootN_path n p x r k Hp Hx H) as (l & Hl & Hn & Ha).
    assert (length l <= n) by (apply NoDup_bound_length; auto; intros y Hy; apply Ha; auto).
    lia.
  Qed.

  Lemma walk_RootN p x r k : RootN p x r k -> forall fuel, k <= fuel -> walk fuel p x = Ok r.
  Proof.
    induction 1; intros [|f] Hf; simpl; try lia.
    - now rewrite H, Nat.eqb_refl.
    - now rewrite H, Nat.eqb_refl.
    - apply Nat.eqb_neq in H. rewrite H. apply IHRootN. lia.
  Qed.

  Lemma walk_ok n p x fuel :
    uf_wf n p -> x < n -> n <= fuel -> exists r, walk fuel p x = Ok r /\ Root p x r /\ r < n.
  Proof.
    intros [Hp Hr] Hx Hf. destruct (Hr x Hx) as [r HR].
    destruct (Root_RootN _ _ _ HR) as [k Hk]. exists r. split; [|split]; auto.
    - eapply walk_RootN; eauto. assert (k < n) by (eapply RootN_lt; eauto). lia.
    - eapply Root_range; eauto.
  Qed.

  Lemma walk_sound fuel p x r : walk fuel p x = Ok r -> Root p x r.
  Proof.
    revert x. induction fuel as [|f IH]; intros x; simpl;
      destruct (p x =? x) eqn:E; try discriminate.
    - intros [= <-]. apply Root_here. now apply Nat.eqb_eq.
    - intros [= <-]. apply Root_here. now apply Nat.eqb_eq.
    - intro H. apply Root_up; auto. now apply Nat.eqb_neq.
  Qed.

  Lemma same_refl n p x : uf_wf n p -> x < n -> same p x x.
  Proof. intros [_ H] Hx. destruct (H x Hx) as [r Hr]. exists r. auto. Qed.
  Lemma same_sym p x y : same p x y -> same p y x.
  Proof. intros (r & H1 & H2). exists r. auto. Qed.
  Lemma same_trans p x y z : same p x y -> same p y z -> same p x z.
  Proof.
    intros (r & H1 & H2) (s & H3 & H4). rewrite (Root_det _ _ _ _ H2 H3) in H1. exists s. auto.
  Qed.
  Lemma same_root p x r : Root p x r -> same p x r.
  Proof. intro H. exists r. split; auto. apply Root_self. eapply Root_root; eauto. Qed.

  Lemma same_roots p x y r s : Root p x r -> Root p y s -> (same p x y <-> r = s).
  Proof.
    intros H1 H2. split.
    - intros (t & H3 & H4). rewrite (Root_det _ _ _ _ H1 H3), (Root_det _ _ _ _ H2 H4). auto.
    - intros ->. exists s. auto.
  Qed.

  (** *** Redirecting a node to its own root (path compression) *)
  Lemma Root_compress p x r y s :
    Root p x r -> x <> r -> Root p y s -> Root (upd p x r) y s.
  Proof.
    intros Hx Hne Hy.
    assert (Hr : p r = r) by (eapply Root_root; eauto).
    assert (Hpx : p x <> x) by (intro E; apply Hne; symmetry; eapply Root_fix; eauto).
    induction Hy as [y Hy|y s Hy Hs IH].
    - apply Root_here. rewrite upd_neq; auto. intros ->. auto.
    - destruct (Nat.eq_dec y x) as [->|E].
      + assert (s = r) as -> by (apply (Root_det p x); [now apply Root_up|auto]).
        apply Root_up; rewrite upd_eq; auto.
        apply Root_here. rewrite upd_neq; auto.
      + apply Root_up; rewrite upd_neq; auto.
  Qed.

  Lemma compress_wf n p x r :
    uf_wf n p -> x < n -> Root p x r -> x <> r -> uf_wf n (upd p x r).
  Proof.
    intros [Hp Hr] Hx HR Hne. split.
    - intros y Hy. destruct (upd_case p x y r) as [[-> ->]|[_ ->]]; auto.
      eapply Root_range; eauto.
    - intros y Hy. destruct (Hr y Hy) as [s Hs]. exists s. now apply Root_compress.
  Qed.

  (** The converse direction of [Root_compress]. *)
  Lemma Root_pres_iff n p q :
    uf_wf n p -> (forall y s, y < n -> Root p y s -> Root q y s) ->
    forall y s, y < n -> (Root q y s <-> Root p y s).
  Proof.
    intros [Hp Hr] H y s Hy. split; intro K; auto.
    destruct (Hr y Hy) as [t Ht]. pose proof (H y t Hy Ht) as Hq.
    now rewrite (Root_det _ _ _ _ K Hq).
  Qed.

  (** *** Linking a root below another root *)
  Lemma Root_link p a b y s :
    p a = a -> p b = b -> a <> b -> Root p y s ->
    Root (upd p a b) y (if s =? a then b else s).
  Proof.
    intros Ha Hb Hne H. induction H as [y Hy|y s Hy Hs IH].
    - destruct (y =? a) eqn:E.
      + apply Nat.eqb_eq in E as ->. apply Root_up; rewrite upd_eq; auto.
        apply Root_here. rewrite upd_neq; auto.
      + apply Nat.eqb_neq in E. apply Root_here. rewrite upd_neq; auto.
    - assert (y <> a) by (intros ->; auto).
      apply Root_up; rewrite upd_neq; auto.
  Qed.

  Lemma link_wf n p a b :
    uf_wf n p -> a < n -> b < n -> p a = a -> p b = b -> a <> b -> uf_wf n (upd p a b).
  Proof.
    intros [Hp Hr] Han Hbn Ha Hb Hne. split.
    - intros y Hy. destruct (upd_case p a y b) as [[-> ->]|[_ ->]]; auto.
    - intros y Hy. destruct (Hr y Hy) as [s Hs]. eexists. apply Root_link; eauto.
  Qed.

  Lemma Root_link_iff n p a b y s :
    uf_wf n p -> y < n -> p a = a -> p b = b -> a <> b ->
    (Root (upd p a b) y s <->
     (exists t, Root p y t /\ s = if t =? a then b else t)).
  Proof.
    intros [Hp Hr] Hy Ha Hb Hne. split.
    - intro H. destruct (Hr y Hy) as [t Ht]. exists t. split; auto.
      eapply Root_det; eauto. now apply Root_link.
    - intros (t & Ht & ->). now apply Root_link.
  Qed.

  Lemma same_link n p a b x y :
    uf_wf n p -> x < n -> y < n -> p a = a -> p b = b -> a <> b ->
    (same (upd p a b) x y <->
     same p x y \/ (same p x a /\ same p y b) \/ (same p x b /\ same p y a)).
  Proof.
    intros Hwf Hx Hy Ha Hb Hne.
    destruct (proj2 Hwf x Hx) as [rx Hrx]. destruct (proj2 Hwf y Hy) as [ry Hry].
    pose proof (Root_link p a b x rx Ha Hb Hne Hrx) as Lx.
    pose proof (Root_link p a b y ry Ha Hb Hne Hry) as Ly.
    rewrite (same_roots _ _ _ _ _ Lx Ly).
    rewrite (same_roots _ _ _ _ _ Hrx Hry).
    rewrite (same_roots _ _ _ _ _ Hrx (Root_self p a Ha)).
    rewrite (same_roots _ _ _ _ _ Hry (Root_self p b Hb)).
    rewrite (same_roots _ _ _ _ _ Hrx (Root_self p b Hb)).
    rewrite (same_roots _ _ _ _ _ Hry (Root_self p a Ha)).
    destruct (Nat.eqb_spec rx a), (Nat.eqb_spec ry a); lia.
  Qed.

  (** *** Counting roots *)
  Lemma countp_upd_one (f g : nat -> bool) l a :
    NoDup l -> In a l -> f a = true -> g a = false ->
    (forall x, In x l -> x <> a -> f x = g x) ->
    countp f l = S (countp g l).
  Proof.
    induction l as [|x l IH]; simpl; intros Hn Hi Hf Hg He; [tauto|].
    inversion_clear Hn as [|? ? Hx Hd].
    destruct Hi as [->|Hi].
    - rewrite Hf, Hg. simpl. f_equal. apply countp_ext. intros y Hy. apply He; auto.
      intros ->; auto.
    - assert (x <> a) by (intros ->; auto).
      rewrite (He x), IH by auto. destruct (g x); simpl; lia.
  Qed.

  Lemma nroots_link n p a b :
    a < n -> p a = a -> b <> a -> nroots n p = S (nroots n (upd p a b)).
  Proof.
    intros Ha Hpa Hne. unfold nroots. apply countp_upd_one with a.
    - apply seq_NoDup.
    - apply in_seq. lia.
    - now rewrite Hpa, Nat.eqb_refl.
    - rewrite upd_eq. now apply Nat.eqb_neq.
    - intros x _ Hx. now rewrite upd_neq.
  Qed.

  Lemma nroots_compress n p x r :
    Root p x r -> x <> r -> nroots n (upd p x r) = nroots n p.
  Proof.
    intros HR Hne. unfold nroots. apply countp_ext. intros y _.
    destruct (upd_case p x y r) as [[-> ->]|[_ ->]]; auto.
    assert (p x <> x). { intro E. apply Hne. symmetry. eapply Root_fix; eauto. }
    apply Nat.eqb_neq in H. rewrite H. apply Nat.eqb_neq. auto.
  Qed.

  Lemma nroots_id n : nroots n (fun x => x) = n.
  Proof.
    unfold nroots. rewrite <- (seq_length n 0) at 2.
    generalize (seq 0 n). induction l; simpl; auto. rewrite Nat.eqb_refl. auto.
  Qed.

  Lemma id_wf n : uf_wf n (fun x => x).
  Proof. split; auto. intros x _. exists x. now apply Root_here. Qed.

  Lemma same_id x y : same (fun x => x) x y <-> x = y.
  Proof.
    split.
    - intros (r & H1 & H2). inversion H1; inversion H2; subst; congruence.
    - intros ->. exists y. split; now apply Root_here.
  Qed.

  (** One root only: everything is in the same class. *)
  Lemma nroots_one_same n p x y :
    uf_wf n p -> nroots n p <= 1 -> x < n -> y < n -> same p x y.
  Proof.
    intros [Hp Hr] H1 Hx Hy.
    destruct (Hr x Hx) as [r Hrx]. destruct (Hr y Hy) as [s Hsy].
    destruct (Nat.eq_dec r s) as [->|Hne]; [exists s; auto|exfalso].
    assert (Hrn : r < n) by (eapply Root_range; eauto).
    assert (Hsn : s < n) by (eapply Root_range; eauto).
    unfold nroots in H1. rewrite countp_filter in H1.
    assert (HL : length [r; s] <= length (filter (fun x => p x =? x) (seq 0 n))).
    { apply NoDup_incl_length.
      - constructor; [simpl; intuition|]. constructor; auto using NoDup_nil.
      - intros z [<-|[<-|[]]]; apply filter_In; (split; [apply in_seq; lia|]);
          apply Nat.eqb_eq; eapply Root_root; eauto. }
    simpl in HL. lia.
  Qed.

  Lemma nroots_pos n p : uf_wf n p -> 0 < n -> 1 <= nroots n p.
  Proof.
    intros [Hp Hr] Hn. destruct (Hr 0 Hn) as [r HR].
    assert (r < n) by (eapply Root_range; eauto).
    unfold nroots. rewrite countp_filter.
    assert (In r (filter (fun x => p x =? x) (seq 0 n))).
    { apply filter_In. split; [apply in_seq; lia|]. apply Nat.eqb_eq. eapply Root_root; eauto. }
    destruct (filter _ _); simpl in *; [tauto|lia].
  Qed.
End Facts.

(** Linking the roots of the end points of an edge realises adding the edge. *)
Lemma classes_link {W} n p (E : list (edge W)) (e : edge W) a b :
  uf_wf n p -> classes n p (connected E) ->
  esrc e < n -> edst e < n ->
  (Root p (esrc e) a /\ Root p (edst e) b \/ Root p (esrc e) b /\ Root p (edst e) a) ->
  a <> b ->
  uf_wf n (upd p a b) /\ classes n (upd p a b) (connected (E ++ [e])).
Proof.
  intros Hwf Hc Hs Hd Hab Hne.
  assert (Han : a < n) by (destruct Hab as [[H1 H2]|[H1 H2]]; eapply Root_range; eauto; apply Hwf).
  assert (Hbn : b < n) by (destruct Hab as [[H1 H2]|[H1 H2]]; eapply Root_range; eauto; apply Hwf).
  assert (Ha : p a = a) by (destruct Hab as [[H1 H2]|[H1 H2]]; eapply Root_root; eauto).
  assert (Hb : p b = b) by (destruct Hab as [[H1 H2]|[H1 H2]]; eapply Root_root; eauto).
  split; [now apply link_wf|].
  intros x y Hx Hy. rewrite (same_link n) by auto. rewrite connected_snoc.
  rewrite <- (Hc x y Hx Hy).
  assert (Sx : forall z, z < n -> (same p z (esrc e) <-> connected E z (esrc e))) by (intros; apply Hc; auto).
  assert (Dx : forall z, z < n -> (same p z (edst e) <-> connected E z (edst e))) by (intros; apply Hc; auto).
  assert (Sx' : connected E (esrc e) y <-> same p (esrc e) y) by (rewrite (Hc _ _ Hs Hy); tauto).
  assert (Dx' : connected E (edst e) y <-> same p (edst e) y) by (rewrite (Hc _ _ Hd Hy); tauto).
  rewrite <- (Sx x Hx), <- (Dx x Hx), Sx', Dx'.
  destruct Hab as [[H1 H2]|[H1 H2]];
    apply same_root in H1; apply same_root in H2;
    intuition eauto 6 using same_trans, same_sym.
Qed.
