(** Proofs about the model of disjoint_set.py. *)
From Coq Require Import List Arith Lia Bool Permutation Relations.
From Verif Require Import Prelude Order Graph UF M_DisjointSet.
Import ListNotations.

(** Two structures that agree on every cell. *)
Definition ds_same (d d' : disjoint_set) : Prop :=
  ds_n d' = ds_n d /\ ds_aux d' = ds_aux d /\ forall j, ds_parent d' j = ds_parent d j.

Lemma ds_same_refl d : ds_same d d.
Proof. repeat split. Qed.
Lemma ds_same_trans d1 d2 d3 : ds_same d1 d2 -> ds_same d2 d3 -> ds_same d1 d3.
Proof.
  intros (H1 & H2 & H3) (K1 & K2 & K3). split; [|split]; try congruence.
Qed.

(** The store of [ds_find] writes the value that is already there. *)
Lemma find_store_noop d x :
  ds_same d (set_parent d (ds_parent d x) (ds_parent d (ds_parent d x))).
Proof.
  repeat split. intro j. simpl.
  destruct (upd_case (ds_parent d) (ds_parent d x) j (ds_parent d (ds_parent d x)))
    as [[-> ->]|[_ ->]]; auto.
Qed.

Lemma RootN_ext p q x r k : (forall j, p j = q j) -> RootN p x r k -> RootN q x r k.
Proof.
  intros E H. induction H.
  - apply RootN_here. now rewrite <- E.
  - apply RootN_up; rewrite <- E; auto.
Qed.

Lemma ds_find_loop_ok fuel d x r k :
  RootN (ds_parent d) x r k -> k <= fuel ->
  exists d', ds_find_loop fuel d x = Ok (d', r) /\ ds_same d d'.
Proof.
  revert d x k. induction fuel as [|f IH]; intros d x k H Hk; simpl.
  - inversion H; subst; [|lia]. rewrite H0, Nat.eqb_refl.
    eexists; split; eauto using ds_same_refl.
  - destruct (ds_parent d x =? x) eqn:E.
    + apply Nat.eqb_eq in E. inversion H; subst; [|congruence].
      eexists; split; eauto using ds_same_refl.
    + apply Nat.eqb_neq in E. inversion H; subst; [congruence|].
      pose proof (find_store_noop d x) as Hs.
      destruct (IH (set_parent d (ds_parent d x) (ds_parent d (ds_parent d x)))
                   (ds_parent d x) k0) as (d' & Hd' & Hs'); [|lia|].
      * eapply RootN_ext; [|eauto]. intro j. symmetry. apply Hs.
      * exists d'. split; auto. eapply ds_same_trans; eauto.
Qed.

(** Structure invariant: [classes] are the classes of [R]. *)
Definition ds_inv (n : nat) (d : disjoint_set) : Prop :=
  ds_n d = n /\ uf_wf n (ds_parent d).

Lemma ds_same_inv n d d' : ds_same d d' -> ds_inv n d -> ds_inv n d'.
Proof.
  intros (H1 & H2 & H3) (K1 & K2 & K3). split; [congruence|]. split.
  - intros x Hx. rewrite H3. auto.
  - intros x Hx. destruct (K3 x Hx) as [r Hr]. exists r.
    apply (Root_ext (ds_parent d)); auto.
Qed.

Lemma ds_find_ok n d x :
  ds_inv n d -> x < n ->
  exists d' r, ds_find d x = Ok (d', r) /\ ds_same d d' /\ Root (ds_parent d) x r /\ r < n.
Proof.
  intros [Hn [Hp Hr]] Hx. destruct (Hr x Hx) as [r HR].
  destruct (Root_RootN _ _ _ HR) as [k Hk].
  destruct (ds_find_loop_ok (ds_n d) d x r k Hk) as (d' & Hd & Hs).
  - assert (k < n) by (eapply RootN_lt; eauto). lia.
  - exists d', r. repeat split; auto; try apply Hs. eapply Root_range; eauto.
Qed.

Definition pairs_edges (ops : list (nat * nat)) : list (edge unit) :=
  map (fun xy => (xy, tt)) ops.

(** Rank invariant. *)
Definition csize (n : nat) (p : nat -> nat) (r : nat) : nat :=
  countp (fun y => match walk n p y with Ok s => s =? r | Err _ => false end) (seq 0 n).

Definition rank_inv (n : nat) (d : disjoint_set) : Prop :=
  (forall x, x < n -> ds_parent d x <> x -> ds_aux d x < ds_aux d (ds_parent d x)) /\
  (forall r, r < n -> ds_parent d r = r -> 2 ^ ds_aux d r <= csize n (ds_parent d) r).

Definition size_inv (n : nat) (d : disjoint_set) : Prop :=
  (forall r, r < n -> ds_parent d r = r -> ds_aux d r = csize n (ds_parent d) r) /\
  (forall x r k, x < n -> RootN (ds_parent d) x r k -> 2 ^ k <= csize n (ds_parent d) r).

Lemma walk_ext fuel p q x : (forall j, p j = q j) -> walk fuel p x = walk fuel q x.
Proof.
  intro E. revert x. induction fuel as [|f IH]; intro x; simpl; rewrite E; auto.
  now rewrite IH.
Qed.

Lemma csize_ext n p q r : (forall j, p j = q j) -> csize n p r = csize n q r.
Proof. intro E. unfold csize. apply countp_ext. intros y _. now rewrite (walk_ext n p q). Qed.

Lemma csize_le n p r : csize n p r <= n.
Proof. unfold csize. eapply Nat.le_trans; [apply countp_le|]. now rewrite seq_length. Qed.

Lemma rank_inv_same n d d' : ds_same d d' -> rank_inv n d -> rank_inv n d'.
Proof.
  intros (H1 & H2 & H3) (K1 & K2). split.
  - intros x Hx. rewrite H2, !H3. auto.
  - intros r Hr. rewrite H2, H3. intro E. rewrite (csize_ext n (ds_parent d') (ds_parent d)); auto.
Qed.

Lemma size_inv_same n d d' : ds_same d d' -> size_inv n d -> size_inv n d'.
Proof.
  intros (H1 & H2 & H3) (K1 & K2). split.
  - intros r Hr. rewrite H2, H3. intro E. rewrite (csize_ext n (ds_parent d') (ds_parent d)); auto.
  - intros x r k Hx HR. rewrite (csize_ext n (ds_parent d') (ds_parent d)); auto.
    eapply K2; eauto. eapply RootN_ext; eauto.
Qed.

Lemma walk_iff_Root n p y r :
  uf_wf n p -> y < n -> (walk n p y = Ok r <-> Root p y r).
Proof.
  intros Hwf Hy. split; [apply walk_sound|]. intro H.
  destruct (walk_ok n p y n Hwf Hy (le_n n)) as (s & Hs & Hr & _).
  now rewrite Hs, (Root_det _ _ _ _ Hr H).
Qed.

Lemma csize_link n p a b r :
  uf_wf n p -> a < n -> b < n -> p a = a -> p b = b -> a <> b ->
  csize n (upd p a b) r =
    if r =? b then csize n p a + csize n p b else if r =? a then 0 else csize n p r.
Proof.
  intros Hwf Ha Hb Hpa Hpb Hne.
  assert (Hwf' : uf_wf n (upd p a b)) by now apply link_wf.
  unfold csize.
  assert (HW : forall y, y < n -> exists s, Root p y s /\ walk n p y = Ok s /\
                walk n (upd p a b) y = Ok (if s =? a then b else s)).
  { intros y Hy. destruct (walk_ok n p y n Hwf Hy (le_n n)) as (s & Hs & Hr & _).
    exists s. split; [|split]; auto.
    apply (walk_iff_Root n); auto. now apply Root_link. }
  revert HW. generalize (seq_NoDup n 0).
  assert (Hin : forall y, In y (seq 0 n) -> y < n) by (intros y Hy; apply in_seq in Hy; lia).
  revert Hin. generalize (seq 0 n). intros l Hin _ HW.
  induction l as [|y l IH]; simpl.
  - destruct (r =? b), (r =? a); auto.
  - rewrite IH by (intros; apply Hin; simpl; auto). clear IH.
    destruct (HW y) as (s & _ & -> & ->); [apply Hin; simpl; auto|].
    destruct (Nat.eqb_spec s a), (Nat.eqb_spec r b), (Nat.eqb_spec r a),
      (Nat.eqb_spec s b), (Nat.eqb_spec s r), (Nat.eqb_spec b r); simpl; lia.
Qed.

Lemma csize_id n r : r < n -> csize n (fun x => x) r = 1.
Proof.
  intro Hr. unfold csize.
  assert (H : forall l, NoDup l -> In r l ->
    countp (fun y => match walk n (fun x => x) y with Ok s => s =? r | Err _ => false end) l = 1).
  { induction l as [|y l IH]; simpl; [tauto|]. intros Hn Hi. inversion_clear Hn as [|? ? Hy Hl].
    assert (Ew : walk n (fun x => x) y = Ok y) by (destruct n; simpl; rewrite Nat.eqb_refl; auto).
    rewrite Ew. destruct Hi as [->|Hi].
    - rewrite Nat.eqb_refl. simpl. f_equal. apply countp_zero. intros z Hz.
      assert (Ez : walk n (fun x => x) z = Ok z) by (destruct n; simpl; rewrite Nat.eqb_refl; auto).
      rewrite Ez. apply Nat.eqb_neq. intros ->; auto.
    - rewrite IH by auto. destruct (Nat.eqb_spec y r); subst; auto. tauto. }
  apply H; [apply seq_NoDup|apply in_seq; lia].
Qed.

Lemma rank_depth n d x r k :
  uf_wf n (ds_parent d) -> rank_inv n d -> x < n -> RootN (ds_parent d) x r k ->
  k + ds_aux d x <= ds_aux d r.
Proof.
  intros [Hp Hr] [K1 K2] Hx H. induction H; auto.
  specialize (IHRootN (Hp _ Hx)). specialize (K1 x Hx H). lia.
Qed.

Lemma pow2_log2 k n : 2 ^ k <= n -> k <= Nat.log2 n.
Proof.
  intro H. assert (0 < 2 ^ k) by (apply Nat.neq_0_lt_0, Nat.pow_nonzero; lia).
  apply Nat.log2_le_pow2; lia.
Qed.

(** One union. *)
Section Union.
  Variable n : nat.
  Variable E : list (edge unit).

  Lemma classes_same p q R : (forall j, p j = q j) -> classes n p R -> classes n q R.
  Proof.
    intros He H x y Hx Hy. rewrite <- (H x y Hx Hy).
    split; intros (r & H1 & H2); exists r; split.
    - apply (Root_ext q); auto.
    - apply (Root_ext q); auto.
    - apply (Root_ext p); auto.
    - apply (Root_ext p); auto.
  Qed.

  Lemma union_by_rank_ok d x y :
    ds_inv n d -> classes n (ds_parent d) (connected E) -> rank_inv n d -> x < n -> y < n ->
    exists d', ds_union_by_rank d x y = Ok d' /\ ds_inv n d' /\ rank_inv n d' /\
               classes n (ds_parent d') (connected (E ++ [(x, y, tt)])).
  Proof.
    intros Hi Hc Hk Hx Hy.
    destruct (ds_find_ok n d x Hi Hx) as (d1 & rx & Hf1 & Hs1 & HR1 & Hlx).
    destruct (ds_find_ok n d1 y (ds_same_inv _ _ _ Hs1 Hi) Hy) as (d2 & ry & Hf2 & Hs2 & HR2 & Hly).
    pose proof (ds_same_trans _ _ _ Hs1 Hs2) as Hs.
    assert (Hi2 : ds_inv n d2) by (eapply ds_same_inv; eauto).
    assert (Hk2 : rank_inv n d2) by (eapply rank_inv_same; eauto).
    assert (Hc2 : classes n (ds_parent d2) (connected E)).
    { eapply classes_same; [|apply Hc]. intro j. symmetry. apply Hs. }
    assert (HX : Root (ds_parent d2) x rx) by (eapply Root_ext; [|apply HR1]; intro; symmetry; apply Hs).
    assert (HY : Root (ds_parent d2) y ry) by (eapply Root_ext; [|apply HR2]; intro; symmetry; apply Hs2).
    unfold ds_union_by_rank. rewrite Hf1. simpl. rewrite Hf2. simpl.
    destruct (Nat.eqb_spec rx ry) as [->|Hne].
    - exists d2. split; [|split; [|split]]; auto.
      intros u v Hu Hv. rewrite (Hc2 u v Hu Hv). rewrite connected_snoc. simpl.
      assert (Hxy : connected E x y) by (apply Hc2; auto; exists ry; auto).
      unfold esrc, edst. simpl. split; auto.
      intros [H|[[H1 H2]|[H1 H2]]]; eauto using connected_trans, connected_sym.
    - assert (Hpx : ds_parent d2 rx = rx) by (eapply Root_root; eauto).
      assert (Hpy : ds_parent d2 ry = ry) by (eapply Root_root; eauto).
      (* a is linked below b *)
      assert (Main : forall a b,
        (a = rx /\ b = ry \/ a = ry /\ b = rx) -> ds_aux d2 a <= ds_aux d2 b ->
        let d3 := set_parent d2 a b in
        let d' := if ds_aux d3 b =? ds_aux d3 a then set_aux d3 b (ds_aux d3 b + 1) else d3 in
        ds_inv n d' /\ rank_inv n d' /\
        classes n (ds_parent d') (connected (E ++ [(x, y, tt)]))).
      { intros a b Hab Hle.
        assert (Ha : a < n) by (destruct Hab as [[-> ->]|[-> ->]]; auto).
        assert (Hb : b < n) by (destruct Hab as [[-> ->]|[-> ->]]; auto).
        assert (Hpa : ds_parent d2 a = a) by (destruct Hab as [[-> ->]|[-> ->]]; auto).
        assert (Hpb : ds_parent d2 b = b) by (destruct Hab as [[-> ->]|[-> ->]]; auto).
        assert (Hab' : a <> b) by (destruct Hab as [[-> ->]|[-> ->]]; auto).
        destruct (classes_link n (ds_parent d2) E (x, y, tt) a b) as [Hwf' Hc']; auto.
        { apply Hi2. }
        { destruct Hab as [[-> ->]|[-> ->]]; [left|right]; split; auto. }
        simpl. destruct Hk2 as [K1 K2].
        assert (Hsz : 2 ^ ds_aux d2 a <= csize n (ds_parent d2) a) by (apply K2; auto).
        assert (Hsz' : 2 ^ ds_aux d2 b <= csize n (ds_parent d2) b) by (apply K2; auto).
        destruct (Nat.eqb_spec (ds_aux d2 b) (ds_aux d2 a)) as [Heq|Hneq]; (split; [|split]); auto.
        - split; simpl; auto. apply Hi2.
        - split; simpl.
          + intros z Hz. destruct (upd_case (ds_parent d2) a z b) as [[-> ->]|[Hza ->]].
            * intros _. rewrite upd_neq by auto. rewrite upd_eq. lia.
            * intro Hp. specialize (K1 z Hz Hp).
              destruct (Nat.eq_dec z b) as [->|Hzb]; [congruence|].
              rewrite upd_neq by auto.
              destruct (upd_case (ds_aux d2) b (ds_parent d2 z) (ds_aux d2 b + 1)) as [[E1 ->]|[_ ->]]; auto.
              rewrite E1 in K1. lia.
          + intros r Hr. destruct (upd_case (ds_parent d2) a r b) as [[-> ->]|[Hra ->]]; [congruence|].
            intro Hp. rewrite csize_link by (auto; apply Hi2).
            destruct (Nat.eqb_spec r b) as [->|Hrb].
            * rewrite upd_eq, Nat.pow_add_r. simpl. rewrite Heq in *. lia.
            * rewrite upd_neq by auto. destruct (Nat.eqb_spec r a); [contradiction|]. auto.
        - split; simpl; auto. apply Hi2.
        - split; simpl.
          + intros z Hz. destruct (upd_case (ds_parent d2) a z b) as [[-> ->]|[Hza ->]].
            * intros _. lia.
            * intro Hp. auto.
          + intros r Hr. destruct (upd_case (ds_parent d2) a r b) as [[-> ->]|[Hra ->]]; [congruence|].
            intro Hp. rewrite csize_link by (auto; apply Hi2).
            destruct (Nat.eqb_spec r b) as [->|Hrb]; [lia|].
            destruct (Nat.eqb_spec r a); [contradiction|]. auto. }
      destruct (Nat.ltb_spec (ds_aux d2 rx) (ds_aux d2 ry)) as [Hlt|Hge].
      + eexists. split; [reflexivity|]. apply (Main rx ry); auto. lia.
      + eexists. split; [reflexivity|]. apply (Main ry rx); auto.
  Qed.

  Lemma RootN_link p a b y s k :
    p a = a -> p b = b -> a <> b -> RootN p y s k ->
    RootN (upd p a b) y (if s =? a then b else s) (if s =? a then S k else k).
  Proof.
    intros Ha Hb Hne H. induction H as [y Hy|y s k Hy Hs IH].
    - destruct (y =? a) eqn:Eq.
      + apply Nat.eqb_eq in Eq as ->. apply RootN_up; rewrite upd_eq; auto.
        apply RootN_here. rewrite upd_neq; auto.
      + apply Nat.eqb_neq in Eq. apply RootN_here. rewrite upd_neq; auto.
    - assert (y <> a) by (intros ->; auto).
      destruct (s =? a); apply RootN_up; rewrite upd_neq; auto.
  Qed.

  Lemma union_by_size_ok d x y :
    ds_inv n d -> classes n (ds_parent d) (connected E) -> size_inv n d -> x < n -> y < n ->
    exists d', ds_union_by_size d x y = Ok d' /\ ds_inv n d' /\ size_inv n d' /\
               classes n (ds_parent d') (connected (E ++ [(x, y, tt)])).
  Proof.
    intros Hi Hc Hk Hx Hy.
    destruct (ds_find_ok n d x Hi Hx) as (d1 & rx & Hf1 & Hs1 & HR1 & Hlx).
    destruct (ds_find_ok n d1 y (ds_same_inv _ _ _ Hs1 Hi) Hy) as (d2 & ry & Hf2 & Hs2 & HR2 & Hly).
    pose proof (ds_same_trans _ _ _ Hs1 Hs2) as Hs.
    assert (Hi2 : ds_inv n d2) by (eapply ds_same_inv; eauto).
    assert (Hk2 : size_inv n d2) by (eapply size_inv_same; eauto).
    assert (Hc2 : classes n (ds_parent d2) (connected E)).
    { eapply classes_same; [|apply Hc]. intro j. symmetry. apply Hs. }
    assert (HX : Root (ds_parent d2) x rx) by (eapply Root_ext; [|apply HR1]; intro; symmetry; apply Hs).
    assert (HY : Root (ds_parent d2) y ry) by (eapply Root_ext; [|apply HR2]; intro; symmetry; apply Hs2).
    unfold ds_union_by_size. rewrite Hf1. simpl. rewrite Hf2. simpl.
    destruct (Nat.eqb_spec rx ry) as [->|Hne].
    - exists d2. split; [|split; [|split]]; auto.
      intros u v Hu Hv. rewrite (Hc2 u v Hu Hv). rewrite connected_snoc. simpl.
      assert (Hxy : connected E x y) by (apply Hc2; auto; exists ry; auto).
      unfold esrc, edst. simpl. split; auto.
      intros [H|[[H1 H2]|[H1 H2]]]; eauto using connected_trans, connected_sym.
    - assert (Hpx : ds_parent d2 rx = rx) by (eapply Root_root; eauto).
      assert (Hpy : ds_parent d2 ry = ry) by (eapply Root_root; eauto).
      assert (Main : forall a b,
        (a = rx /\ b = ry \/ a = ry /\ b = rx) -> ds_aux d2 a <= ds_aux d2 b ->
        let d3 := set_parent d2 a b in
        let d' := set_aux d3 b (ds_aux d3 b + ds_aux d3 a) in
        ds_inv n d' /\ size_inv n d' /\
        classes n (ds_parent d') (connected (E ++ [(x, y, tt)]))).
      { intros a b Hab Hle.
        assert (Ha : a < n) by (destruct Hab as [[-> ->]|[-> ->]]; auto).
        assert (Hb : b < n) by (destruct Hab as [[-> ->]|[-> ->]]; auto).
        assert (Hpa : ds_parent d2 a = a) by (destruct Hab as [[-> ->]|[-> ->]]; auto).
        assert (Hpb : ds_parent d2 b = b) by (destruct Hab as [[-> ->]|[-> ->]]; auto).
        assert (Hab' : a <> b) by (destruct Hab as [[-> ->]|[-> ->]]; auto).
        destruct (classes_link n (ds_parent d2) E (x, y, tt) a b) as [Hwf' Hc']; auto.
        { apply Hi2. }
        { destruct Hab as [[-> ->]|[-> ->]]; [left|right]; split; auto. }
        simpl. destruct Hk2 as [K1 K2].
        assert (Hsz : ds_aux d2 a = csize n (ds_parent d2) a) by (apply K1; auto).
        assert (Hsz' : ds_aux d2 b = csize n (ds_parent d2) b) by (apply K1; auto).
        split; [|split]; auto.
        - split; simpl; auto. apply Hi2.
        - split; simpl.
          + intros r Hr. destruct (upd_case (ds_parent d2) a r b) as [[-> ->]|[Hra ->]]; [congruence|].
            intro Hp. rewrite csize_link by (auto; apply Hi2).
            destruct (Nat.eqb_spec r b) as [->|Hrb].
            * rewrite upd_eq. lia.
            * rewrite upd_neq by auto. destruct (Nat.eqb_spec r a); [contradiction|]. auto.
          + intros z r k Hz HR.
            destruct (proj2 (proj2 Hi2) z Hz) as [s Hs0].
            destruct (Root_RootN _ _ _ Hs0) as [k0 Hk0].
            pose proof (RootN_link _ a b _ _ _ Hpa Hpb Hab' Hk0) as HL.
            pose proof (Root_det _ _ _ _ (RootN_Root _ _ _ _ HR) (RootN_Root _ _ _ _ HL)) as Er.
            pose proof (RootN_det _ _ _ _ _ _ HR HL) as Ek.
            specialize (K2 z s k0 Hz Hk0).
            rewrite csize_link by (auto; apply Hi2). rewrite Er, Ek.
            destruct (Nat.eqb_spec s a) as [->|Hsa].
            * rewrite Nat.eqb_refl. rewrite Nat.pow_succ_r'. lia.
            * destruct (Nat.eqb_spec s b) as [->|Hsb]; [lia|].
              destruct (Nat.eqb_spec s a); [contradiction|auto]. }
      destruct (Nat.ltb_spec (ds_aux d2 rx) (ds_aux d2 ry)) as [Hlt|Hge].
      + eexists. split; [reflexivity|]. apply (Main rx ry); auto. lia.
      + eexists. split; [reflexivity|]. apply (Main ry rx); auto.
  Qed.
End Union.

Lemma run_unions_gen n union (I : disjoint_set -> Prop) :
  (forall E d x y, ds_inv n d -> classes n (ds_parent d) (connected E) -> I d -> x < n -> y < n ->
     exists d', union d x y = Ok d' /\ ds_inv n d' /\ I d' /\
                classes n (ds_parent d') (connected (E ++ [(x, y, tt)]))) ->
  forall ops E d,
  ds_inv n d -> classes n (ds_parent d) (connected E) -> I d ->
  (forall x y, In (x, y) ops -> x < n /\ y < n) ->
  exists d', run_unions union ops d = Ok d' /\ ds_inv n d' /\ I d' /\
             classes n (ds_parent d') (connected (E ++ pairs_edges ops)).
Proof.
  intros HU ops. induction ops as [|[x y] ops IH]; intros E d Hi Hc HI Hr; simpl.
  - exists d. rewrite app_nil_r. auto.
  - destruct (HU E d x y) as (d1 & -> & Hi1 & HI1 & Hc1); auto; try apply (Hr x y); simpl; auto.
    destruct (IH _ d1 Hi1 Hc1 HI1) as (d2 & H2 & Hi2 & HI2 & Hc2).
    { intros; apply Hr; simpl; auto. }
    exists d2. simpl. rewrite <- app_assoc in Hc2. simpl in Hc2. auto.
Qed.

Lemma rank_create_inv n : ds_inv n (ds_rank_create n) /\ rank_inv n (ds_rank_create n) /\
  classes n (ds_parent (ds_rank_create n)) (connected (@nil (edge unit))).
Proof.
  split; [|split].
  - split; auto. apply id_wf.
  - split; simpl; [congruence|]. intros r Hr _. rewrite csize_id; auto.
  - intros x y Hx Hy. simpl. rewrite same_id. symmetry. apply connected_nil.
Qed.

Lemma size_create_inv n : ds_inv n (ds_size_create n) /\ size_inv n (ds_size_create n) /\
  classes n (ds_parent (ds_size_create n)) (connected (@nil (edge unit))).
Proof.
  split; [|split].
  - split; auto. apply id_wf.
  - split; simpl.
    + intros r Hr _. now rewrite csize_id.
    + intros x r k Hx H. inversion H; subst; [|congruence]. rewrite csize_id; auto.
  - intros x y Hx Hy. simpl. rewrite same_id. symmetry. apply connected_nil.
Qed.

(** ** Concurrent look-ups *)
Section Concurrent.
  Variable n : nat.
  Variable p0 : nat -> nat.
  Hypothesis Hwf : uf_wf n p0.
  Variable start : nat -> nat.
  Hypothesis Hstart : forall i, start i < n.

  (** What a thread state promises about the thread that began at [x0]. *)
  Definition fok (x0 : nat) (s : find_state) : Prop :=
    match s with
    | FTest x => x < n /\ same p0 x0 x
    | FLoad1 x => x < n /\ same p0 x0 x /\ p0 x <> x
    | FLoad2 x v1 => x < n /\ same p0 x0 x /\ p0 x <> x /\ v1 = p0 x
    | FLoad3 v1 t => v1 < n /\ same p0 x0 v1 /\ t = v1
    | FStore v1 v2 => v1 < n /\ same p0 x0 v1 /\ v2 = p0 v1
    | FDone r => Root p0 x0 r
    end.

  Lemma fok_step p x0 s p' s' :
    (forall j, p j = p0 j) -> fok x0 s -> find_step p s = Some (p', s') ->
    (forall j, p' j = p0 j) /\ fok x0 s'.
  Proof.
    intros Hp Hs Hst.
    assert (Hup : forall x, x < n -> same p0 x0 x -> same p0 x0 (p0 x)).
    { intros x Hx (r & H1 & H2). exists r. split; auto. now apply Root_step. }
    destruct s; simpl in Hst; try discriminate; injection Hst as <- <-; simpl in *.
    - split; auto. rewrite Hp. destruct (Nat.eqb_spec (p0 x) x) as [E|E]; simpl.
      + destruct Hs as [Hx (r & H1 & H2)]. rewrite (Root_fix _ _ _ H2 E) in H1. auto.
      + tauto.
    - split; auto. rewrite Hp. tauto.
    - split; auto. rewrite Hp. destruct Hs as (Hx & Hsame & Hne & ->).
      repeat split; auto. now apply Hwf.
    - split; auto. rewrite Hp. destruct Hs as (Hx & Hsame & ->). auto.
    - destruct Hs as (Hx & Hsame & ->). split; auto.
      intro j. destruct (upd_case p v1 j (p0 v1)) as [[-> ->]|[_ ->]]; auto.
  Qed.

  (** A bound on the number of steps one thread can still make. *)
  Definition fmeas (s : find_state) (m : nat) : Prop :=
    match s with
    | FTest x => exists r k, RootN p0 x r k /\ m = 5 * k + 1
    | FLoad1 x => exists r k, RootN p0 x r (S k) /\ m = 5 * k + 5
    | FLoad2 x _ => exists r k, RootN p0 x r (S k) /\ m = 5 * k + 4
    | FLoad3 v1 _ => exists r k, RootN p0 v1 r k /\ m = 5 * k + 3
    | FStore v1 _ => exists r k, RootN p0 v1 r k /\ m = 5 * k + 2
    | FDone _ => m = 0
    end.

  Lemma fmeas_step p x0 s p' s' m :
    (forall j, p j = p0 j) -> fok x0 s -> fmeas s m -> find_step p s = Some (p', s') ->
    exists m', m = S m' /\ fmeas s' m'.
  Proof.
    intros Hp Hs Hm Hst.
    destruct s; simpl in Hst; try discriminate; injection Hst as <- <-; simpl in *.
    - destruct Hm as (r & k & HR & ->). rewrite Hp.
      destruct (Nat.eqb_spec (p0 x) x) as [E|E].
      + inversion HR; subst; [|congruence]. exists 0. simpl. lia.
      + inversion HR; subst; [congruence|]. eexists. split; [|exists r, k0; split; eauto]. lia.
    - destruct Hm as (r & k & HR & ->). eexists. split; [|exists r, k; split; eauto]. lia.
    - destruct Hm as (r & k & HR & ->). destruct Hs as (_ & _ & _ & ->).
      inversion HR; subst. eexists. split; [|exists r, k; split; eauto]. lia.
    - destruct Hm as (r & k & HR & ->). eexists. split; [|exists r, k; split; eauto]. lia.
    - destruct Hm as (r & k & HR & ->). eexists. split; [|exists r, k; split; eauto]. lia.
  Qed.

  Lemma sched_inv sched : forall p ts,
    (forall j, p j = p0 j) -> (forall i, fok (start i) (ts i)) ->
    let c := run_schedule sched (p, ts) in
    (forall j, fst c j = p0 j) /\ (forall i, fok (start i) (snd c i)) /\
    (forall i m, fmeas (ts i) m ->
       exists m', fmeas (snd c i) m' /\ m' = m - countp (Nat.eqb i) sched).
  Proof.
    induction sched as [|i sched IH]; intros p ts Hp Hok; simpl.
    - repeat split; auto. intros i m Hm. exists m. split; auto. lia.
    - destruct (find_step p (ts i)) as [[p' s']|] eqn:E.
      + destruct (fok_step p (start i) (ts i) p' s' Hp (Hok i) E) as [H1 H2].
        destruct (IH p' (upd ts i s') H1) as (K1 & K2 & K3).
        { intro k. destruct (upd_case ts i k s') as [[-> ->]|[_ ->]]; auto. }
        split; [|split]; auto. intros k m Hm.
        destruct (Nat.eqb_spec k i) as [->|Hki].
        * destruct (fmeas_step p (start i) _ _ _ m Hp (Hok i) Hm E) as (m1 & -> & Hm1).
          destruct (K3 i m1) as (m2 & Hm2 & ->); [now rewrite upd_eq|].
          exists (m1 - countp (Nat.eqb i) sched). split; auto.
        * destruct (K3 k m) as (m2 & Hm2 & ->); [now rewrite upd_neq|].
          exists (m - countp (Nat.eqb k) sched). split; auto.
      + destruct (IH p ts Hp Hok) as (K1 & K2 & K3). split; [|split]; auto.
        intros k m Hm. destruct (Nat.eqb_spec k i) as [->|Hki].
        * destruct (K3 i m Hm) as (m2 & Hm2 & ->).
          assert (m = 0) as ->. { destruct (ts i); try discriminate. exact Hm. }
          exists 0. split; auto.
        * destruct (K3 k m Hm) as (m2 & Hm2 & ->). eexists; split; eauto.
  Qed.

  Lemma fmeas_zero s : fmeas s 0 -> exists r, s = FDone r.
  Proof.
    destruct s; simpl; try (intros (r & k & _ & H); lia). intros _. eauto.
  Qed.
End Concurrent.
