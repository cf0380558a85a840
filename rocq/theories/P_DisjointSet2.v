(** The property-level lemmas for C01/C02. *)
From Coq Require Import List Arith Lia Bool Permutation Relations.
From Verif Require Import Prelude Order Graph UF M_DisjointSet S_DisjointSet P_DisjointSet.
Import ListNotations.

Lemma joined_by_connected ops x y : joined_by ops x y <-> connected (pairs_edges ops) x y.
Proof.
  unfold joined_by, connected. split; intro H; induction H.
  - apply rst_step. exists ((x, y), tt). split; auto. unfold pairs_edges. apply in_map_iff. eauto.
  - apply rst_refl.
  - now apply rst_sym.
  - eapply rst_trans; eauto.
  - apply rst_step. destruct H as ([[a b] []] & Hi & <- & <-). unfold pairs_edges in Hi.
    apply in_map_iff in Hi as ([a' b'] & He & Hi). injection He as <- <-. exact Hi.
  - apply rst_refl.
  - now apply rst_sym.
  - eapply rst_trans; eauto.
Qed.

Definition dsu_spec (n : nat) (ops : list (nat * nat)) (d : disjoint_set) : Prop :=
  (forall x, x < n -> exists d' r, ds_find d x = Ok (d', r) /\ r < n /\ joined_by ops x r) /\
  (forall x y d1 d2 rx ry, x < n -> y < n ->
     ds_find d x = Ok (d1, rx) -> ds_find d y = Ok (d2, ry) ->
     (rx = ry <-> joined_by ops x y)).

Lemma dsu_spec_of n ops d :
  ds_inv n d -> classes n (ds_parent d) (connected (pairs_edges ops)) -> dsu_spec n ops d.
Proof.
  intros Hi Hc. split.
  - intros x Hx. destruct (ds_find_ok n d x Hi Hx) as (d' & r & H & _ & HR & Hr).
    exists d', r. repeat split; auto. apply joined_by_connected. apply Hc; auto.
    now apply same_root.
  - intros x y d1 d2 rx ry Hx Hy H1 H2.
    destruct (ds_find_ok n d x Hi Hx) as (d1' & r & H & _ & HR & Hr).
    destruct (ds_find_ok n d y Hi Hy) as (d2' & s & H' & _ & HR' & Hs).
    rewrite H1 in H. injection H as <- <-. rewrite H2 in H'. injection H' as <- <-.
    rewrite joined_by_connected, <- (Hc x y Hx Hy). symmetry. now apply same_roots.
Qed.

Lemma rank_run n ops : valid_pairs n ops ->
  exists d, run_unions ds_union_by_rank ops (ds_rank_create n) = Ok d /\
    ds_inv n d /\ rank_inv n d /\ classes n (ds_parent d) (connected (pairs_edges ops)).
Proof.
  intro H. destruct (rank_create_inv n) as (H1 & H2 & H3).
  destruct (run_unions_gen n ds_union_by_rank (rank_inv n)) with (ops := ops) (E := @nil (edge unit))
    (d := ds_rank_create n) as (d & K); auto.
  - intros. now apply union_by_rank_ok.
  - exists d. auto.
Qed.

Lemma size_run n ops : valid_pairs n ops ->
  exists d, run_unions ds_union_by_size ops (ds_size_create n) = Ok d /\
    ds_inv n d /\ size_inv n d /\ classes n (ds_parent d) (connected (pairs_edges ops)).
Proof.
  intro H. destruct (size_create_inv n) as (H1 & H2 & H3).
  destruct (run_unions_gen n ds_union_by_size (size_inv n)) with (ops := ops) (E := @nil (edge unit))
    (d := ds_size_create n) as (d & K); auto.
  - intros. now apply union_by_size_ok.
  - exists d. auto.
Qed.

Lemma c01_rank n ops : valid_pairs n ops ->
  exists d, run_unions ds_union_by_rank ops (ds_rank_create n) = Ok d /\ dsu_spec n ops d.
Proof.
  intro H. destruct (rank_run n ops H) as (d & H1 & H2 & H3 & H4). exists d. split; auto.
  now apply dsu_spec_of.
Qed.

Lemma c01_size n ops : valid_pairs n ops ->
  exists d, run_unions ds_union_by_size ops (ds_size_create n) = Ok d /\ dsu_spec n ops d.
Proof.
  intro H. destruct (size_run n ops H) as (d & H1 & H2 & H3 & H4). exists d. split; auto.
  now apply dsu_spec_of.
Qed.

Lemma rank_depth_log n d x r k :
  ds_inv n d -> rank_inv n d -> x < n -> RootN (ds_parent d) x r k -> k <= Nat.log2 n.
Proof.
  intros [Hn Hwf] Hr Hx HR.
  assert (Hrn : r < n) by (eapply Root_range; [apply Hwf| |]; eauto using RootN_Root).
  pose proof (rank_depth n d x r k Hwf Hr Hx HR) as Hd.
  assert (2 ^ ds_aux d r <= csize n (ds_parent d) r).
  { apply Hr; auto. eapply Root_root, RootN_Root; eauto. }
  pose proof (csize_le n (ds_parent d) r).
  assert (ds_aux d r <= Nat.log2 n) by (apply pow2_log2; lia). lia.
Qed.

Lemma size_depth_log n d x r k :
  size_inv n d -> x < n -> RootN (ds_parent d) x r k -> k <= Nat.log2 n.
Proof.
  intros [_ H] Hx HR. specialize (H x r k Hx HR). pose proof (csize_le n (ds_parent d) r).
  apply pow2_log2. lia.
Qed.

Lemma c02_depth_rank n ops d : valid_pairs n ops ->
  run_unions ds_union_by_rank ops (ds_rank_create n) = Ok d ->
  forall x, x < n -> exists d' r, ds_find_loop (Nat.log2 n) d x = Ok (d', r).
Proof.
  intros H Hd x Hx. destruct (rank_run n ops H) as (d0 & H1 & H2 & H3 & H4).
  rewrite Hd in H1. injection H1 as <-.
  destruct (proj2 (proj2 H2) x Hx) as [r HR]. destruct (Root_RootN _ _ _ HR) as [k Hk].
  destruct (ds_find_loop_ok (Nat.log2 n) d x r k Hk) as (d' & K & _); eauto.
  eapply rank_depth_log; eauto.
Qed.

Lemma c02_depth_size n ops d : valid_pairs n ops ->
  run_unions ds_union_by_size ops (ds_size_create n) = Ok d ->
  forall x, x < n -> exists d' r, ds_find_loop (Nat.log2 n) d x = Ok (d', r).
Proof.
  intros H Hd x Hx. destruct (size_run n ops H) as (d0 & H1 & H2 & H3 & H4).
  rewrite Hd in H1. injection H1 as <-.
  destruct (proj2 (proj2 H2) x Hx) as [r HR]. destruct (Root_RootN _ _ _ HR) as [k Hk].
  destruct (ds_find_loop_ok (Nat.log2 n) d x r k Hk) as (d' & K & _); eauto.
  eapply size_depth_log; eauto.
Qed.

Lemma c02_readonly n ops d : valid_pairs n ops ->
  run_unions ds_union_by_rank ops (ds_rank_create n) = Ok d ->
  forall x d' r, x < n -> ds_find d x = Ok (d', r) ->
  ds_aux d' = ds_aux d /\ forall j, ds_parent d' j = ds_parent d j.
Proof.
  intros H Hd x d' r Hx Hf. destruct (rank_run n ops H) as (d0 & H1 & H2 & H3 & H4).
  rewrite Hd in H1. injection H1 as <-.
  destruct (ds_find_ok n d x H2 Hx) as (d1 & r' & K & Hs & _). rewrite Hf in K. injection K as <- <-.
  destruct Hs as (_ & ? & ?). auto.
Qed.

Lemma c02_concurrent n ops d : valid_pairs n ops ->
  run_unions ds_union_by_rank ops (ds_rank_create n) = Ok d ->
  forall (start : nat -> nat) (sched : list nat), (forall i, start i < n) ->
  let c := run_schedule sched (ds_parent d, fun i => FTest (start i)) in
  (forall j, fst c j = ds_parent d j) /\
  (forall i r, snd c i = FDone r -> exists d', ds_find d (start i) = Ok (d', r)) /\
  (forall i, 5 * Nat.log2 n + 1 <= countp (Nat.eqb i) sched -> exists r, snd c i = FDone r).
Proof.
  intros H Hd start sched Hs c. destruct (rank_run n ops H) as (d0 & H1 & H2 & H3 & H4).
  rewrite Hd in H1. injection H1 as <-.
  assert (Hwf : uf_wf n (ds_parent d)) by apply H2.
  destruct (sched_inv n (ds_parent d) Hwf start sched (ds_parent d) (fun i => FTest (start i)))
    as (K1 & K2 & K3); auto.
  { intro i. simpl. split; auto. eapply same_refl; eauto. }
  fold c in K1, K2, K3. split; [|split]; auto.
  - intros i r Hr. specialize (K2 i). rewrite Hr in K2. simpl in K2.
    destruct (ds_find_ok n d (start i) H2 (Hs i)) as (d' & s & Hf & _ & HR & _).
    exists d'. now rewrite (Root_det _ _ _ _ K2 HR).
  - intros i Hi. destruct (proj2 Hwf (start i) (Hs i)) as [r HR].
    destruct (Root_RootN _ _ _ HR) as [k Hk].
    assert (k <= Nat.log2 n) by (eapply rank_depth_log; eauto).
    destruct (K3 i (5 * k + 1)) as (m & Hm & ->).
    { exists r, k. auto. }
    apply (fmeas_zero (ds_parent d)). now replace 0 with (5 * k + 1 - countp (Nat.eqb i) sched) by lia.
Qed.
