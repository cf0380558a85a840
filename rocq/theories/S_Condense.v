(** Specification vocabulary for condensed trees over samples 0..n-1. *)
From Coq Require Import List Arith Bool Permutation.
From Verif Require Import Prelude Order Size M_Linkage M_Condense S_Linkage.
Import ListNotations.

Section Spec.
  Context {V Sz : Type}.
  Variable n : nat.

  (** Rows whose child is a sample / a cluster. *)
  Definition sample_rows (T : list (crow V Sz)) : list (crow V Sz) :=
    filter (fun r => c_child r <? n) T.
  Definition cluster_rows (T : list (crow V Sz)) : list (crow V Sz) :=
    filter (fun r => n <=? c_child r) T.

  (** Sample [x] lies below cluster [c]. *)
  Inductive below (T : list (crow V Sz)) : nat -> nat -> Prop :=
  | below_here r x : In r T -> c_child r = x -> x < n -> below T (c_parent r) x
  | below_deep r x : In r T -> n <= c_child r -> below T (c_child r) x -> below T (c_parent r) x.

  (** [c] is a cluster of the tree: the root or the child of some row. *)
  Definition is_cluster (T : list (crow V Sz)) (c : nat) : Prop :=
    c = n \/ (n <= c /\ exists r, In r T /\ c_child r = c).

  (** Cluster [d] lies strictly below cluster [c]. *)
  Inductive descends (T : list (crow V Sz)) : nat -> nat -> Prop :=
  | desc_child r : In r T -> n <= c_child r -> descends T (c_parent r) (c_child r)
  | desc_trans c d e : descends T c d -> descends T d e -> descends T c e.
End Spec.

(** A well-formed condensed tree (C23 and C24).  The fields say: every sample is
    the child of exactly one row; cluster ids are n, n+1, ... without gaps, in
    the order of the rows; clusters appear as adjacent pairs with one parent and one lambda; every row's
    parent is the root or the child of an earlier row; lambda never decreases
    going down; the size of a cluster is the total weight of the samples below
    it, at least [mcs]; sample rows have size one. *)
Record condensed {V : WOrd} {Sz : SOrd} (n : nat) (wt : nat -> Sz) (mcs : Sz)
    (T : list (crow V Sz)) : Prop := {
  ct_samples : Permutation (map c_child (sample_rows n T)) (seq 0 n);
  ct_ids : exists s, map c_child (cluster_rows n T) = seq (n + 1) (2 * s);
  ct_pairs : forall j r q, nth_error (cluster_rows n T) (2 * j) = Some r ->
             nth_error (cluster_rows n T) (2 * j + 1) = Some q ->
             c_parent r = c_parent q /\ c_lam r = c_lam q;
  ct_order : forall T1 r T2, T = T1 ++ r :: T2 ->
             c_parent r = n \/ (n < c_parent r /\ exists q, In q T1 /\ c_child q = c_parent r);
  ct_lambda : forall r q, In r T -> In q T -> n <= c_child r -> c_parent q = c_child r ->
              wle (c_lam r) (c_lam q) = true;
  ct_sizes : forall r, In r T -> n <= c_child r ->
             sle mcs (c_size r) = true /\
             exists xs, NoDup xs /\ (forall x, In x xs <-> below n T (c_child r) x) /\
                        c_size r = ssum (map wt xs);
  ct_sample_size : forall r, In r T -> c_child r < n -> c_size r = sone
}.

(** Every cluster splits at most once. *)
Definition splits_once {V Sz} (n : nat) (T : list (crow V Sz)) : Prop :=
  forall i j r q, nth_error (cluster_rows n T) (2 * i) = Some r ->
  nth_error (cluster_rows n T) (2 * j) = Some q -> c_parent r = c_parent q -> i = j.

(** The rows of one cluster are listed in order of density. *)
Definition ascending {V : WOrd} {Sz} (T : list (crow V Sz)) : Prop :=
  forall T1 r T2, T = T1 ++ r :: T2 ->
  forall q, In q T1 -> c_parent q = c_parent r -> wle (c_lam q) (c_lam r) = true.

(** ** What the condensed tree says about the dendrogram *)
Section Faithful.
  Context {W : WOrd} {V : Type} {Sz : SOrd}.
  Variables (n : nat) (L : list (lrow W Sz)) (wt : nat -> Sz).
  Variables (mcs : Sz) (mx : option Sz) (lam : W -> V).

  (** Total weight of a node. *)
  Definition weight_of (v : nat) (s : Sz) : Prop :=
    (v < n /\ s = wt v) \/ (exists i r, v = n + i /\ nth_error L i = Some r /\ s = l_n r).
  Definition large (v : nat) : Prop := exists s, weight_of v s /\ sle mcs s = true.
  Definition small (v : nat) : Prop := exists s, weight_of v s /\ sle mcs s = false.
  Definition too_large (v : nat) : Prop :=
    exists s m, weight_of v s /\ mx = Some m /\ sle s m = false.

  (** A merge splits a cluster when both sides are large, but not when both
      exceed the maximum. *)
  Definition true_split (r : lrow W Sz) : Prop :=
    large (l_a r) /\ large (l_b r) /\ ~ (too_large (l_a r) /\ too_large (l_b r)).

  (** [segment t v]: the cluster that starts at node [t] still exists at [v]:
      going from [t] down to [v] only large sides are followed and no split is
      passed. *)
  Inductive segment (t : nat) : nat -> Prop :=
  | seg_top : segment t t
  | seg_step i r c : segment t (n + i) -> nth_error L i = Some r -> ~ true_split r ->
      (c = l_a r \/ c = l_b r) -> large c -> segment t c.

  (** [top] names the dendrogram node at which each cluster starts.  A sample
      leaves at the merge where its side becomes small; two clusters are born at
      a true split of their parent's segment. *)
  Definition faithful (T : list (crow V Sz)) : Prop :=
    exists top : nat -> nat,
      top n = 2 * n - 2 /\
      (forall c x, is_cluster n T c -> (below n T c x <-> under n L (top c) x)) /\
      (forall q, In q T -> c_child q < n ->
         exists i r v, segment (top (c_parent q)) (n + i) /\ nth_error L i = Some r /\
           c_lam q = lam (l_d r) /\ (v = l_a r \/ v = l_b r) /\ small v /\ under n L v (c_child q)) /\
      (forall q, In q T -> n <= c_child q ->
         exists i r, segment (top (c_parent q)) (n + i) /\ nth_error L i = Some r /\ true_split r /\
           c_lam q = lam (l_d r) /\ (top (c_child q) = l_a r \/ top (c_child q) = l_b r) /\
           weight_of (top (c_child q)) (c_size q)).
End Faithful.
