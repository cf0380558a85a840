(** Specification of sub-cluster labels and of label propagation. *)
From Coq Require Import List Arith Bool ZArith.
From Verif Require Import Prelude Order Graph M_Precomputed S_LayerTree S_CoreGraph M_SubClusters.
Import ListNotations.
Local Open Scope nat_scope.

(** Non-empty clusters, given by their samples, without a common sample. *)
Definition separate (clusters : list (list nat)) : Prop := NoDup (concat clusters) /\ ~ In [] clusters.

(** The sample at place [i] of cluster [k]. *)
Definition at_place (clusters : list (list nat)) (k i x : nat) : Prop :=
  exists pts, nth_error clusters k = Some pts /\ nth_error pts i = Some x.

(** Two samples in clusters share a label exactly if they are in the same cluster
    and [same] holds of them there. *)
Definition refines (clusters : list (list nat)) (same : nat -> nat -> nat -> Prop) (labels : nat -> Z) : Prop :=
  forall k i x k' i' x', at_place clusters k i x -> at_place clusters k' i' x' ->
    (labels x = labels x' <-> k = k' /\ same k x x').

(** The labels of the samples in clusters are 0, 1, ..., K - 1, and clusters are
    numbered in order. *)
Definition consecutive (clusters : list (list nat)) (labels : nat -> Z) : Prop :=
  (exists K, (0 <= K)%Z /\ forall l, (0 <= l < K)%Z <-> exists x, In x (concat clusters) /\ labels x = l) /\
  forall k i x k' i' x', at_place clusters k i x -> at_place clusters k' i' x' -> k < k' -> (labels x < labels x')%Z.

(** The results of one cluster: one value per sample, sub-labels without gaps. *)
Definition good_piece {P Lens} (c : piece P Lens) : Prop :=
  length (pc_labels c) = length (pc_points c) /\ length (pc_probs c) = length (pc_points c) /\
  length (pc_lens c) = length (pc_points c) /\ gap_free (pc_labels c).

(** At most [count] different sub-labels besides noise. *)
Definition few_labels (count : nat) (labels : nat -> Z) (pts : list nat) : Prop :=
  forall ls, NoDup ls -> (forall l, In l ls -> l <> (-1)%Z /\ In l (map labels pts)) -> length ls <= count.

(** ** Votes *)
Section Votes.
  Context {W N : WOrd} (inv : W -> res N) (nadd : N -> N -> N) (nzero : N) (E : list (edge W)).

  Definition adjacent (x y : nat) : Prop := exists w, In (x, y, w) E \/ In (y, x, w) E.

  (** [v x y] is the vote of an edge between [x] and [y]: the inverse of its
      weight, the same for all edges between them. *)
  Definition votes_are (v : nat -> nat -> N) : Prop := forall x y w, In (x, y, w) E -> inv w = Ok (v x y) /\ inv w = Ok (v y x).

  (** The sum, in some order, of the votes for label [l] that [x] receives. *)
  Definition total_for (v : nat -> nat -> N) (cur : nat -> Z) (x : nat) (l : Z) (total : N) : Prop :=
    exists ys, NoDup ys /\ (forall y, In y ys <-> adjacent x y /\ cur y = l) /\ ys <> [] /\
      total = fold_left (fun s y => nadd s (v x y)) ys nzero.

  (** Label [l] is held by a neighbour of [x] and no other such label has more
      votes. *)
  Definition majority (v : nat -> nat -> N) (cur : nat -> Z) (x : nat) (l : Z) : Prop :=
    l <> (-1)%Z /\ exists total, total_for v cur x l total /\
      forall y, adjacent x y -> cur y <> (-1)%Z -> exists total', total_for v cur x (cur y) total' /\ wle total' total = true.

  (** One after the other, unlabelled samples adopt a majority label. *)
  Inductive votes_lead (v : nat -> nat -> N) : (nat -> Z) -> (nat -> Z) -> Prop :=
  | vl_done a b : (forall x, a x = b x) -> votes_lead v a b
  | vl_step a b x l : a x = (-1)%Z -> majority v a x l -> votes_lead v (upd a x l) b -> votes_lead v a b.

  (** Every unlabelled sample is connected to a labelled one. *)
  Definition reachable (n : nat) (cur : nat -> Z) : Prop :=
    forall x, x < n -> cur x = (-1)%Z -> exists y, y < n /\ connected E x y /\ cur y <> (-1)%Z.
End Votes.

(** ** The lens graph *)
Section Lens.
  Context {W V : WOrd} (round : W -> W).

  (** [j] is a nearest neighbour of [i] or [i]'s child in the spanning tree. *)
  Definition linked (neighbors : list (list (option nat))) (mst : list (edge W)) (i j : nat) : Prop :=
    In (Some j) (nth i neighbors []) \/ exists d, In (i, j, d) mst.

  (** [E] joins the linked samples among [pts], named by their places, with the
      greater of their lens values. *)
  Definition lens_edges (neighbors : list (list (option nat))) (mst : list (edge W)) (pts : list nat) (lens : list W) (E : list (edge W)) : Prop :=
    forall i j w, In (i, j, w) E <->
      exists x y, nth_error pts i = Some x /\ nth_error pts j = Some y /\ linked neighbors mst x y /\
                  w = round (wmax (nth i lens winf) (nth j lens winf)).

  (** The sub-clusters of one cluster: the components of the lens graph, or else
      the clusters of a spanning tree of it. *)
  Definition explained (one : V) (cluster_of : list (edge W) -> res (list Z * list V)) (n : nat) (E : list (edge W))
      (ls : list Z) (ps : list V) (tree : bool) : Prop :=
    length ls = n /\ length ps = n /\
    (tree = false /\ (exists i j, i < n /\ j < n /\ ~ connected E i j) /\
       (forall i j, i < n -> j < n -> (nth i ls 0%Z = nth j ls 0%Z <-> connected E i j)) /\
       (forall i, i < n -> nth i ls 0%Z <> (-1)%Z /\ nth i ps one = one)
     \/ tree = true /\ (forall i j, i < n -> j < n -> connected E i j) /\
       exists M, spanning_forest E M /\ spanning_tree n M /\ cluster_of M = Ok (ls, ps)).

  (** A clustering with [K] clusters of at least two samples each, whose samples
      have neighbours: themselves excluded, at least one in the same cluster. *)
  Record sub_input (labels : list Z) (neighbors : list (list (option nat))) (mst : list (edge W)) (lens_callback : nat -> list W) (K : nat) : Prop := {
    si_some : 0 < K;
    si_range : forall l, In l labels -> (-1 <= l < Z.of_nat K)%Z;
    si_pair : forall k, k < K -> exists x y, x <> y /\ nth_error labels x = Some (Z.of_nat k) /\ nth_error labels y = Some (Z.of_nat k);
    si_known : forall x, x < length labels -> ~ In None (nth x neighbors []);
    si_linked : forall x y, x < length labels -> linked neighbors mst x y -> y < length labels /\ y <> x;
    si_inside : forall x k, nth_error labels x = Some (Z.of_nat k) -> exists y, linked neighbors mst x y /\ nth_error labels y = Some (Z.of_nat k);
    si_lens : forall k pts, k < K -> NoDup pts -> (forall x, In x pts <-> nth_error labels x = Some (Z.of_nat k)) -> length (lens_callback k) = length pts
  }.
End Lens.

(** [final] splits the clusters of [labels]: noise stays noise, samples share a
    number exactly if they share a cluster and [same] holds, the numbers are
    0, 1, ... and follow the order of the clusters. *)
Record splits (labels : list Z) (same : nat -> nat -> Prop) (final : nat -> Z) : Prop := {
  sp_noise : forall x, x < length labels -> nth x labels (-1)%Z = (-1)%Z -> final x = (-1)%Z;
  sp_same : forall x y, x < length labels -> y < length labels -> nth x labels (-1)%Z <> (-1)%Z -> nth y labels (-1)%Z <> (-1)%Z ->
            (final x = final y <-> nth x labels (-1)%Z = nth y labels (-1)%Z /\ same x y);
  sp_order : forall x y, x < length labels -> y < length labels -> nth x labels (-1)%Z <> (-1)%Z ->
             (nth x labels (-1) < nth y labels (-1))%Z -> (final x < final y)%Z;
  sp_numbers : exists K', (0 <= K')%Z /\
               forall l, (0 <= l < K')%Z <-> exists x, x < length labels /\ nth x labels (-1)%Z <> (-1)%Z /\ final x = l
}.

(** [pts] are the samples of cluster [k], in ascending order. *)
Definition cluster_points (labels : list Z) (k : nat) (pts : list nat) : Prop :=
  NoDup pts /\ (forall x, In x pts <-> nth_error labels x = Some (Z.of_nat k)) /\
  forall i j x y, i < j -> nth_error pts i = Some x -> nth_error pts j = Some y -> x < y.
