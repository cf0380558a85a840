(** Specification vocabulary: two sets of samples far from each other. *)
From Coq Require Import List Arith Bool ZArith.
From Verif Require Import Prelude Order S_Dbscan.
Import ListNotations.

(** The samples [D'], numbered up to [n'], are among the [n] samples [D], at the
    places [pos]. *)
Definition included {W : WOrd} (D : nat -> nat -> W) (n : nat) (D' : nat -> nat -> W) (n' : nat) (pos : nat -> nat) : Prop :=
  (forall i, i < n' -> pos i < n) /\ (forall i j, i < n' -> j < n' -> pos i = pos j -> i = j) /\
  (forall i j, i < n' -> j < n' -> D (pos i) (pos j) = D' i j).

(** All of them are density-connected at distance [g]. *)
Definition whole {W : WOrd} (D : nat -> nat -> W) (n min_samples : nat) (g : W) : Prop :=
  forall i j, i < n -> j < n -> density_connected D n min_samples g i j.

(** The labels [ls] of samples at the places [pos] form the clusters that the
    labels [ls'] form: the same samples are noise and the others are grouped in the
    same way. *)
Definition same_clusters_at (n : nat) (pos : nat -> nat) (ls' ls : list Z) : Prop :=
  forall i, i < n -> (nth i ls' 0%Z = (-1)%Z <-> nth (pos i) ls 0%Z = (-1)%Z) /\
    forall j, j < n -> nth i ls' 0%Z <> (-1)%Z -> (nth j ls' 0%Z = nth i ls' 0%Z <-> nth (pos j) ls 0%Z = nth (pos i) ls 0%Z).

(** The samples at the places [pos] are one cluster. *)
Definition one_cluster_at (n : nat) (pos : nat -> nat) (ls : list Z) : Prop :=
  forall i j, i < n -> j < n -> nth (pos i) ls 0%Z <> (-1)%Z /\ nth (pos i) ls 0%Z = nth (pos j) ls 0%Z.

(** No sample at a place [pos] is in a cluster with one at a place [pos']. *)
Definition separate (n : nat) (pos : nat -> nat) (n' : nat) (pos' : nat -> nat) (ls : list Z) : Prop :=
  forall i j, i < n -> j < n' -> nth (pos i) ls 0%Z <> (-1)%Z -> nth (pos i) ls 0%Z <> nth (pos' j) ls 0%Z.
