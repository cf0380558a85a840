(** Specification vocabulary for dendrograms (single linkage trees): samples are
    0..n-1, row i creates node n+i.  Independent of the model except for the row
    type. *)
From Coq Require Import List Arith ZArith Permutation Sorted.
From Verif Require Import Prelude Order Graph Size M_Linkage.
Import ListNotations.

(** [under n L v x]: sample [x] lies in the subtree of node [v]. *)
Inductive under {W Sz} (n : nat) (L : list (lrow W Sz)) : nat -> nat -> Prop :=
| under_sample x : x < n -> under n L x x
| under_a i r x : nth_error L i = Some r -> under n L (l_a r) x -> under n L (n + i) x
| under_b i r x : nth_error L i = Some r -> under n L (l_b r) x -> under n L (n + i) x.

(** All children, row by row. *)
Definition child_list {W Sz} (L : list (lrow W Sz)) : list nat :=
  flat_map (fun r => [l_a r; l_b r]) L.

(** A dendrogram over [n] samples: n-1 merges, each of two nodes that exist
    already; every node but the last is merged exactly once. *)
Record dendrogram {W Sz} (n : nat) (L : list (lrow W Sz)) : Prop := {
  dg_len : S (length L) = n;
  dg_down : forall i r, nth_error L i = Some r -> l_a r < n + i /\ l_b r < n + i;
  dg_once : Permutation (child_list L) (seq 0 (2 * n - 2))
}.

(** The size column is the total weight of the samples below. *)
Definition sizes_are {W} {Sz : SOrd} (n : nat) (wt : nat -> Sz) (L : list (lrow W Sz)) : Prop :=
  forall i r, nth_error L i = Some r ->
  exists xs, NoDup xs /\ (forall x, In x xs <-> under n L (n + i) x) /\ l_n r = ssum (map wt xs).

(** Heights never decrease from one merge to the next. *)
Definition heights_sorted {W : WOrd} {Sz} (L : list (lrow W Sz)) : Prop :=
  StronglySorted (fun x y => wle x y = true) (map l_d L).

(** [labels] is the clustering into the connected components of [E] that have at
    least [m] members: noise is -1, the others are numbered without gaps. *)
Definition component_clustering {W} (n : nat) (E : list (edge W)) (m : nat) (labels : list Z) : Prop :=
  length labels = n /\
  (forall x, x < n ->
     exists xs, NoDup xs /\ (forall y, In y xs <-> y < n /\ connected E x y) /\
       (length xs < m -> nth x labels (-2)%Z = (-1)%Z) /\
       (m <= length xs -> (0 <= nth x labels (-2))%Z)) /\
  (forall x y, x < n -> y < n -> (0 <= nth x labels (-2))%Z ->
     (nth x labels (-2)%Z = nth y labels (-2)%Z <-> connected E x y)) /\
  (exists k, forall c, (0 <= c < k)%Z <-> (In c labels /\ c <> (-1)%Z)).
