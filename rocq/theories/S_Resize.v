(** Specification vocabulary for runs with different settings on the same data. *)
From Coq Require Import List Arith Bool ZArith.
From Verif Require Import Prelude Order Size M_Condense S_Condense M_Pipeline.
Import ListNotations.

(** The members of a cluster of [ls], [x] being one of them. *)
Definition cluster_of (n : nat) (ls : list Z) (x y : nat) : Prop := y < n /\ nth y ls 0%Z = nth x ls 0%Z.

(** One set contains the other, or they have nothing in common. *)
Definition nested_or_apart (P Q : nat -> Prop) : Prop :=
  (forall x, P x -> Q x) \/ (forall x, Q x -> P x) \/ (forall x, P x -> Q x -> False).

(** No cluster of [ls] partly overlaps one of [ls']. *)
Definition never_cross (n : nat) (ls ls' : list Z) : Prop :=
  forall x y, x < n -> y < n -> nth x ls 0%Z <> (-1)%Z -> nth y ls' 0%Z <> (-1)%Z ->
  nested_or_apart (cluster_of n ls x) (cluster_of n ls' y).

(** Every cluster of [ls'] contains a cluster of [ls]. *)
Definition contains_cluster (n : nat) (ls ls' : list Z) : Prop :=
  forall y, y < n -> nth y ls' 0%Z <> (-1)%Z ->
  exists x, x < n /\ nth x ls 0%Z <> (-1)%Z /\ forall z, cluster_of n ls x z -> cluster_of n ls' y z.

(** The number of clusters: of labels other than -1. *)
Definition cluster_count (ls : list Z) : nat := length (nodup Z.eq_dec (filter (fun l => negb (l =? -1)%Z) ls)).

(** [P] is the set of samples of some cluster of the hierarchy other than its root. *)
Definition hierarchy_cluster {V Sz} (n : nat) (T : list (crow V Sz)) (P : nat -> Prop) : Prop :=
  exists r, In r (cluster_rows n T) /\ forall x, below n T (c_child r) x <-> P x.

(** The same for one that has, like its sibling, size [k] or more. *)
Definition hierarchy_cluster_of_size {V} {Sz : SOrd} (n : nat) (T : list (crow V Sz)) (k : Sz) (P : nat -> Prop) : Prop :=
  exists r q, In r (cluster_rows n T) /\ In q (cluster_rows n T) /\ c_parent q = c_parent r /\ c_child q <> c_child r /\
    sle k (c_size r) = true /\ sle k (c_size q) = true /\ forall x, below n T (c_child r) x <-> P x.

(** [st'] asks for clusters at least as large and at least as persistent. *)
Definition stricter {V : WOrd} {Sz : SOrd} (st st' : settings V Sz) : Prop :=
  sle (min_cluster_size st) (min_cluster_size st') = true /\
  match cluster_selection_persistence st, cluster_selection_persistence st' with
  | None, _ => True
  | Some p, Some p' => forall b d, p' b d = true -> p b d = true
  | Some _, None => False
  end.
