(** Specification vocabulary: the groups into which density-connected groups fall
    apart. *)
From Coq Require Import List Arith Bool ZArith.
From Verif Require Import Prelude Order Graph Size S_Dbscan S_Join S_Resize.
Import ListNotations.

(** [P] is one of two crowds that edges of the tree [M] shorter than some distance
    leave apart and longer ones join at once. *)
Definition part_by {W : WOrd} {Sz : SOrd} (n : nat) (wt : nat -> Sz) (mcs : Sz) (M : list (edge W)) (P : nat -> Prop) : Prop :=
  exists eps x y, x < n /\ y < n /\
    crowd n wt mcs (connected (passing (fun w => wlt w eps) M) x) /\
    crowd n wt mcs (connected (passing (fun w => wlt w eps) M) y) /\
    ~ connected (passing (fun w => wlt w eps) M) x y /\
    (forall eps', wlt eps eps' = true -> connected (passing (fun w => wlt w eps') M) x y) /\
    (forall z, P z <-> z < n /\ connected (passing (fun w => wlt w eps) M) x z).

(** [P] is one of two groups of [k] samples or more that are density-connected at
    some distance, each in itself but not to the other, while at every larger
    distance they are density-connected to each other. *)
Definition part {W : WOrd} (D : nat -> nat -> W) (n min_samples k : nat) (P : nat -> Prop) : Prop :=
  exists eps x y, x < n /\ y < n /\ gathered D n min_samples k eps x /\ gathered D n min_samples k eps y /\
    ~ density_connected D n min_samples eps x y /\
    (forall eps', wlt eps eps' = true -> density_connected D n min_samples eps' x y) /\
    (forall z, P z <-> z < n /\ density_connected D n min_samples eps x z).

(** A set of some family that contains no smaller one of it. *)
Definition smallest (F : (nat -> Prop) -> Prop) (P : nat -> Prop) : Prop :=
  F P /\ forall Q, F Q -> (forall z, Q z -> P z) -> forall z, P z -> Q z.

(** [P] is the set of samples of one of the clusters of [ls]. *)
Definition reported (n : nat) (ls : list Z) (P : nat -> Prop) : Prop :=
  exists x, x < n /\ nth x ls 0%Z <> (-1)%Z /\ forall z, P z <-> cluster_of n ls x z.
