(** Specification vocabulary for data that fall apart into clusters. *)
From Coq Require Import List Arith Bool.
From Verif Require Import Prelude Order Graph Size S_Dbscan S_Join.
Import ListNotations.

(** The edges of the tree [M] shorter than some distance leave two crowds apart. *)
Definition parted_by {W : WOrd} {Sz : SOrd} (n : nat) (wt : nat -> Sz) (mcs : Sz) (M : list (edge W)) : Prop :=
  exists eps x y, x < n /\ y < n /\
    crowd n wt mcs (connected (passing (fun w => wlt w eps) M) x) /\
    crowd n wt mcs (connected (passing (fun w => wlt w eps) M) y) /\
    ~ connected (passing (fun w => wlt w eps) M) x y.

(** At some distance two groups of [k] samples are density-connected, each in
    itself but not to the other. *)
Definition parted {W : WOrd} (D : nat -> nat -> W) (n min_samples k : nat) : Prop :=
  exists eps x y, x < n /\ y < n /\ gathered D n min_samples k eps x /\ gathered D n min_samples k eps y /\
    ~ density_connected D n min_samples eps x y.
