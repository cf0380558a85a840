(** Specification vocabulary for the distance at which a sample joins a group that
    is large enough to be a cluster. *)
From Coq Require Import List Arith Bool.
From Verif Require Import Prelude Order Graph Size M_Labels S_Dbscan.
Import ListNotations.

(** Samples in [C] of total weight [mcs] or more. *)
Definition crowd {Sz : SOrd} (n : nat) (wt : nat -> Sz) (mcs : Sz) (C : nat -> Prop) : Prop :=
  exists xs, NoDup xs /\ (forall y, In y xs -> y < n /\ C y) /\ sle mcs (ssum (map wt xs)) = true.

(** Edges of the tree [M] up to weight [d] join [x] to a crowd, lighter ones do not. *)
Definition joins_by {W : WOrd} {Sz : SOrd} (n : nat) (wt : nat -> Sz) (mcs : Sz) (M : list (edge W)) (x : nat) (d : W) : Prop :=
  (exists e, In e M /\ ewt e = d) /\
  crowd n wt mcs (connected (passing (fun w => wle w d) M) x) /\
  ~ crowd n wt mcs (connected (passing (fun w => wlt w d) M) x).

(** At least [k] samples are density-connected to [x] at distance [eps]. *)
Definition gathered {W : WOrd} (D : nat -> nat -> W) (n min_samples k : nat) (eps : W) (x : nat) : Prop :=
  exists xs, NoDup xs /\ length xs = k /\ forall y, In y xs -> y < n /\ density_connected D n min_samples eps x y.

(** That is the case exactly beyond distance [d]. *)
Definition joins_at {W : WOrd} (D : nat -> nat -> W) (n min_samples k : nat) (x : nat) (d : W) : Prop :=
  forall eps, gathered D n min_samples k eps x <-> wlt d eps = true.

(** Strength [p] of a sample that leaves at density [l], relative to density [m]:
    the ratio, but 1 above [m], for an infinite density, and if [m] is zero. *)
Definition relative {V : WOrd} (LA : LamArith V) (m l p : V) : Prop :=
  (wle m (la_zero LA) = true \/ la_finite LA l = false -> p = la_one LA) /\
  (wle m (la_zero LA) = false -> la_finite LA l = true -> wle l m = true -> p = la_div LA l m) /\
  (wlt m l = true -> p = la_one LA).
