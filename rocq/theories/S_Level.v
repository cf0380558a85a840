(** Specification vocabulary for clusters that hold together at one distance. *)
From Coq Require Import List Arith Bool.
From Verif Require Import Prelude Order Graph Size M_Pipeline S_Pipeline S_Dbscan.
Import ListNotations.

(** The samples [A] are joined by edges of the tree [M] up to weight [d], and by
    no lighter ones to any other sample. *)
Definition level {W : WOrd} (n : nat) (M : list (edge W)) (A : nat -> Prop) (d : W) : Prop :=
  (exists e, In e M /\ ewt e = d) /\
  (forall x y, A x -> A y -> connected (passing (fun w => wle w d) M) x y) /\
  (forall x y, A x -> y < n -> ~ A y -> ~ connected (passing (fun w => wlt w d) M) x y).

(** At every distance beyond [d] the samples [A] are density-connected; up to [d]
    none of them is density-connected to any other sample. *)
Definition dense_group {W : WOrd} (D : nat -> nat -> W) (n min_samples : nat) (A : nat -> Prop) (d : W) : Prop :=
  wlt d winf = true /\
  (forall eps x y, wlt d eps = true -> A x -> A y -> density_connected D n min_samples eps x y) /\
  (forall eps x y, wle eps d = true -> A x -> y < n -> ~ A y -> ~ density_connected D n min_samples eps x y).

(** The settings under which the whole data set is reported as one cluster only
    for one reason: it was selected, or the epsilon search ended there. *)
Definition one_root {V Sz} (st : settings V Sz) : Prop :=
  root_ok st /\ (cluster_selection_epsilon st = None \/ cluster_selection_persistence st = None).
