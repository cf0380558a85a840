(** Specification vocabulary for density-based clusters at a fixed distance. *)
From Coq Require Import List Arith Bool ZArith.
From Verif Require Import Prelude Order.
Import ListNotations.

Section Dbscan.
  Context {W : WOrd}.
  Variables (D : nat -> nat -> W) (n min_samples : nat) (eps : W).

  (** At least [min_samples] other samples are nearer than [eps]; for
      [min_samples] 0 and 1 the code regards every sample as dense. *)
  Definition core_sample (i : nat) : Prop :=
    min_samples <= 1 \/
    exists near, NoDup near /\ length near = min_samples /\
      forall j, In j near -> j < n /\ j <> i /\ wlt (D i j) eps = true.

  (** A chain of core samples, each nearer than [eps] to the next. *)
  Inductive density_connected (x : nat) : nat -> Prop :=
  | dc_self : density_connected x x
  | dc_next y z : density_connected x y -> y < n -> z < n -> core_sample y -> core_sample z ->
      wlt (D y z) eps = true -> density_connected x z.

  (** The clusters are the sets of density-connected samples that have at least
      [min_samples] members, numbered from 0 without gaps; the rest is noise. *)
  Record dbscan_star (labels : list Z) : Prop := {
    ds_length : length labels = n;
    ds_size : forall x, x < n -> exists xs, NoDup xs /\ (forall y, In y xs <-> y < n /\ density_connected x y) /\
      (length xs < min_samples -> nth x labels (-2)%Z = (-1)%Z) /\
      (min_samples <= length xs -> (0 <= nth x labels (-2))%Z);
    ds_same : forall x y, x < n -> y < n -> (0 <= nth x labels (-2))%Z ->
      (nth x labels (-2)%Z = nth y labels (-2)%Z <-> density_connected x y);
    ds_numbers : exists k, forall c, (0 <= c < k)%Z <-> (In c labels /\ c <> (-1)%Z)
  }.
End Dbscan.

(** Distances between rows; a row with a missing value is infinitely far from
    every other. *)
Definition row_distance {W : WOrd} {Row} (finite : Row -> bool) (dist : Row -> Row -> W) (X : list Row) (p q : nat) : W :=
  match nth_error X p, nth_error X q with
  | Some a, Some b => if finite a && finite b then dist a b else winf
  | _, _ => winf
  end.
