(** Specification vocabulary for comparing fits. *)
From Coq Require Import List Arith Permutation QArith Qcanon.
From Verif Require Import Prelude Order Num Size M_Condense M_Select M_Labels M_Pipeline S_Pipeline M_Estimator P_EstimatorEx S_Dbscan.
Import ListNotations.
Local Open Scope nat_scope.

(** A distance increased by [delta]. *)
Definition later (delta : Qc) (d : QInf) : QInf := match d with Some x => Some (x + delta)%Qc | None => None end.

(** [g] tells where the samples of the first data set, [n] of them, are in the
    second, which has [n']: at different places, with perhaps others between. *)
Definition placed (n n' : nat) (g : nat -> nat) : Prop :=
  (forall i, i < n -> g i < n') /\ (forall i j, i < n -> j < n -> g i = g j -> i = j).

(** [r] is a result of fitting the rows [X], of which enough are finite. *)
Definition fits {W V : WOrd} {Row : Type} (lam : W -> V) (LA : LamArith V) (zero : W) (dist : Row -> Row -> W) (finite : Row -> bool) (min_samples : nat)
    (X : list Row) (st : settings V NatSize) (r : fitted W V NatSize) : Prop :=
  exists garbage set_list (A : Arith V NatSize) by_parent,
    (forall l, Permutation (set_list l) l) /\ setting_ok lam LA A by_parent st /\
    (forall a b, dist a b = dist b a) /\ (forall a b, wle (dist a a) (dist a b) = true) /\ (forall a b, wle zero (dist a b) = true) /\
    (if forallb finite X then 2 else 3) <= length (filter finite X) /\
    fit (la_zero LA) finite set_list (fast_hdbscan lam LA garbage (pairs_mst zero dist min_samples) A by_parent st) X = Ok r.
