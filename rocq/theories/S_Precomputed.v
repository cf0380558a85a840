(** Specification vocabulary for precomputed graphs. *)
From Coq Require Import List Arith Lia Bool.
From Verif Require Import Prelude Order Graph S_Kruskal.
Import ListNotations.

(** [labels] gives samples 0..n-1 equal labels exactly when [R] relates them. *)
Definition labels_classes (n : nat) (labels : list nat) (R : nat -> nat -> Prop) : Prop :=
  length labels = n /\
  forall x y, x < n -> y < n -> (nth x labels 0 = nth y labels 0 <-> R x y).

(** [m] is stored somewhere in [E] for the unordered pair {i, j}, and nothing
    smaller is. *)
Definition lightest_between {W : WOrd} (E : list (edge W)) (i j : nat) (m : W) : Prop :=
  (In (i, j, m) E \/ In (j, i, m) E) /\
  (forall w, In (i, j, w) E \/ In (j, i, w) E -> wle m w = true).

(** [d] is the [k]-th smallest value of [l] (k = 1 is the smallest). *)
Definition kth_smallest {W : WOrd} (k : nat) (l : list W) (d : W) : Prop :=
  In d l /\ countp (fun x => wlt x d) l < k /\ k <= countp (fun x => wle x d) l.

(** [m] is the greatest of [a], [b], [c]. *)
Definition greatest_of_three {W : WOrd} (a b c m : W) : Prop :=
  (m = a \/ m = b \/ m = c) /\ wle a m = true /\ wle b m = true /\ wle c m = true.

(** [r] is the smallest sample of its component. *)
Definition smallest_of_component {W : WOrd} (M : list (edge W)) (r : nat) : Prop :=
  forall x, connected M x r -> r <= x.

(** What every Kruskal entry point returns: a constrained forest of [E],
    completed to a spanning tree by infinite edges between the smallest members
    of its components. *)
Definition bridged_result {W : WOrd} (n : nat) (CL : cannot_link) (E T : list (edge W)) : Prop :=
  exists M B, T = M ++ B /\ constrained_forest CL E M /\ spanning_tree n T /\
    Forall (fun e => ewt e = winf /\ smallest_of_component M (esrc e) /\
                     smallest_of_component M (edst e)) B.
