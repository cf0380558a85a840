(** Specification of the graphs a detector reports. *)
From Coq Require Import List Arith Bool ZArith Permutation.
From Verif Require Import Prelude Order Graph M_SubClusters S_SubClusters M_LensGraph M_Detector M_Report.
Import ListNotations.
Local Open Scope nat_scope.

(** Some order of the places of [ws] that puts its values in ascending order. *)
Definition argsorts {W : WOrd} (argsort : list W -> list nat) : Prop :=
  forall ws, Permutation (argsort ws) (seq 0 (length ws)) /\ sorted_by (fun w : W => w) (take winf (argsort ws) ws).

(** Sorting the entries of a row in that order. *)
Definition sort_with {W : WOrd} (argsort : list W -> list nat) (row : list (nat * W)) : list (nat * W) :=
  take (0, winf) (argsort (map snd row)) row.

Section Spec.
  Context {W : WOrd} (round : W -> W) (neighbors : list (list (option nat))) (core : list W) (mst : list (edge W)).

  (** The distance that goes with a link: for neighbours the greater of their core
      distances, for other edges of the spanning tree their length. *)
  Definition link_distance (x y : nat) (d : W) : Prop :=
    In (Some y) (nth x neighbors []) /\ d = wmax (nth x core winf) (nth y core winf) \/
    ~ In (Some y) (nth x neighbors []) /\ In (x, y, d) mst.

  (** [R] lists, once each, the links between samples of cluster [k], with the
      greater of their lens values and their distance. *)
  Definition reported_links (labels : list Z) (lens : list W) (k : nat) (R : list (nat * nat * W * W)) : Prop :=
    NoDup (map (fun e => fst (fst e)) R) /\
    forall x y w d, In (x, y, w, d) R <->
      nth_error labels x = Some (Z.of_nat k) /\ nth_error labels y = Some (Z.of_nat k) /\
      w = round (wmax (nth x lens winf) (nth y lens winf)) /\ exists d', link_distance x y d' /\ d = round d'.

  (** At most one edge between two samples, in either direction given. *)
  Definition single_edges : Prop := forall x y d d', In (x, y, d) mst -> In (x, y, d') mst -> d = d'.
End Spec.

(** Renaming the ends of reported edges. *)
Definition rename {W : WOrd} (f : nat -> nat) (e : nat * nat * W * W) : nat * nat * W * W := let '(i, j, w, d) := e in (f i, f j, w, d).
