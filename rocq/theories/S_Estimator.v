(** Specification vocabulary for data with rows that are not finite. *)
From Coq Require Import List Arith Bool ZArith Permutation.
From Verif Require Import Prelude Order Graph Size M_Linkage S_Linkage M_Condense S_Condense M_Pipeline S_Pipeline M_Estimator.
Import ListNotations.

(** [pos] lists, in order, the rows of [X] that pass [ok]: the [i]-th of them is
    row [pos i]. *)
Definition places {A} (ok : A -> bool) (X : list A) (pos : nat -> nat) : Prop :=
  (forall i j, i < j < length (filter ok X) -> pos i < pos j) /\
  (forall i, i < length (filter ok X) -> nth_error X (pos i) = nth_error (filter ok X) i) /\
  (forall p x, nth_error X p = Some x -> ok x = true -> exists i, i < length (filter ok X) /\ pos i = p).

(** An edge between two of them. *)
Definition place_edge {W} (pos : nat -> nat) (e : edge W) : edge W := (pos (esrc e), pos (edst e), ewt e).

(** Edges of infinite weight from row [p] to the other rows. *)
Definition infinite_edges {W : WOrd} (p : nat) (others : list nat) : list (edge W) := map (fun o => (p, o, winf)) others.

(** The rows that do not pass. *)
Definition other_rows {A} (ok : A -> bool) (X : list A) (others : list nat) : Prop :=
  NoDup others /\ forall p, In p others <-> exists x, nth_error X p = Some x /\ ok x = false.

(** [r] reports for all rows of [X] what [r0] reports for the finite ones; the
    other rows are noise of strength zero.  The trees of [r] cover all rows: [r]'s
    hierarchy is the single linkage hierarchy of the spanning tree of the finite
    rows with infinite edges to the others, and its condensed tree has the same
    clusters and densities; the other rows leave the root at density zero. *)
Record extends {W V : WOrd} {Sz : SOrd} {Row} (zero : V) (ok : Row -> bool) (X : list Row) (wt : nat -> Sz) (mcs : Sz)
    (r0 r : fitted W V Sz) (pos : nat -> nat) (others : list nat) : Prop := {
  ex_labels : length (f_labels r) = length X /\
    (forall i, i < length (filter ok X) -> nth_error (f_labels r) (pos i) = nth_error (f_labels r0) i) /\
    (forall p, In p others -> nth_error (f_labels r) p = Some (-1)%Z);
  ex_strengths : length (f_probabilities r) = length X /\
    (forall i, i < length (filter ok X) -> nth_error (f_probabilities r) (pos i) = nth_error (f_probabilities r0) i) /\
    (forall p, In p others -> nth_error (f_probabilities r) p = Some zero);
  ex_linkage : linkage_of (length X) wt (map (place_edge pos) (f_mst r0) ++ infinite_edges (pos 0) others) (f_linkage r);
  ex_cuts : forall eps m, exists ls, dbscan_clustering r eps m = Ok ls /\
    component_clustering (length X) (passing (fun w => wlt w eps) (map (place_edge pos) (f_mst r0))) m ls;
  ex_condensed : condensed (length X) wt mcs (f_condensed r) /\ splits_once (length X) (f_condensed r);
  ex_clusters : forall c y, length (filter ok X) < c ->
    (below (length X) (f_condensed r) (c + length others) y <->
     exists x, x < length (filter ok X) /\ y = pos x /\ below (length (filter ok X)) (f_condensed r0) c x);
  ex_rows : forall q, In q (f_condensed r) <->
    (exists o, In o others /\ q = {| c_parent := length X; c_child := o; c_lam := zero; c_size := sone |}) \/
    (exists q0, In q0 (f_condensed r0) /\ c_parent q = c_parent q0 + length others /\ c_lam q = c_lam q0 /\ c_size q = c_size q0 /\
       c_child q = if c_child q0 <? length (filter ok X) then pos (c_child q0) else c_child q0 + length others)
}.

(** Weights of all rows: those of the finite ones, and one for the others. *)
Definition filled_weights {Row} {Sz : SOrd} (ok : Row -> bool) (X : list Row) (weight : Row -> Sz) (p : nat) : Sz :=
  match nth_error X p with Some x => if ok x then weight x else sone | None => sone end.
