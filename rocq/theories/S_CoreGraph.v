(** Specification vocabulary for graphs stored in rows. *)
From Coq Require Import List Arith Lia Bool Sorted.
From Verif Require Import Prelude Order Graph M_Precomputed.
Import ListNotations.

(** The three arrays describe [csr_n g] rows: the row pointers increase from 0
    to the number of entries, there are as many values as columns, and the
    columns are valid rows. *)
Record stored_graph {W : WOrd} (g : csr W) : Prop := {
  sg_first : nth 0 (c_indptr g) 0 = 0;
  sg_mono : forall i, i < csr_n g -> nth i (c_indptr g) 0 <= nth (S i) (c_indptr g) 0;
  sg_last : nth (csr_n g) (c_indptr g) 0 = length (c_indices g);
  sg_values : length (c_data g) = length (c_indices g);
  sg_columns : forall c, In c (c_indices g) -> c < csr_n g
}.

(** Every row lists its entries by non-decreasing weight. *)
Definition rows_sorted {W : WOrd} (g : csr W) : Prop :=
  forall i, i < csr_n g -> sorted_by (fun cw : nat * W => snd cw) (csr_row g i).

(** No row is empty, except that the last ones may be. *)
Definition no_gap {W : WOrd} (g : csr W) : Prop :=
  forall i j, i < j -> j < csr_n g -> csr_row g i = [] -> csr_row g j = [].

(** No sample is its own neighbour. *)
Definition no_loops {W} (E : list (edge W)) : Prop :=
  forall e, In e E -> esrc e <> edst e.

(** Each edge is stored from both ends, no heavier from the other end (hence
    with equivalent weights when a pair of samples is stored once per end). *)
Definition symmetric {W : WOrd} (E : list (edge W)) : Prop :=
  forall a b w, In (a, b, w) E -> exists w', In (b, a, w') E /\ wle w' w = true.

(** A spanning forest: edges of [E], without cycles, joining what [E] joins. *)
Record spanning_forest {W} (E M : list (edge W)) : Prop := {
  sf_incl : incl M E;
  sf_acyclic : acyclic M;
  sf_connected : forall x y, connected M x y <-> connected E x y
}.

(** The same edge with its weight converted by [f]. *)
Definition reweigh {W} (f : W -> W) (e : edge W) : edge W := (esrc e, edst e, f (ewt e)).

(** [i] has no stored distance to another sample. *)
Definition isolated {W} (entries : list (edge W)) (i : nat) : Prop :=
  forall e, In e entries -> esrc e <> edst e -> esrc e <> i /\ edst e <> i.

(** Samples without any neighbour come after all others. *)
Definition isolated_last {W} (n : nat) (entries : list (edge W)) : Prop :=
  forall i j, i < j -> j < n -> isolated entries i -> isolated entries j.

(** Equivalent lists of weights: pointwise neither smaller nor greater. *)
Definition same_weights {W : WOrd} (a b : list W) : Prop :=
  Forall2 (fun x y => wle x y = true /\ wle y x = true) a b.
