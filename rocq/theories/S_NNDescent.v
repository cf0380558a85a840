(** Vocabulary for neighbour tables: for each sample a row of (neighbour or -1,
    distance). *)
From Coq Require Import List Arith Bool Permutation.
From Verif Require Import Prelude Order Graph M_TreeQuery.
Import ListNotations.

(** [n] rows with [k] places each, every neighbour a sample. *)
Record neighbour_table {W : Type} (n k : nat) (rows : list (list (option nat * W))) : Prop := {
  nt_rows : length rows = n;
  nt_width : forall row, In row rows -> length row = k;
  nt_range : forall row j d, In row rows -> In (Some j, d) row -> j < n
}.

(** Every row lists all samples with their distances, nearest first and the sample
    itself before all others; then empty places. *)
Definition exhaustive {W : WOrd} (n : nat) (D : nat -> nat -> W) (rows : list (list (option nat * W))) : Prop :=
  length rows = n /\
  forall i, i < n -> exists others pad,
    nth i rows [] = map (fun q => (Some q, D i q)) (i :: others) ++ pad /\
    (forall x, In x pad -> fst x = None) /\
    Permutation (i :: others) (seq 0 n) /\ sorted_by (D i) (i :: others).

(** The same without a promise about the place of the sample itself. *)
Definition complete_rows {W : WOrd} (n : nat) (D : nat -> nat -> W) (rows : list (list (option nat * W))) : Prop :=
  length rows = n /\
  forall i, i < n -> exists near, nth i rows [] = map (fun q => (Some q, D i q)) near /\
    Permutation near (seq 0 n) /\ sorted_by (D i) near.

(** What tree search answers (kruskal.py:950-1034 takes it as two arrays; [out] is
    the square root). *)
Definition swap_row {W : WOrd} (row : list (W * option nat)) : list (option nat * W) := map (fun x => (snd x, fst x)) row.
Definition tree_table {W : WOrd} t (rd lb : nat -> nat -> W) out n k : list (list (option nat * W)) :=
  match parallel_tree_query t rd lb out n k with Ok rows => map swap_row rows | Err _ => [] end.
