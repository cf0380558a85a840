(** Specification vocabulary for distances given as a sparse matrix. *)
From Coq Require Import List Arith Bool.
From Verif Require Import Prelude Order Graph M_Kruskal M_Precomputed M_CoreGraph S_Precomputed S_CoreGraph.
Import ListNotations.

(** [D] is the distance that the stored entries describe: the smallest entry for
    a pair in either direction, infinite for a pair without one. *)
Definition graph_distance {W : WOrd} (n : nat) (entries : list (edge W)) (D : nat -> nat -> W) : Prop :=
  (forall i j, i < n -> j < n -> D i j = D j i) /\
  forall i j, i < n -> j < n -> i <> j ->
    lightest_between entries i j (D i j) \/ (D i j = winf /\ forall w, ~ In (i, j, w) entries /\ ~ In (j, i, w) entries).

(** Such a distance, computed: the smallest of infinity and the stored entries. *)
Definition stored_distance {W : WOrd} (entries : list (edge W)) (i j : nat) : W :=
  fold_right (fun e m => if (((esrc e =? i) && (edst e =? j)) || ((esrc e =? j) && (edst e =? i))) && wle (ewt e) m then ewt e else m) winf entries.

(** [T] is the tree that one of the two back ends computes from stored distances.
    The second works in lower precision ([round]) and needs isolated samples last,
    weights that stay below [huge], and rounding that keeps distinct weights
    distinct. *)
Definition precomputed_tree {W : WOrd} (zero huge : W) (round : W -> W) (entries : list (edge W)) (n min_samples : nat) (T : list (edge W)) : Prop :=
  let core := snd (core_distances_csr zero (symmetrize_min entries n) min_samples) in
  let X := mrd_entries core (symmetrize_min entries n) in
  (exists nbrs core, precomputed_kruskal zero entries n min_samples CLNone = Ok (T, nbrs, core)) \/
  (isolated_last n entries /\ wlt huge winf = true /\
   (forall x y, wle x y = true -> wle (round x) (round y) = true) /\
   (forall e, In e X -> wle (round (ewt e)) huge = true \/ round (ewt e) = ewt e) /\
   (forall e f, In e X -> In f X -> wle (round (ewt e)) (round (ewt f)) = true -> wle (ewt e) (ewt f) = true) /\
   exists nbrs core, precomputed_boruvka zero huge round entries n min_samples = Ok (T, nbrs, core)).
