(** Vocabulary for statements about parallel Boruvka. *)
From Coq Require Import List Arith.
From Verif Require Import Prelude Order Graph M_Boruvka S_Precomputed.
Import ListNotations.

(** Thread [p] can end with result [a] after reading [reads] from its cell and
    writing [writes] to it, each in that order. *)
Inductive runs {W A : Type} : prog W A -> list W -> list W -> A -> Prop :=
| runs_ret a : runs (Ret a) [] [] a
| runs_read k v rs ws a : runs (k v) rs ws a -> runs (Read k) (v :: rs) ws a
| runs_write w p rs ws a : runs p rs ws a -> runs (Write w p) rs (w :: ws) a.

(** A relaxed execution of the threads [ids]: every value read from a cell is the
    cell's initial value or was written to that cell by one of the threads, at any
    time.  Stale reads, lost updates and reordering are all possible. *)
Definition relaxed {W A : Type} (cell : nat -> nat) (ids : list nat) (mem : nat -> W)
    (threads : nat -> prog W A) (reads writes : nat -> list W) (result : nat -> A) : Prop :=
  forall i, In i ids ->
    runs (threads i) (reads i) (writes i) (result i) /\
    forall v, In v (reads i) ->
      v = mem (cell i) \/ exists j, In j ids /\ cell j = cell i /\ In v (writes j).

Section Candidates.
  Context {W : WOrd}.

  (** Mutual reachability distance. *)
  Definition mutual (core : nat -> W) (rd : nat -> nat -> W) (i j : nat) : W :=
    wmax (wmax (rd i j) (core i)) (core j).

  (** A candidate is empty or an edge that leaves the component of its sample,
      with its mutual reachability distance. *)
  Definition real_candidate n core rd (comp : nat -> nat) (i : nat) (h : W * option nat) : Prop :=
    h = (winf, None) \/
    exists q, q < n /\ comp q <> comp i /\ h = (mutual core rd i q, Some q).

  (** Some sample of each component has found an edge that is as light as any edge
      leaving the component. *)
  Definition lightest_found n core rd (comp : nat -> nat) (cands : list (W * option nat)) : Prop :=
    length cands = n /\
    (forall i h, nth_error cands i = Some h -> real_candidate n core rd comp i h) /\
    (forall i q, i < n -> q < n -> comp q <> comp i -> wfinite (mutual core rd i q) = true ->
       exists j h, nth_error cands j = Some h /\ comp j = comp i /\
         wle (fst h) (mutual core rd i q) = true).
End Candidates.

(** Neither smaller nor greater. *)
Definition equiv {W : WOrd} (x y : W) : Prop := wle x y = true /\ wle y x = true.

(** The complete graph on samples 0..n-1. *)
Definition complete_graph {W} (n : nat) (weight : nat -> nat -> W) : list (edge W) :=
  flat_map (fun i => map (fun j => (i, j, weight i j)) (filter (fun j => negb (j =? i)) (seq 0 n)))
    (seq 0 n).

(** The edge with the weight that [weight] gives to its ends. *)
Definition at_weight {W} (weight : nat -> nat -> W) (e : edge W) : edge W :=
  (esrc e, edst e, weight (esrc e) (edst e)).

(** The core distances of [n] samples at distances [dist]: the distance to the
    [min_samples]-th nearest other sample (the sample itself being the first of
    the sorted row), or [zero] when [min_samples] is at most one. *)
Definition core_distances {W : WOrd} (n : nat) (dist : nat -> nat -> W) (zero : W) (min_samples : nat)
    (core : list W) : Prop :=
  length core = n /\
  (min_samples <= 1 -> forall i, i < n -> nth i core winf = zero) /\
  (1 < min_samples -> forall i, i < n ->
     kth_smallest (S min_samples) (map (dist i) (seq 0 n)) (nth i core winf)).

(** The reproducible variant needs at least one thread. *)
Definition threads_available (mode : query_mode) : Prop :=
  match mode with Plain _ => True | Reproducible n_threads _ => 0 < n_threads end.

(** No two different pairs of samples are equally far apart. *)
Definition no_ties {W : WOrd} (n : nat) (dist : nat -> nat -> W) : Prop :=
  forall i j k l, i < n -> j < n -> k < n -> l < n -> i <> j -> k <> l ->
  equiv (dist i j) (dist k l) -> (i = k /\ j = l) \/ (i = l /\ j = k).

(** Sample i is joined to sample j, in either direction. *)
Definition joined_by {W} (T : list (edge W)) (i j : nat) : Prop :=
  exists w, In (i, j, w) T \/ In (j, i, w) T.
