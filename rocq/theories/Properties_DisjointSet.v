(** C01, C02: merging bookkeeping (disjoint_set.py). *)
From Coq Require Import List Arith.
From Verif Require Import Prelude M_DisjointSet S_DisjointSet P_DisjointSet2.
Import ListNotations.

(** C01.  After any sequence of valid merges: every look-up terminates, returns
    a member of the same class, and two look-ups agree exactly when a chain of
    merged pairs joins the two elements. *)
Theorem C01_union_find_is_connectivity :
  forall (n : nat) (ops : list (nat * nat)), valid_pairs n ops ->
  exists d, run_unions ds_union_by_rank ops (ds_rank_create n) = Ok d /\
    (forall x, x < n -> exists d' r, ds_find d x = Ok (d', r) /\ r < n /\ joined_by ops x r) /\
    (forall x y d1 d2 rx ry, x < n -> y < n ->
       ds_find d x = Ok (d1, rx) -> ds_find d y = Ok (d2, ry) ->
       (rx = ry <-> joined_by ops x y)).
Proof. exact c01_rank. Qed.
Print Assumptions C01_union_find_is_connectivity.

Theorem C01_union_find_by_size_is_connectivity :
  forall (n : nat) (ops : list (nat * nat)), valid_pairs n ops ->
  exists d, run_unions ds_union_by_size ops (ds_size_create n) = Ok d /\
    (forall x, x < n -> exists d' r, ds_find d x = Ok (d', r) /\ r < n /\ joined_by ops x r) /\
    (forall x y d1 d2 rx ry, x < n -> y < n ->
       ds_find d x = Ok (d1, rx) -> ds_find d y = Ok (d2, ry) ->
       (rx = ry <-> joined_by ops x y)).
Proof. exact c01_size. Qed.
Print Assumptions C01_union_find_by_size_is_connectivity.

(** C02.  A look-up leaves every cell of the structure as it was. *)
Theorem C02_find_is_read_only :
  forall n ops d, valid_pairs n ops ->
  run_unions ds_union_by_rank ops (ds_rank_create n) = Ok d ->
  forall x d' r, x < n -> ds_find d x = Ok (d', r) ->
  ds_aux d' = ds_aux d /\ forall j, ds_parent d' j = ds_parent d j.
Proof. exact c02_readonly. Qed.
Print Assumptions C02_find_is_read_only.

(** C02.  At most [log2 n] pointer steps per look-up (the loop finishes when it
    is given only that much fuel). *)
Theorem C02_find_depth_logarithmic :
  forall n ops d, valid_pairs n ops ->
  run_unions ds_union_by_rank ops (ds_rank_create n) = Ok d ->
  forall x, x < n -> exists d' r, ds_find_loop (Nat.log2 n) d x = Ok (d', r).
Proof. exact c02_depth_rank. Qed.
Print Assumptions C02_find_depth_logarithmic.

Theorem C02_find_depth_logarithmic_by_size :
  forall n ops d, valid_pairs n ops ->
  run_unions ds_union_by_size ops (ds_size_create n) = Ok d ->
  forall x, x < n -> exists d' r, ds_find_loop (Nat.log2 n) d x = Ok (d', r).
Proof. exact c02_depth_size. Qed.
Print Assumptions C02_find_depth_logarithmic_by_size.

(** C02.  Any number of concurrent look-ups, any interleaving of their atomic
    loads and stores: the shared array keeps its contents, each finished look-up
    returns what a sequential one returns, and a thread that got
    [5*log2 n + 1] turns has finished. *)
Theorem C02_concurrent_finds_schedule_independent :
  forall n ops d, valid_pairs n ops ->
  run_unions ds_union_by_rank ops (ds_rank_create n) = Ok d ->
  forall (start : nat -> nat) (sched : list nat), (forall i, start i < n) ->
  let c := run_schedule sched (ds_parent d, fun i => FTest (start i)) in
  (forall j, fst c j = ds_parent d j) /\
  (forall i r, snd c i = FDone r -> exists d', ds_find d (start i) = Ok (d', r)) /\
  (forall i, 5 * Nat.log2 n + 1 <= countp (Nat.eqb i) sched -> exists r, snd c i = FDone r).
Proof. exact c02_concurrent. Qed.
Print Assumptions C02_concurrent_finds_schedule_independent.

(** Non-vacuity: seven elements, merges with rank ties and a swap; the
    structure has depth two. *)
Definition ex_ops : list (nat * nat) := [(0, 1); (2, 3); (1, 3); (4, 5); (5, 0)].

Example C01_example_valid : valid_pairs 7 ex_ops.
Proof. intros x y H. simpl in H. repeat destruct H as [H|H]; inversion H; subst; repeat constructor. Qed.

Example C01_example_run :
  (let* d := run_unions ds_union_by_rank ex_ops (ds_rank_create 7) in
   let* (_, a) := ds_find d 3 in let* (_, b) := ds_find d 4 in let* (_, c) := ds_find d 6 in
   Ok (a, b, c, map (ds_parent d) (seq 0 7), map (ds_aux d) (seq 0 7)))
  = Ok (0, 0, 6, [0; 0; 0; 2; 0; 4; 6], [2; 0; 1; 0; 1; 0; 0]).
Proof. vm_compute. reflexivity. Qed.

(** Two interleaved look-ups of 3 and 5 on that structure. *)
Example C02_example_schedule :
  (let* d := run_unions ds_union_by_rank ex_ops (ds_rank_create 7) in
   let c := run_schedule [0;1;1;0;0;1;0;1;0;1;1;1;1;0;0;0;0;1;0;1;1;0;0;0]
              (ds_parent d, fun i => FTest (if i =? 0 then 3 else 5)) in
   Ok (snd c 0, snd c 1)) = Ok (FDone 0, FDone 0).
Proof. vm_compute. reflexivity. Qed.
