(** Model of fast_hdbscan/disjoint_set.py. *)
From Coq Require Import List Arith Bool.
From Verif Require Import Prelude.
Import ListNotations.

(** disjoint_set.py:8-9, [RankDisjointSet] and [SizeDisjointSet]: two arrays of
    [ds_n] entries.  [ds_aux] is [rank] for the first and [size] for the second.
    int32 entries are unbounded naturals here. *)
Record disjoint_set := {
  ds_n : nat;
  ds_parent : nat -> nat;
  ds_aux : nat -> nat
}.

(** disjoint_set.py:22-57: [disjoint_set.parent[i] = v]. *)
Definition set_parent (d : disjoint_set) (i v : nat) : disjoint_set :=
  {| ds_n := ds_n d; ds_parent := upd (ds_parent d) i v; ds_aux := ds_aux d |}.
(** disjoint_set.py:30-57: [disjoint_set.rank[i] = v], [disjoint_set.size[i] = v]. *)
Definition set_aux (d : disjoint_set) (i v : nat) : disjoint_set :=
  {| ds_n := ds_n d; ds_parent := ds_parent d; ds_aux := upd (ds_aux d) i v |}.

(** disjoint_set.py:12-14 *)
Definition ds_rank_create (n_elements : nat) : disjoint_set :=
  {| ds_n := n_elements; ds_parent := fun i => i; ds_aux := fun _ => 0 |}.

(** disjoint_set.py:17-19 *)
Definition ds_size_create (n_elements : nat) : disjoint_set :=
  {| ds_n := n_elements; ds_parent := fun i => i; ds_aux := fun _ => 1 |}.

(** disjoint_set.py:22-27.  The right-hand sides of the tuple assignment are
    evaluated first; then the targets are assigned from left to right, so the
    subscript store uses the {e new} [x].  The [while] loop runs on fuel. *)
Fixpoint ds_find_loop (fuel : nat) (d : disjoint_set) (x : nat) : res (disjoint_set * nat) :=
  if ds_parent d x =? x then Ok (d, x)
  else match fuel with
       | 0 => Err OutOfFuel
       | S fuel' =>
           let v1 := ds_parent d x in
           let v2 := ds_parent d (ds_parent d x) in
           let x' := v1 in
           ds_find_loop fuel' (set_parent d x' v2) x'
       end.

(** disjoint_set.py:21-26 *)
Definition ds_find (d : disjoint_set) (x : nat) : res (disjoint_set * nat) :=
  ds_find_loop (ds_n d) d x.

(** disjoint_set.py:30-43 *)
Definition ds_union_by_rank (d : disjoint_set) (x y : nat) : res disjoint_set :=
  let* (d, x) := ds_find d x in
  let* (d, y) := ds_find d y in
  if x =? y then Ok d
  else
    let '(x, y) := if ds_aux d x <? ds_aux d y then (y, x) else (x, y) in
    let d := set_parent d y x in
    Ok (if ds_aux d x =? ds_aux d y then set_aux d x (ds_aux d x + 1) else d).

(** disjoint_set.py:46-57 *)
Definition ds_union_by_size (d : disjoint_set) (x y : nat) : res disjoint_set :=
  let* (d, x) := ds_find d x in
  let* (d, y) := ds_find d y in
  if x =? y then Ok d
  else
    let '(x, y) := if ds_aux d x <? ds_aux d y then (y, x) else (x, y) in
    let d := set_parent d y x in
    Ok (set_aux d x (ds_aux d x + ds_aux d y)).

(** disjoint_set.py:30-57. A client that performs a sequence of unions. *)
Fixpoint run_unions (union : disjoint_set -> nat -> nat -> res disjoint_set)
    (ops : list (nat * nat)) (d : disjoint_set) : res disjoint_set :=
  match ops with
  | [] => Ok d
  | (x, y) :: ops' => let* d := union d x y in run_unions union ops' d
  end.

(** ** Concurrent look-ups.
    [ds_find] is called from parallel loops (boruvka.py:95-105,
    core_graph.py:155-169) on a shared structure.  One look-up is split into its
    atomic loads and stores; a configuration is the shared parent array together
    with the state of each thread. *)
Inductive find_state :=
| FTest (x : nat)            (* about to evaluate  parent[x] != x           *)
| FLoad1 (x : nat)           (* about to load      parent[x]      (1st rhs) *)
| FLoad2 (x v1 : nat)        (* about to load      parent[x]      (2nd rhs, inner) *)
| FLoad3 (v1 t : nat)        (* about to load      parent[t]      (2nd rhs, outer) *)
| FStore (v1 v2 : nat)       (* x := v1; about to store parent[v1] := v2    *)
| FDone (r : nat).

(** disjoint_set.py:22-27: One read or write of [ds_find]. *)
Definition find_step (p : nat -> nat) (s : find_state) : option ((nat -> nat) * find_state) :=
  match s with
  | FTest x => Some (p, if p x =? x then FDone x else FLoad1 x)
  | FLoad1 x => Some (p, FLoad2 x (p x))
  | FLoad2 x v1 => Some (p, FLoad3 v1 (p x))
  | FLoad3 v1 t => Some (p, FStore v1 (p t))
  | FStore v1 v2 => Some (upd p v1 v2, FTest v1)
  | FDone _ => None
  end.

(** disjoint_set.py:22-27. A schedule lists which thread makes the next atomic step.  A thread that has
    finished ignores its turn. *)
Fixpoint run_schedule (sched : list nat) (c : (nat -> nat) * (nat -> find_state))
  : (nat -> nat) * (nat -> find_state) :=
  match sched with
  | [] => c
  | i :: sched' =>
      let '(p, ts) := c in
      match find_step p (ts i) with
      | Some (p', s') => run_schedule sched' (p', upd ts i s')
      | None => run_schedule sched' (p, ts)
      end
  end.
