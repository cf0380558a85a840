(** Specification vocabulary for the spanning forest builders. *)
From Coq Require Import List Arith Lia Bool ZArith Permutation.
From Verif Require Import Prelude Order Graph.
Import ListNotations.

(** A cannot-link relation on samples. *)
Definition cannot_link := nat -> nat -> Prop.

(** Adding an edge between the components of [u] and [v] in [M] would put a
    cannot-link pair into one component. *)
Definition forbidden {W} (CL : cannot_link) (M : list (edge W)) (u v : nat) : Prop :=
  exists x y, CL x y /\ connected M x u /\ connected M y v.

(** No cannot-link pair is connected. *)
Definition respects {W} (CL : cannot_link) (M : list (edge W)) : Prop :=
  forall x y, CL x y -> ~ connected M x y.

(** The greedy rule over edges in the given order: an edge is kept iff it joins
    two components and joining them is not forbidden. *)
Inductive greedy {W} (CL : cannot_link) : list (edge W) -> list (edge W) -> list (edge W) -> Prop :=
| greedy_nil M : greedy CL M [] M
| greedy_keep M e es M' :
    ~ connected M (esrc e) (edst e) -> ~ forbidden CL M (esrc e) (edst e) ->
    greedy CL (M ++ [e]) es M' -> greedy CL M (e :: es) M'
| greedy_drop M e es M' :
    connected M (esrc e) (edst e) \/ forbidden CL M (esrc e) (edst e) ->
    greedy CL M es M' -> greedy CL M (e :: es) M'.

(** [order] lists every edge index once, by non-decreasing weight (any way of
    breaking ties). *)
Definition sorts {W : WOrd} (edges : list (edge W)) (order : list nat) : Prop :=
  Permutation (seq 0 (length edges)) order /\
  sorted_by (fun j => match nth_error edges j with Some e => ewt e | None => winf end) order.

(** A forest that obeys the constraints, and in which every rejected edge is
    either heavier than a path already joining its end points, or joins two
    clusters (at its own weight) that contain a cannot-link pair. *)
Record constrained_forest {W : WOrd} (CL : cannot_link) (E M : list (edge W)) : Prop := {
  cf_incl : incl M E;
  cf_acyclic : acyclic M;
  cf_respects : respects CL M;
  cf_maximal : forall e, In e E ->
     let below := passing (fun w => wle w (ewt e)) M in
     connected below (esrc e) (edst e) \/ forbidden CL below (esrc e) (edst e)
}.

(** Two samples carrying the same non-negative group label must stay apart. *)
Definition same_group (labels : list Z) : cannot_link :=
  fun x y => x <> y /\ x < length labels /\ y < length labels /\
             (0 <= nth x labels (-1))%Z /\ nth x labels (-1)%Z = nth y labels (-1)%Z.

(** Weights of the edges in increasing order. *)
Definition sorted_weights {W : WOrd} (E : list (edge W)) : list W :=
  isort (fun w => w) (map ewt E).

(** Total cost of a list of weights, for a way [cost] of measuring them. *)
Definition total {W : WOrd} (cost : W -> Z) (l : list W) : Z :=
  fold_right Z.add 0%Z (map cost l).

(** The pairs a cannot-link matrix forbids: distinct samples with a non-zero
    entry in one of the two positions. *)
Definition linked_pairs (entries : list (edge Z)) : cannot_link :=
  fun x y => x <> y /\ exists v, v <> 0%Z /\ (In (x, y, v) entries \/ In (y, x, v) entries).

(** No constraint at all. *)
Definition no_constraint : cannot_link := fun _ _ => False.

(** The relation expressed by the two (mutually exclusive) user arguments. *)
Definition user_constraints (pairs : option (list (edge Z))) (groups : option (list Z))
  : cannot_link :=
  match pairs, groups with
  | Some E, _ => linked_pairs E
  | None, Some g => same_group g
  | None, None => no_constraint
  end.

(** Number of distinct values. *)
Definition distinct (l : list nat) : nat := length (nodup Nat.eq_dec l).

(** A scipy sparse matrix given by the caller: its shape and its stored entries
    (row, column, value).  Values are integers (booleans are 0 and 1). *)
Record sparse := { sp_rows : nat; sp_cols : nat; sp_entries : list (edge Z) }.

(** Arguments that are meaningful constraints for [n] samples: not both given;
    a square matrix with non-negative values; or one label >= -1 per sample. *)
Definition valid_constraints (n : nat) (X : option sparse) (g : option (list Z)) : Prop :=
  match X, g with
  | Some X, None => sp_rows X = n /\ sp_cols X = n /\ in_range n (sp_entries X) /\
                    (forall e, In e (sp_entries X) -> (0 <= ewt e)%Z)
  | None, Some g => length g = n /\ (forall x, In x g -> (-1 <= x)%Z)
  | None, None => True
  | Some _, Some _ => False
  end.
