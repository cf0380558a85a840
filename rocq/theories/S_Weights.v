(** Vocabulary for core distances with sample weights. *)
From Coq Require Import List Arith Bool.
From Verif Require Import Prelude Order Size M_TreeQuery S_SpaceTree.
Import ListNotations.

(** Total weight of the samples whose distance satisfies [p]. *)
Definition weight_where {W : WOrd} {Sz : SOrd} (n : nat) (ws : list Sz) (d : nat -> W) (p : W -> bool) : Sz :=
  ssum (map (fun q => nth q ws szero) (filter (fun q => p (d q)) (seq 0 n))).

(** [r] is the least distance within which samples of total weight [m] lie. *)
Definition weighted_core {W : WOrd} {Sz : SOrd} (n : nat) (ws : list Sz) (d : nat -> W) (m : Sz) (r : W) : Prop :=
  (exists q, q < n /\ r = d q) /\
  sle m (weight_where n ws d (fun x => wle x r)) = true /\
  slt (weight_where n ws d (fun x => wlt x r)) m = true.

(** Total weight of the [k] nearest samples listed in a row. *)
Definition listed_weight {W : WOrd} {Sz : SOrd} (ws : list Sz) (row : list (W * option nat)) : Sz :=
  ssum (flat_map (fun x => match snd x with Some q => [nth q ws szero] | None => [] end) row).

(** The [k] nearest samples (or all [n], if there are fewer) weigh at least [m],
    whichever they are. *)
Definition enough_listed {Sz : SOrd} (n k : nat) (ws : list Sz) (m : Sz) : Prop :=
  forall l, length l = min k n -> NoDup l -> (forall q, In q l -> q < n) ->
    sle m (ssum (map (fun q => nth q ws szero) l)) = true.

(** The distances of [n] samples, each as often as its count says. *)
Definition with_copies {W : WOrd} (n : nat) (counts : list nat) (d : nat -> W) : list W :=
  flat_map (fun q => repeat (d q) (nth q counts 0)) (seq 0 n).

(** What tree search answers; [out] is the square root. *)
Definition tree_rows {W : WOrd} t (rd lb : nat -> nat -> W) out n k : list (list (W * option nat)) :=
  match parallel_tree_query t rd lb out n k with Ok rows => rows | Err _ => [] end.

(** A search tree over [n] samples with finite symmetric squared distances [rd],
    correct lower bounds, and a square root that keeps the order. *)
Record tree_search {W : WOrd} (t : space_tree) (n : nat) (rd lb : nat -> nat -> W) (root : W -> W) : Prop := {
  ts_shape : tree_shape t n;
  ts_bounds : lower_bounds t rd lb;
  ts_symmetric : forall i j, i < n -> j < n -> rd i j = rd j i;
  ts_finite : forall i j, i < n -> j < n -> wfinite (rd i j) = true;
  ts_monotone : forall x y, wle x y = true -> wle (root x) (root y) = true;
  ts_root_finite : forall x, wfinite x = true -> wfinite (root x) = true;
  ts_root_infinite : forall x, wfinite x = true -> wlt (root x) (root winf) = true
}.
