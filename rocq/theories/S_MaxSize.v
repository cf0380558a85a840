(** Specification vocabulary for max_cluster_size. *)
From Coq Require Import List Arith Bool ZArith.
From Verif Require Import Prelude Order Size M_Linkage M_Condense S_Condense M_Select M_Labels M_Pipeline.
Import ListNotations.

(** The same settings without a maximum size. *)
Definition unbounded {V Sz : Type} (st : settings V Sz) : settings V Sz :=
  {| min_cluster_size := min_cluster_size st; cluster_selection_method := cluster_selection_method st; max_cluster_size := None;
     allow_single_cluster := allow_single_cluster st; cluster_selection_epsilon := cluster_selection_epsilon st;
     cluster_selection_persistence := cluster_selection_persistence st |}.

(** Every cluster has total weight at most [m]. *)
Definition bounded_clusters {Sz : SOrd} (n : nat) (wt : nat -> Sz) (m : Sz) (ls : list Z) : Prop :=
  forall x, x < n -> nth x ls 0%Z <> (-1)%Z ->
  exists ys, NoDup ys /\ (forall y, In y ys <-> y < n /\ nth y ls 0%Z = nth x ls 0%Z) /\ sle (ssum (map wt ys)) m = true.

(** A cluster of the hierarchy other than the root whose size is at most [m]. *)
Definition fitting {V : Type} {Sz : SOrd} (n : nat) (T : list (crow V Sz)) (m : Sz) (c : nat) : Prop :=
  exists r, In r T /\ n < c /\ c_child r = c /\ sle (c_size r) m = true.

(** [d] is [c] or a part of it. *)
Definition within {V : Type} {Sz : Type} (n : nat) (T : list (crow V Sz)) (c d : nat) : Prop := c = d \/ descends n T c d.

(** The reported clusters are clusters of the hierarchy that fit, and every cluster
    that fits has a sample in one of them. *)
Definition from_fitting {V : Type} {Sz : SOrd} (n : nat) (T : list (crow V Sz)) (m : Sz) (ls : list Z) : Prop :=
  (forall x, x < n -> nth x ls 0%Z <> (-1)%Z ->
     exists c, fitting n T m c /\ forall y, y < n -> (nth y ls 0%Z = nth x ls 0%Z <-> below n T c y)) /\
  (forall c, fitting n T m c -> exists x, below n T c x /\ nth x ls 0%Z <> (-1)%Z).
