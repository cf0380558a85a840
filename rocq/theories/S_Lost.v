(** Specification vocabulary: splits of the hierarchy. *)
From Coq Require Import List.
From Verif Require Import Prelude Order Size M_Condense S_Condense S_Select.

(** Cluster [s] is one of the two parts into which cluster [p] splits. *)
Definition splits_off {V Sz : Type} (n : nat) (T : list (crow V Sz)) (p s : nat) : Prop :=
  exists r, In r T /\ n <= c_child r /\ c_parent r = p /\ c_child r = s.
