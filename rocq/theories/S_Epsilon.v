(** Specification vocabulary for the epsilon search. *)
From Coq Require Import List Arith Bool.
From Verif Require Import Prelude Order Size M_Linkage M_Condense S_Condense S_Select.
Import ListNotations.

Section Spec.
  Context {V Sz : Type}.
  Variables (lt_eps : V -> bool) (n : nat) (T : list (crow V Sz)).

  (** Born (split off its parent) at a distance below epsilon. *)
  Definition born_below (c : nat) : Prop :=
    exists r, In r T /\ n <= c_child r /\ c_child r = c /\ lt_eps (c_lam r) = true.

  (** A choice of clusters the search may be started from. *)
  Definition selection (S : list nat) : Prop :=
    NoDup S /\ (forall s, In s S -> is_cluster n T s /\ s <> n) /\ disjoint_clusters n T S.

  (** [e] is the lowest cluster above some selected cluster that was not itself
      born below epsilon (or the root). *)
  Definition merge_of (S : list nat) (e : nat) : Prop :=
    is_cluster n T e /\ (e = n \/ ~ born_below e) /\ (forall d, descends n T e d -> born_below d) /\
    exists s, In s S /\ descends n T e s.
End Spec.
