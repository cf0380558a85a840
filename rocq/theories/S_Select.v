(** Specification vocabulary for cluster selection. *)
From Coq Require Import List Arith Bool QArith Qcanon.
From Verif Require Import Prelude Order Size Num M_Linkage M_Condense S_Condense.
Import ListNotations.
Local Open Scope nat_scope.

Section Spec.
  Context {V Sz : Type}.
  Variables (n : nat) (T : list (crow V Sz)).

  (** No cluster of [S] lies below another one. *)
  Definition disjoint_clusters (S : list nat) : Prop :=
    forall c d, In c S -> In d S -> ~ descends n T c d.

  (** A cluster that does not split. *)
  Definition leaf_cluster (c : nat) : Prop :=
    is_cluster n T c /\ forall r, In r T -> n <= c_child r -> c_parent r <> c.
End Spec.

(** Clusters that may be selected: the root only if a single cluster is allowed,
    and nothing beyond the maximum size.  The root counts as n - 1 samples
    (cluster_trees.py:737-739). *)
Section Admissible.
  Context {V : Type} {Sz : SOrd}.
  Variables (n : nat) (T : list (crow V Sz)) (max_cluster_size : option Sz) (allow_single_cluster : bool).
  Definition recorded_size (c : nat) (s : Sz) : Prop :=
    (c = n /\ s = ssum (repeat sone (n - 1))) \/ (exists r, In r T /\ n < c /\ c_child r = c /\ c_size r = s).
  Definition admissible (c : nat) : Prop :=
    is_cluster n T c /\ (allow_single_cluster = false -> c <> n) /\
    (forall m s, max_cluster_size = Some m -> recorded_size c s -> sle s m = true).
End Admissible.

Definition qsum (l : list Qc) : Qc := fold_right Qcplus 0%Qc l.

Section Stability.
  Context {Sz : Type} (to_q : Sz -> Qc).
  Variable T : list (crow QInf Sz).

  Definition lam_q (r : crow QInf Sz) : Qc := match (c_lam r : option Qc) with Some a => a | None => 0%Qc end.
  Definition all_finite : Prop := forall r, In r T -> c_lam r <> None.

  (** Stability (excess of mass): everything leaves the cluster at some lambda;
      the mass it was born with is taken off. *)
  Definition leaving (c : nat) : Qc :=
    qsum (map (fun r => lam_q r * to_q (c_size r))%Qc (filter (fun r => c_parent r =? c) T)).
  Definition arriving (c : nat) : Qc :=
    qsum (map (fun r => lam_q r * to_q (c_size r))%Qc (filter (fun r => c_child r =? c) T)).
  Definition stability (c : nat) : Qc := (leaving c - arriving c)%Qc.

  Definition positive_part (q : Qc) : Qc := if Qcleb 0 q then q else 0%Qc.
  Definition total_stability (S : list nat) : Qc := qsum (map (fun c => positive_part (stability c)) S).
End Stability.
