(** Specification vocabulary for semi-supervised selection. *)
From Coq Require Import List Arith Bool ZArith QArith Qcanon.
From Verif Require Import Prelude Order Size Num M_Linkage M_Condense S_Condense M_Select S_Select M_Pipeline M_BCubed.
Import ListNotations.
Local Open Scope nat_scope.

(** ** BCubed F-measure of a set of labelled samples
    Castro Gertrudes et al. 2019: the mean over all labelled samples, where samples
    outside of the set count zero. *)
Section Score.
  Variable labels : list Z.
  Definition label (x : nat) : Z := nth x labels (-1)%Z.
  Definition labelled (x : nat) : Prop := (0 <= label x)%Z.
  Definition labelled_samples : list nat := filter (fun x => (0 <=? label x)%Z) (seq 0 (length labels)).
  Definition agreeing (pts : list nat) (x : nat) : nat := length (filter (fun y => Z.eqb (label y) (label x)) pts).
  Definition precision (pts : list nat) (x : nat) : Qc := (nat_as_q (agreeing pts x) / nat_as_q (length pts))%Qc.
  Definition recall (pts : list nat) (x : nat) : Qc := (nat_as_q (agreeing pts x) / nat_as_q (agreeing labelled_samples x))%Qc.
  Definition f_measure (pts : list nat) (x : nat) : Qc :=
    (nat_as_q 2 * precision pts x * recall pts x / (precision pts x + recall pts x))%Qc.
  Definition bcubed_score (pts : list nat) : Qc := (qsum (map (f_measure pts) pts) / nat_as_q (length labelled_samples))%Qc.
End Score.

Section Choice.
  Context {V Sz : Type}.
  Variables (n : nat) (T : list (crow V Sz)) (labels : list Z).

  (** [members c]: the labelled samples of cluster [c]. *)
  Definition members_are (members : nat -> list nat) : Prop :=
    forall c, is_cluster n T c -> NoDup (members c) /\ forall x, In x (members c) <-> labelled labels x /\ below n T c x.

  (** A labelled sample that leaves, on its own, a cluster which splits later on. *)
  Definition noise_sample (x : nat) : Prop :=
    labelled labels x /\ x < n /\ exists r q, In r T /\ c_child r = x /\ In q T /\ n <= c_child q /\ c_parent q = c_parent r.

  (** No sample of [N] lies in a cluster of [Y]. *)
  Definition apart (Y N : list nat) : Prop := forall c x, In c Y -> In x N -> ~ below n T c x.
End Choice.

(** Total BCubed score of clusters [Y] and single samples [N]. *)
Definition total_bcubed (labels : list Z) (members : nat -> list nat) (Y N : list nat) : Qc :=
  (qsum (map (fun c => bcubed_score labels (members c)) Y) + qsum (map (fun x => bcubed_score labels [x]) N))%Qc.

(** First the BCubed score, then stability. *)
Definition at_most (x y : Qc * Qc) : Prop := (fst x < fst y)%Qc \/ (fst x = fst y /\ (snd x <= snd y)%Qc).
Definition less (x y : Qc * Qc) : Prop := (fst x < fst y)%Qc \/ (fst x = fst y /\ (snd x < snd y)%Qc).

(** What the theorems ask of the arithmetic of BCubed scores.  [N]: not negative.
    Summands are only asked for as many points as can occur: [k] points of one
    label among [p] points of a node, [m] of that label and [t] labelled in all. *)
Record BLaws (B : BArith) (N : bscore B -> Prop) : Prop := {
  bl_term : forall k p m t, 0 < k <= p -> k <= m <= t -> p <= t -> exists b, b_term B k p m t = Ok b /\ N b;
  bl_zero : N (b_zero B);
  bl_add : forall x y, N x -> N y -> N (b_add B x y);
  bl_cast : forall x, N x -> t_lt B (b_cast B x) (t_zero B) = false;
  bl_compare : forall x y, t_lt B x y = false -> t_lt B y x = false -> t_eq B y x = true
}.

(** The computed stability of every leaf cluster is not below zero. *)
Definition leaves_ok {V : WOrd} {Sz : SOrd} (A : Arith V Sz) (zero : V) (n : nat) (wt : nat -> Sz) (mcs : Sz) : Prop :=
  forall T, condensed n wt mcs T -> (forall r, In r T -> wle zero (c_lam r) = true) ->
  forall c d s, leaf_cluster n T c -> score_condensed_tree_nodes A T = Ok d -> dict_get d c = Ok s -> num_lt A s (num_zero A) = false.
