(** Centroids, and moving points without changing distances. *)
From Coq Require Import List Arith Bool ZArith QArith Qcanon.
From Verif Require Import Prelude Order M_Centrality.
Import ListNotations.
Local Open Scope nat_scope.

(** [c] is the weighted mean of the points: in every coordinate the weighted
    deviations cancel. *)
Definition balances (dim : nat) (rows : list point) (weights : list Qc) (c : point) : Prop :=
  length c = dim /\ forall j, j < dim -> qsum (map (fun rw : point * Qc => snd rw * (nth j (fst rw) 0 - nth j c 0))%Qc (combine rows weights)) = 0%Qc.

(** A motion: a linear map that keeps lengths (turns and mirrors), and a shift. *)
Record motion (dim : nat) (f : point -> point) : Prop := {
  mo_affine : exists (A : nat -> nat -> Qc) (b : nat -> Qc),
    (forall p j, j < dim -> nth j (f p) 0%Qc = (qsum (map (fun k => A j k * nth k p 0) (seq 0 dim)) + b j)%Qc) /\
    forall v : nat -> Qc, qsum (map (fun j => qsum (map (fun k => A j k * v k) (seq 0 dim)) * qsum (map (fun k => A j k * v k) (seq 0 dim)))%Qc (seq 0 dim)) =
                          qsum (map (fun k => v k * v k)%Qc (seq 0 dim))
}.

(** The values at the places [points]. *)
Definition values_at {A} (a : list A) (points : list nat) (vs : list A) : Prop := Forall2 (fun p v => nth_error a p = Some v) points vs.

(** A strength as a number. *)
Record strength_number {V : WOrd} (zero one : V) (as_q : V -> Qc) : Prop := {
  sn_zero : as_q zero = 0%Qc;
  sn_one : (0 < as_q one)%Qc;
  sn_pos : forall v, wle zero v = true -> wle v one = true -> (0 <= as_q v)%Qc
}.

(** The squared distance of two points. *)
Definition squared_distance (dim : nat) (a b : point) : Qc :=
  qsum (map (fun j => (nth j a 0 - nth j b 0) * (nth j a 0 - nth j b 0))%Qc (seq 0 dim)).
