(** Which sample weights and detector parameters are meant. *)
From Coq Require Import List Arith Bool ZArith QArith Qcanon.
From Verif Require Import Prelude Order Graph Num M_Estimator M_Dispatch S_Dispatch M_Detector M_Plscan M_Arguments.
Import ListNotations.
Local Open Scope nat_scope.

(** One weight for every row, or one for all. *)
Inductive weights_given (n : nat) : weight_arg -> list stored -> Prop :=
| given_scalar x : weights_given n (Scalar x) (repeat x n)
| given_array v : length v = n -> weights_given n (Array [n] v) v.

(** An array holds as many numbers as its shape says. *)
Definition well_shaped (w : weight_arg) : Prop :=
  match w with Scalar _ => True | Array shape v => length v = fold_right Nat.mul 1 shape end.

Definition finite_number (x : stored) : Prop := exists q, x = Finite q.
Definition nonzero (x : stored) : Prop := x <> Finite 0.

(** The values at the places where [X] is finite, in order. *)
Definition at_finite {Row A} (isfinite : Row -> bool) (X : list Row) (u v : list A) : Prop :=
  v = map snd (filter (fun p => isfinite (fst p)) (combine X u)).

(** The parameters a detector accepts, where a parameter that is not given is that
    of the clusterer. *)
Definition chosen {A} (given : option A) (own : A) : A := match given with Some a => a | None => own end.
Record detector_ok (allow_zero : bool) (k : clusterer) (a : detector_arguments) (n : nat) (size : Z) (h : checked) : Prop := {
  do_metric : k_precomputed k = false;
  do_data : k_raw_data k = Some n;
  do_fitted : k_fitted k = true;
  do_labels : h_labels h = chosen (e_labels a) (k_labels k);
  do_some_label : exists l, In l (h_labels h) /\ l <> (-1)%Z;
  do_size : h_min_cluster_size h = PyInt size /\ (2 <= size)%Z;
  do_size_from : e_min_cluster_size a = PyInt size \/ e_min_cluster_size a = PyNone /\ k_min_cluster_size k = PyInt size;
  do_max : h_max_cluster_size h = SizeNumber false;
  do_max_from : e_max_cluster_size a = SizeNumber false \/ e_max_cluster_size a = SizeNone /\ k_max_cluster_size k = SizeNumber false;
  do_method : h_method h = chosen (e_method a) (k_method k) /\ h_method h <> OtherMethod;
  do_epsilon : nonnegative_float (e_epsilon a);
  do_persistence : nonnegative_float (e_persistence a);
  do_weights : match e_weights a with
               | None => h_weights h = None
               | Some w => exists v, h_weights h = Some v /\ weights_given n w v /\
                             (forall s vs, w = Array s vs -> forall x, In x v -> finite_number x) /\
                             (allow_zero = false -> exists x, In x v /\ nonzero x)
               end
}.
