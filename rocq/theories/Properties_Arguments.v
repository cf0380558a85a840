(** C61, C62: which sample weights and which detector parameters are accepted. *)
From Coq Require Import List Arith Bool ZArith QArith Qcanon.
From Verif Require Import Prelude Order Graph Num M_Estimator M_Dispatch S_Dispatch M_Detector M_Plscan M_Arguments S_Arguments P_Arguments.
Import ListNotations.
Local Open Scope nat_scope.

(** C61.  HDBSCAN.fit takes sample weights if and only if there is one number for
    every row (or one for all), all are finite, and some row without missing values
    has a weight other than zero.  The clustering gets the weights of those rows, in
    order. *)
Theorem C61_hdbscan_weights :
  forall (Row : Type) (isfinite : Row -> bool) (w : weight_arg) (X : list Row) (r : option (list stored)),
  well_shaped w ->
  (hdbscan_weights isfinite (Some w) X = Ok r <->
   exists u v, r = Some v /\ weights_given (length X) w u /\ (forall x, In x u -> finite_number x) /\ at_finite isfinite X u v /\
     exists x, In x v /\ nonzero x).
Proof. exact @hdbscan_weights_ok. Qed.
Print Assumptions C61_hdbscan_weights.

(** C61.  PLSCAN takes them under the same rules, except that a single number need
    not be finite. *)
Theorem C61_plscan_weights :
  forall (Row : Type) (w : weight_arg) (X : list Row) (r : option (list stored)),
  0 < length X -> well_shaped w ->
  (plscan_weights (Some w) X = Ok r <->
   exists u, r = Some u /\ weights_given (length X) w u /\ (forall s vs, w = Array s vs -> forall x, In x u -> finite_number x) /\
     exists x, In x u /\ nonzero x).
Proof. exact @plscan_weights_ok. Qed.
Print Assumptions C61_plscan_weights.

(** Negative weights are accepted. *)
Theorem C61_negative_weights_refuted :
  forall (Row : Type) (isfinite : Row -> bool) (X : list Row) (q : Qc), (exists x, In x X /\ isfinite x = true) -> (q < 0)%Qc ->
  hdbscan_weights isfinite (Some (Scalar (Finite q))) X = Ok (Some (repeat (Finite q) (length (filter isfinite X)))).
Proof. exact @scalar_negative. Qed.
Print Assumptions C61_negative_weights_refuted.

(** PLSCAN accepts NaN as the weight of all samples; HDBSCAN does not. *)
Theorem C61_nan_weight_refuted :
  forall (Row : Type) (X : list Row), 0 < length X -> plscan_weights (Some (Scalar NotANumber)) X = Ok (Some (repeat NotANumber (length X))).
Proof. exact @plscan_nan. Qed.
Print Assumptions C61_nan_weight_refuted.
Theorem C61_nan_weight_rejected :
  forall (Row : Type) (isfinite : Row -> bool) (X : list Row), exists e, hdbscan_weights isfinite (Some (Scalar NotANumber)) X = Err e.
Proof. exact @hdbscan_nan. Qed.
Print Assumptions C61_nan_weight_rejected.

(** Three rows, the second with missing values. *)
Example C61_example :
  hdbscan_weights (fun b : bool => b) (Some (Array [3] [Finite 1; Finite 0; Finite 0])) [true; false; true] = Ok (Some [Finite 1; Finite 0]).
Proof. vm_compute. reflexivity. Qed.
Example C61_example_zero :
  hdbscan_weights (fun b : bool => b) (Some (Array [3] [Finite 0; Finite 1; Finite 0])) [true; false; true] = Err ValueError.
Proof. vm_compute. reflexivity. Qed.
Example C61_example_shapes :
  hdbscan_weights (fun b : bool => b) (Some (Array [3; 1] [Finite 1; Finite 1; Finite 1])) [true; true; true] = Err ValueError /\
  hdbscan_weights (fun b : bool => b) (Some (Array [2] [Finite 1; Finite 1])) [true; true; true] = Err ValueError /\
  hdbscan_weights (fun b : bool => b) (Some (Array [] [Finite 1])) [true; true; true] = Err TypeError.
Proof. vm_compute. auto. Qed.

(** C62.  A detector passes its checks if and only if the clusterer was fitted to
    data and not to distances, some sample carries a label, the sizes are an integer
    of at least two and a number above zero, the method is known, epsilon and
    persistence are floats that are not negative, and the weights fit the data.
    What is not given (labels, sizes, method) is taken from the clusterer. *)
Theorem C62_detector_parameters :
  forall (allow_zero : bool) (k : clusterer) (a : detector_arguments) (h : checked),
  (forall n, k_raw_data k = Some n -> 0 < n) -> (forall w, e_weights a = Some w -> well_shaped w) ->
  (check_detector allow_zero k a = Ok h <-> exists n size, detector_ok allow_zero k a n size h).
Proof. exact check_detector_ok. Qed.
Print Assumptions C62_detector_parameters.

(** HDBSCAN accepts a minimum cluster size of one, and a detector that takes it
    over from the clusterer then always fails. *)
Theorem C62_size_one_refuted :
  forall (allow_zero : bool) (k : clusterer) (a : detector_arguments),
  k_min_cluster_size k = PyInt 1 -> e_min_cluster_size a = PyNone -> forall h, check_detector allow_zero k a <> Ok h.
Proof. exact size_one. Qed.
Print Assumptions C62_size_one_refuted.

Definition some_clusterer : clusterer :=
  {| k_precomputed := false; k_raw_data := Some 4; k_fitted := true; k_labels := [0; 0; -1; 1]%Z; k_min_cluster_size := PyInt 5;
     k_max_cluster_size := SizeNumber false; k_method := MEom |}.
Definition some_detector : detector_arguments :=
  {| e_labels := None; e_weights := Some (Scalar (Finite 1)); e_min_cluster_size := PyNone; e_max_cluster_size := SizeNone; e_method := Some MLeaf;
     e_epsilon := PyFloat false; e_persistence := PyFloat false |}.
Example C62_example :
  check_detector false some_clusterer some_detector =
  Ok {| h_labels := [0; 0; -1; 1]%Z; h_weights := Some [Finite 1; Finite 1; Finite 1; Finite 1]; h_min_cluster_size := PyInt 5;
        h_max_cluster_size := SizeNumber false; h_method := MLeaf |}.
Proof. vm_compute. reflexivity. Qed.
Example C62_example_noise :
  check_detector false some_clusterer
    {| e_labels := Some [-1; -1; -1; -1]%Z; e_weights := None; e_min_cluster_size := PyInt 3; e_max_cluster_size := SizeNone; e_method := None;
       e_epsilon := PyFloat false; e_persistence := PyFloat false |} = Err ValueError.
Proof. vm_compute. reflexivity. Qed.
Example C62_example_integer_epsilon :
  check_detector false some_clusterer
    {| e_labels := None; e_weights := None; e_min_cluster_size := PyInt 3; e_max_cluster_size := SizeNone; e_method := None;
       e_epsilon := PyInt 0; e_persistence := PyFloat false |} = Err ValueError.
Proof. vm_compute. reflexivity. Qed.
