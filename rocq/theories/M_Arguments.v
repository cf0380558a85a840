(** Model of the checks of sample weights (hdbscan.py:44-90, where they are called
    during a fit: 199-240, 744-811, 1111-1140) and of the parameter checks of the
    detectors (sub_clusters.py:245-330). *)
From Coq Require Import List Arith Bool ZArith QArith Qcanon.
From Verif Require Import Prelude Order Graph Num M_Estimator M_Dispatch M_Detector M_Plscan.
Import ListNotations.
Local Open Scope nat_scope.

(** hdbscan.py:44-116. sample_weight: a number, or an array with its shape; the numbers are those
    after conversion to float32. *)
Inductive weight_arg := Scalar (x : stored) | Array (shape : list nat) (values : list stored).

(** hdbscan.py:44-116: [np.isfinite]. *)
Definition is_finite (x : stored) : bool := match x with Finite _ => true | _ => false end.
(** hdbscan.py:44-116. [x == 0]; false for NaN. *)
Definition equals_zero (x : stored) : bool := match x with Finite q => Qeq_bool q 0 | _ => false end.

(** hdbscan.py:44-116. sklearn.utils.check_array with ensure_2d=False, as far as it rejects arrays of
    numbers: three or more dimensions, numbers that are not finite, no dimension,
    no rows, no columns. *)
Definition check_array (shape : list nat) (values : list stored) : res unit :=
  if 3 <=? length shape then Err ValueError
  else if negb (forallb is_finite values) then Err ValueError
  else match shape with
  | [] => Err TypeError
  | rows :: cols => if rows =? 0 then Err ValueError else if existsb (Nat.eqb 0) cols then Err ValueError else Ok tt
  end.

(** hdbscan.py:44-90 [_check_sample_weight]; [ensure_non_negative] is False in
    every call.  scikit-learn's function of the same name, which the detectors use,
    makes the same checks; that it rejects weights that are all zero depends on its
    version ([allow_zero]). *)
Definition check_sample_weight (allow_zero : bool) (weight : weight_arg) (n_samples : nat) : res (list stored) :=
  let* values := match weight with
                 | Scalar x => Ok (repeat x n_samples)
                 | Array shape values =>
                     let* _ := check_array shape values in
                     match shape with
                     | [n] => if n =? n_samples then Ok values else Err ValueError
                     | _ => Err ValueError
                     end
                 end in
  if negb allow_zero && forallb equals_zero values then Err ValueError else Ok values.

(** hdbscan.py:218-240: the function fast_hdbscan, for the Euclidean metric;
    [check_array(data)] rejects data without rows. *)
Definition fast_hdbscan_weights (weight : option weight_arg) (n_samples : nat) : res (option (list stored)) :=
  if n_samples =? 0 then Err ValueError else
  match weight with
  | None => Ok None
  | Some w => let* v := check_sample_weight false w n_samples in Ok (Some v)
  end.

(** hdbscan.py:744-811: HDBSCAN.fit checks, drops the weights of rows with missing
    values, and passes the others on. *)
Definition hdbscan_weights {Row} (isfinite : Row -> bool) (weight : option weight_arg) (X : list Row) : res (option (list stored)) :=
  match weight with
  | None => fast_hdbscan_weights None (length (filter isfinite X))
  | Some w =>
      let* v := check_sample_weight false w (length X) in
      let* v := if forallb isfinite X then Ok v else gather v (finite_index_of isfinite X) in
      fast_hdbscan_weights (Some (Array [length v] v)) (length (filter isfinite X))
  end.

(** hdbscan.py:1111-1153: PLSCAN checks once. *)
Definition plscan_weights {Row} (weight : option weight_arg) (X : list Row) : res (option (list stored)) :=
  match weight with
  | None => Ok None
  | Some w => let* v := check_sample_weight false w (length X) in Ok (Some v)
  end.

(** ** Detectors *)

(** sub_clusters.py:245-457. A size limit as far as [size <= 0] looks at it. *)
Inductive size_val := SizeNone | SizeNumber (not_above_zero : bool) | SizeOther.

(** sub_clusters.py:245-457. What the detector looks at in a clusterer. *)
Record clusterer := {
  k_precomputed : bool;                 (* metric == "precomputed" *)
  k_raw_data : option nat;              (* number of rows of _raw_data, None if not stored *)
  k_fitted : bool;                      (* _min_spanning_tree is set *)
  k_labels : list Z;
  k_min_cluster_size : pyval;
  k_max_cluster_size : size_val;
  k_method : method_name
}.

(** sub_clusters.py:245-457: The arguments of [find_sub_clusters] that are checked. *)
Record detector_arguments := {
  e_labels : option (list Z);
  e_weights : option weight_arg;
  e_min_cluster_size : pyval;
  e_max_cluster_size : size_val;
  e_method : option method_name;
  e_epsilon : pyval;
  e_persistence : pyval
}.

(** sub_clusters.py:245-457. What the rest of the run gets. *)
Record checked := {
  h_labels : list Z;
  h_weights : option (list stored);
  h_min_cluster_size : pyval;
  h_max_cluster_size : size_val;
  h_method : method_name
}.

(** sub_clusters.py:260-329 [find_sub_clusters] up to the point where all checks
    have passed; the check of the lens values is part of [M_Detector.lens_of].
    [check_is_fitted] raises NotFittedError, a ValueError. *)
Definition check_detector (allow_zero : bool) (k : clusterer) (a : detector_arguments) : res checked :=
  if k_precomputed k then Err NotImplementedError else
  match k_raw_data k with
  | None => Err ValueError
  | Some rows =>
      if negb (k_fitted k) then Err ValueError else
      let labels := match e_labels a with None => k_labels k | Some l => l end in
      let* weights := match e_weights a with
                      | None => Ok None
                      | Some w => let* v := check_sample_weight allow_zero w rows in Ok (Some v)
                      end in
      let min_cluster_size := match e_min_cluster_size a with PyNone => k_min_cluster_size k | v => v end in
      let max_cluster_size := match e_max_cluster_size a with SizeNone => k_max_cluster_size k | v => v end in
      let method := match e_method a with None => k_method k | Some m => m end in
      if negb match min_cluster_size with PyInt z => (2 <=? z)%Z | _ => false end then Err ValueError else
      let* _ := match max_cluster_size with
                | SizeNumber b => if b then Err ValueError else Ok tt
                | _ => Err TypeError
                end in
      let* _ := check_float (e_persistence a) in
      let* _ := check_float (e_epsilon a) in
      match method with
      | OtherMethod => Err ValueError
      | _ =>
          if forallb (fun l => (l =? -1)%Z) labels then Err ValueError else
          Ok {| h_labels := labels; h_weights := weights; h_min_cluster_size := min_cluster_size; h_max_cluster_size := max_cluster_size;
                h_method := method |}
      end
  end.
