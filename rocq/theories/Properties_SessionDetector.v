(** C88: SubClusterDetector and BranchDetector objects over time. *)
From Coq Require Import List Arith Bool ZArith QArith Qcanon.
From Verif Require Import Prelude Order Graph Size Num M_Linkage M_Condense M_Select M_Labels M_Pipeline M_Estimator M_SubClusters M_LensGraph M_Detector M_Session M_SessionDetector
  S_Session S_SessionDetector P_PipelineEx P_SubEx P_Session P_SessionDetector P_SessionDetectorEx.
Import ListNotations.
Local Open Scope nat_scope.

(** C88.  A detector is made, its parameters are changed and it is fitted any
    number of times, to any clusterers in any state, with or without other labels
    and strengths; some fits fail.  After every history all its attributes are
    those of the last fit that succeeded, or it has none.  For a BranchDetector
    ([branch]) the branch attributes are of the same fit. *)
Theorem C88_results_of_the_last_success :
  forall (A C Set_ : Type) (W V N : WOrd) (Sz : SOrd) (Row : Type) (round : W -> W) (sort_row : list (nat * W) -> list (nat * W))
         (average : V -> V -> V) (zero one : V) (no_lens : W) (resolve : A -> C -> res Set_) (cluster_of : Set_ -> list (edge W) -> res (list Z * list V))
         (lens_of_class : A -> lens_input W V Row) (propagate_flag sides : A -> bool) (branch : bool)
         (inv : W -> res N) (nadd : N -> N -> N) (nzero : N) (fuel : nat) (a : A) (h : list (dcall A (fit_arguments C W V Sz Row))),
  let single := single_fit round sort_row average zero one no_lens resolve cluster_of lens_of_class propagate_flag sides branch inv nadd nzero fuel in
  let o := dplay round sort_row average zero one no_lens resolve cluster_of lens_of_class propagate_flag sides branch inv nadd nzero fuel (dnew a) h in
  do_params o = dparams_after a h /\
  (forall b x d data, dlast_success single a h b x d data -> displays branch o d data) /\
  (dnever single a h -> displays_nothing o) /\
  (dnever single a h \/ exists b x d data, dlast_success single a h b x d data).
Proof. exact @dafter. Qed.
Print Assumptions C88_results_of_the_last_success.

(** C88.  A fit that fails changes nothing at all, and a BranchDetector fails
    exactly when a SubClusterDetector would: once sub-clusters are found the
    threshold on branches cannot fail. *)
Theorem C88_failed_fit_changes_nothing :
  forall (A C Set_ : Type) (W V N : WOrd) (Sz : SOrd) (Row : Type) (round : W -> W) (sort_row : list (nat * W) -> list (nat * W))
         (average : V -> V -> V) (zero one : V) (no_lens : W) (resolve : A -> C -> res Set_) (cluster_of : Set_ -> list (edge W) -> res (list Z * list V))
         (lens_of_class : A -> lens_input W V Row) (propagate_flag sides : A -> bool) (branch : bool)
         (inv : W -> res N) (nadd : N -> N -> N) (nzero : N) (fuel : nat) (o : dobject A W V Row) (x : fit_arguments C W V Sz Row),
  let after := dfit round sort_row average zero one no_lens resolve cluster_of lens_of_class propagate_flag sides branch inv nadd nzero fuel o x in
  let found := find_in round sort_row average zero one no_lens resolve cluster_of lens_of_class propagate_flag inv nadd nzero fuel (do_params o) x in
  match found with Ok _ => snd after = None | Err e => after = (o, Some e) end.
Proof. exact @failed_keeps. Qed.
Print Assumptions C88_failed_fit_changes_nothing.

(** C88.  After a fit that succeeded the detector is the same as a new one with
    these parameters that is fitted once. *)
Theorem C88_successful_fit_forgets_the_past :
  forall (A C Set_ : Type) (W V N : WOrd) (Sz : SOrd) (Row : Type) (round : W -> W) (sort_row : list (nat * W) -> list (nat * W))
         (average : V -> V -> V) (zero one : V) (no_lens : W) (resolve : A -> C -> res Set_) (cluster_of : Set_ -> list (edge W) -> res (list Z * list V))
         (lens_of_class : A -> lens_input W V Row) (propagate_flag sides : A -> bool) (branch : bool)
         (inv : W -> res N) (nadd : N -> N -> N) (nzero : N) (fuel : nat) (a : A) (h : list (dcall A (fit_arguments C W V Sz Row)))
         (x : fit_arguments C W V Sz Row) (d : detected W V) (data : list Row),
  let play := dplay round sort_row average zero one no_lens resolve cluster_of lens_of_class propagate_flag sides branch inv nadd nzero fuel in
  single_fit round sort_row average zero one no_lens resolve cluster_of lens_of_class propagate_flag sides branch inv nadd nzero fuel (dparams_after a h) x = Ok (d, data) ->
  play (dnew a) (h ++ [DFit x]) = play (dnew (dparams_after a h)) [DFit x].
Proof. exact @dforgets. Qed.
Print Assumptions C88_successful_fit_forgets_the_past.

(** C88.  propagated_labels() after any history: ValueError if no fit succeeded;
    else the answer for the last success, with the setting for sides of the
    moment.  It changes nothing. *)
Theorem C88_propagated_labels_of_the_last_success :
  forall (A C Set_ : Type) (W V N : WOrd) (Sz : SOrd) (Row : Type) (round : W -> W) (sort_row : list (nat * W) -> list (nat * W))
         (average : V -> V -> V) (zero one : V) (no_lens : W) (resolve : A -> C -> res Set_) (cluster_of : Set_ -> list (edge W) -> res (list Z * list V))
         (lens_of_class : A -> lens_input W V Row) (propagate_flag sides : A -> bool) (branch : bool)
         (inv : W -> res N) (nadd : N -> N -> N) (nzero : N) (fuel : nat) (a : A) (h : list (dcall A (fit_arguments C W V Sz Row))),
  let single := single_fit round sort_row average zero one no_lens resolve cluster_of lens_of_class propagate_flag sides branch inv nadd nzero fuel in
  let o := dplay round sort_row average zero one no_lens resolve cluster_of lens_of_class propagate_flag sides branch inv nadd nzero fuel (dnew a) h in
  (forall b x d data, dlast_success single a h b x d data ->
   dpropagated zero sides branch inv nadd nzero fuel o =
     if branch then branch_propagated_labels zero inv nadd nzero fuel (sides (dparams_after a h)) d else propagated_labels inv nadd nzero fuel d) /\
  (dnever single a h -> dpropagated zero sides branch inv nadd nzero fuel o = Err ValueError).
Proof. exact @dpropagated_after. Qed.
Print Assumptions C88_propagated_labels_of_the_last_success.

(** C88.  Asking a detector later for propagated labels gives the labels and
    sub-cluster labels that it has after fitting again with propagate_labels=True,
    under the setting for sides of the moment; or the exception of that fit. *)
Theorem C88_propagating_later_or_fitting_again :
  forall (A C Set_ : Type) (W V N : WOrd) (Sz : SOrd) (Row : Type) (round : W -> W) (sort_row : list (nat * W) -> list (nat * W))
         (average : V -> V -> V) (zero one : V) (no_lens : W) (resolve : A -> C -> res Set_) (cluster_of : Set_ -> list (edge W) -> res (list Z * list V))
         (lens_of_class : A -> lens_input W V Row) (propagate_flag sides : A -> bool) (branch : bool)
         (inv : W -> res N) (nadd : N -> N -> N) (nzero : N) (fuel : nat) (a a' : A) (h : list (dcall A (fit_arguments C W V Sz Row)))
         (x : fit_arguments C W V Sz Row) (d : detected W V) (data : list Row) (r : fitted W V Sz) (nb : list (list (option nat))),
  let single := single_fit round sort_row average zero one no_lens resolve cluster_of lens_of_class propagate_flag sides branch inv nadd nzero fuel in
  let b := dparams_after a h in
  propagate_flag b = false -> propagate_flag a' = true -> (forall c, resolve a' c = resolve b c) -> lens_of_class a' = lens_of_class b ->
  q_fitted (x_clusterer x) = Some (r, nb) -> length (fst (used_labels one r x)) = length data -> length (snd (used_labels one r x)) = length data ->
  single b x = Ok (d, data) ->
  dpropagated zero sides branch inv nadd nzero fuel
    (dplay round sort_row average zero one no_lens resolve cluster_of lens_of_class propagate_flag sides branch inv nadd nzero fuel (dnew a) (h ++ [DFit x; DSetParams a'])) =
  let* y := single a' x in Ok (d_labels (fst y), d_sub (fst y)).
Proof. exact @propagate_or_refit. Qed.
Print Assumptions C88_propagating_later_or_fitting_again.

(** C88.  Labels and strengths given to fit: the result is that for a clusterer
    with these labels and strengths.  Labels alone come with strengths 1, strengths
    alone with the labels of the clusterer. *)
Theorem C88_labels_and_strengths_given :
  forall (A C Set_ : Type) (W V N : WOrd) (Sz : SOrd) (Row : Type) (round : W -> W) (sort_row : list (nat * W) -> list (nat * W))
         (average : V -> V -> V) (zero one : V) (no_lens : W) (resolve : A -> C -> res Set_) (cluster_of : Set_ -> list (edge W) -> res (list Z * list V))
         (lens_of_class : A -> lens_input W V Row) (propagate_flag : A -> bool)
         (inv : W -> res N) (nadd : N -> N -> N) (nzero : N) (fuel : nat) (a : A) (x : fit_arguments C W V Sz Row),
  let find := find_in round sort_row average zero one no_lens resolve cluster_of lens_of_class propagate_flag inv nadd nzero fuel in
  find a x = find a (plain (given (x_clusterer x)
    (fun r => match x_labels x with Some l => l | None => f_labels r end)
    (fun r => match x_probabilities x, x_labels x with Some p, _ => p | None, Some l => repeat one (length l) | None, None => f_probabilities r end))).
Proof. exact @arguments_override. Qed.
Print Assumptions C88_labels_and_strengths_given.

(** C88.  What is refused: precomputed distances, clusterers without data or without
    a fit, bad parameters, labels that are all noise. *)
Theorem C88_what_is_refused :
  forall (A C Set_ : Type) (W V N : WOrd) (Sz : SOrd) (Row : Type) (round : W -> W) (sort_row : list (nat * W) -> list (nat * W))
         (average : V -> V -> V) (zero one : V) (no_lens : W) (resolve : A -> C -> res Set_) (cluster_of : Set_ -> list (edge W) -> res (list Z * list V))
         (lens_of_class : A -> lens_input W V Row) (propagate_flag : A -> bool)
         (inv : W -> res N) (nadd : N -> N -> N) (nzero : N) (fuel : nat) (a : A) (x : fit_arguments C W V Sz Row),
  let find := find_in round sort_row average zero one no_lens resolve cluster_of lens_of_class propagate_flag inv nadd nzero fuel in
  let q := x_clusterer x in
  (q_precomputed q = true -> find a x = Err NotImplementedError) /\
  (q_precomputed q = false -> q_raw_data q = None \/ q_fitted q = None -> find a x = Err ValueError) /\
  (forall e, q_precomputed q = false -> q_raw_data q <> None -> q_fitted q <> None -> resolve a (q_params q) = Err e -> find a x = Err e) /\
  (forall r nb s, q_precomputed q = false -> q_raw_data q <> None -> q_fitted q = Some (r, nb) -> resolve a (q_params q) = Ok s ->
   (forall l, In l (match x_labels x with Some ls => ls | None => f_labels r end) -> l = (-1)%Z) -> find a x = Err ValueError).
Proof. exact @refused. Qed.
Print Assumptions C88_what_is_refused.

(** C88.  A detector that is fitted right after a successful fit of an HDBSCAN
    object, whatever that object went through before, sees the data, labels,
    strengths, trees and parameters of this very fit. *)
Theorem C88_detector_sees_the_latest_fit :
  forall (P : Type) (W V : WOrd) (Sz : SOrd) (Row : Type) (zero : V) (isfinite : Row -> bool) (set_list : list nat -> list nat)
         (accepted weights_accepted : list Row -> bool) (run : P -> list Row -> res (fitted W V Sz)) (p : P) (h : list (call P Row)) (X : list Row) (r : fitted W V Sz)
         (neighbors : fitted W V Sz -> list (list (option nat))),
  outcome zero isfinite set_list accepted weights_accepted run (params_after p h) X = Ok r ->
  as_clusterer (play zero isfinite set_list accepted weights_accepted run (new_object p) (h ++ [Fit X])) neighbors =
  {| q_precomputed := false; q_raw_data := Some X; q_params := params_after p h; q_fitted := Some (r, neighbors r) |}.
Proof. exact @clusterer_after. Qed.
Print Assumptions C88_detector_sees_the_latest_fit.

(** But not after a fit that failed: a clusterer is fitted to X, then a fit to Y
    fails.  Its results are still those for X, its parameters are the same, yet a
    BranchDetector computes lens values from Y and finds other branches. *)
Theorem C88_detection_on_other_data_refuted :
  exists X Y, length X = length Y /\
  (let before := line_play 2 [Fit X] in let after := line_play 2 [Fit X; SetParams 1; Fit Y; SetParams 2] in
   o_results before <> None /\ o_results after = o_results before /\ o_params after = o_params before) /\
  lens_seen (line_single true 0 (line_args [Fit X])) = Some (map (fun v : option Z => option_map inject_Z v) X, [-1; -1; -1; -1; -1; -1; -1; -1]%Z) /\
  lens_seen (line_single true 0 (line_args [Fit X; SetParams 1; Fit Y; SetParams 2])) = Some (map (fun v : option Z => option_map inject_Z v) Y, [0; 0; 0; 1; 1; -1; -1; -1]%Z).
Proof. exact other_data_used. Qed.
Print Assumptions C88_detection_on_other_data_refuted.

(** ** Example: a BranchDetector over time.  Fitted to a clusterer without a fit
    (fails), to one with other data, with a bad parameter (fails), to one with a
    precomputed metric (fails), and with other labels. *)
Definition odd_line : fit_arguments nat QInf QInf NatSize (option Z) :=
  {| x_clusterer := {| q_precomputed := true; q_raw_data := Some line_data; q_params := 2; q_fitted := q_fitted (x_clusterer (line_args [Fit line_data])) |};
     x_labels := None; x_probabilities := None |}.
Definition other_labels : fit_arguments nat QInf QInf NatSize (option Z) :=
  {| x_clusterer := x_clusterer (line_args [Fit line_data]); x_labels := Some [0; 0; 0; 0; 0; -1; -1; -1]%Z; x_probabilities := None |}.
Definition detector_history : list (dcall nat (fit_arguments nat QInf QInf NatSize (option Z))) :=
  [DFit (line_args []); DFit (line_args [Fit other_data]); DSetParams 1; DFit (line_args [Fit line_data]); DSetParams 0; DFit odd_line; DFit other_labels].
Definition detector_seen (o : dobject nat QInf QInf (option Z)) :=
  (option_map d_labels (do_found o), do_raw_data o, option_map (fun b => fst (fst b)) (do_branch o)).
Example C88_example :
  map (fun k => detector_seen (line_detector true (firstn k detector_history))) [1; 2; 4; 6; 7] =
  let second := (Some [1; 1; 0; 1; 1; 0; 0; 0]%Z, Some other_data, Some [-1; -1; 0; -1; -1; 1; 1; 0]%Z) in
  [(None, None, None); second; second; second; (Some [0; 0; 0; 0; 0; -1; -1; -1]%Z, Some line_data, Some [-1; -1; -1; -1; -1; 0; 0; 0]%Z)].
Proof. vm_compute. reflexivity. Qed.
(** Parameter 3: propagate_labels and label_sides_as_branches; 0: neither.  Sample 0
    is noise in its cluster. *)
Definition flag_single (a : nat) : fit_arguments nat QInf QInf NatSize (option Z) -> res (detected QInf QInf * list (option Z)) :=
  single_fit (Sz := NatSize) (fun w => w) exact_sort exact_average (Some 0%Qc) (Some 1%Qc) (Some 0%Qc) (fun _ => line_resolve 0) (exact_tree Eom) place_lens
    (fun a => 3 <=? a) (fun a => 3 <=? a) true exact_inv exact_add (Some 0%Qc) 20 a.
Definition flag_detector (h : list (dcall nat (fit_arguments nat QInf QInf NatSize (option Z)))) : dobject nat QInf QInf (option Z) :=
  dplay (Sz := NatSize) (fun w => w) exact_sort exact_average (Some 0%Qc) (Some 1%Qc) (Some 0%Qc) (fun _ => line_resolve 0) (exact_tree Eom) place_lens
    (fun a => 3 <=? a) (fun a => 3 <=? a) true exact_inv exact_add (Some 0%Qc) 20 (dnew 0) h.
Definition other_places : list (option Z) := [Some 15; Some 1; Some 2; Some 9; Some 3; Some 1; Some 7; Some 8; Some 9]%Z.
Definition nine_points : list (option Z) := [Some 1; Some 2; Some 3; Some 4; Some 5; Some 6; Some 100; Some 101; Some 102]%Z.
Definition nine_args := line_args [Fit nine_points; SetParams 1; Fit other_places; SetParams 2].
Definition labels_of (r : res (detected QInf QInf * list (option Z))) := match r with Ok (d, _) => Some (d_labels d, d_sub d) | Err _ => None end.
Example C88_example_propagated :
  (labels_of (flag_single 0 nine_args), labels_of (flag_single 3 nine_args),
   dpropagated (Some 0%Qc : QInf) (fun a => 3 <=? a) true exact_inv exact_add (Some 0%Qc : QInf) 20 (flag_detector [DFit nine_args; DSetParams 3])) =
  let later := ([1; 1; 1; 1; 2; 2; 0; 0; 0]%Z, [0; 0; 0; 0; 1; 1; -1; -1; -1]%Z) in
  (Some ([1; 1; 1; 1; 1; 1; 0; 0; 0]%Z, [-1; 0; 0; 0; 1; 1; -1; -1; -1]%Z), Some later, Ok later).
Proof. vm_compute. reflexivity. Qed.
