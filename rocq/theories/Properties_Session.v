(** C79: estimator objects, for every history of calls, failing ones included. *)
From Coq Require Import List Arith Bool ZArith QArith Qcanon.
From Verif Require Import Prelude Order Graph Size Num M_Linkage M_Condense M_Select M_Labels M_Pipeline S_Pipeline M_Estimator M_Dispatch M_Plscan
  P_EomValue P_EstimatorEx M_Session S_Session P_Session.
Import ListNotations.
Local Open Scope nat_scope.

(** C79.  A call of fit succeeds exactly if the same fit of a new object does, and
    then all attributes are those of this fit, whatever the object was used for
    before.  Otherwise it raises the exception of the new object. *)
Theorem C79_fit_does_not_depend_on_the_past :
  forall (P : Type) (W V : WOrd) (Sz : SOrd) (Row : Type) (zero : V) (isfinite : Row -> bool) (set_list : list nat -> list nat)
         (accepted weights_accepted : list Row -> bool) (run : P -> list Row -> res (fitted W V Sz)) (o : object P W V Sz Row) (X : list Row),
  match outcome zero isfinite set_list accepted weights_accepted run (o_params o) X with
  | Ok r => fit_object zero isfinite set_list accepted weights_accepted run o X =
      ({| o_params := o_params o; o_raw_data := Some X; o_all_finite := Some (forallb isfinite X); o_results := Some r |}, None)
  | Err e => snd (fit_object zero isfinite set_list accepted weights_accepted run o X) = Some e /\
             o_params (fst (fit_object zero isfinite set_list accepted weights_accepted run o X)) = o_params o
  end.
Proof. exact @fit_refines. Qed.
Print Assumptions C79_fit_does_not_depend_on_the_past.

(** A fit that fails leaves labels, strengths and trees as they were, unless the
    data have missing values in all rows but one. *)
Theorem C79_failed_fit_keeps_results :
  forall (P : Type) (W V : WOrd) (Sz : SOrd) (Row : Type) (zero : V) (isfinite : Row -> bool) (set_list : list nat -> list nat)
         (accepted weights_accepted : list Row -> bool) (run : P -> list Row -> res (fitted W V Sz)),
  complete_run run -> forall (o : object P W V Sz Row) (X : list Row) (e : err),
  outcome zero isfinite set_list accepted weights_accepted run (o_params o) X = Err e -> ~ lone_row isfinite X ->
  o_results (fst (fit_object zero isfinite set_list accepted weights_accepted run o X)) = o_results o.
Proof. exact @failed_keeps. Qed.
Print Assumptions C79_failed_fit_keeps_results.

(** After any history the results are those of the last fit that succeeded, with
    the parameters that were in force when it was called; there are none exactly
    if no fit succeeded. *)
Theorem C79_results_of_the_last_success :
  forall (P : Type) (W V : WOrd) (Sz : SOrd) (Row : Type) (zero : V) (isfinite : Row -> bool) (set_list : list nat -> list nat)
         (accepted weights_accepted : list Row -> bool) (run : P -> list Row -> res (fitted W V Sz)),
  complete_run run -> forall (p : P) (h : list (call P Row)), (forall Y, In (Fit Y) h -> ~ lone_row isfinite Y) ->
  let o := play zero isfinite set_list accepted weights_accepted run (new_object p) h in
  o_params o = params_after p h /\
  (forall r, o_results o = Some r <-> exists q X, last_success zero isfinite set_list accepted weights_accepted run p h q X r) /\
  (o_results o = None <-> never_fitted zero isfinite set_list accepted weights_accepted run p h).
Proof. exact @after_history. Qed.
Print Assumptions C79_results_of_the_last_success.

(** What the user then sees: one label and one strength for every row of those
    data, the condensed tree, and DBSCAN clusterings, cut with the parameters of
    the moment; without a success every question is refused. *)
Theorem C79_answers_after_a_history :
  forall (P : Type) (W V : WOrd) (Sz : SOrd) (Row : Type) (zero : V) (isfinite : Row -> bool) (set_list : list nat -> list nat)
         (accepted weights_accepted : list Row -> bool) (run : P -> list Row -> res (fitted W V Sz)),
  complete_run run -> forall (p : P) (h : list (call P Row)) (cut_size : P -> nat), (forall Y, In (Fit Y) h -> ~ lone_row isfinite Y) ->
  let o := play zero isfinite set_list accepted weights_accepted run (new_object p) h in
  (forall q X r, last_success zero isfinite set_list accepted weights_accepted run p h q X r ->
     length (f_labels r) = length X /\ length (f_probabilities r) = length X /\
     condensed_tree_of_object o = Ok (f_condensed r, f_labels r) /\
     forall eps, dbscan_of_object cut_size o eps = dbscan_clustering r eps (cut_size (params_after p h))) /\
  (never_fitted zero isfinite set_list accepted weights_accepted run p h ->
     condensed_tree_of_object o = Err ValueError /\ spanning_tree_of_object o = Err ValueError /\ forall eps, dbscan_of_object cut_size o eps = Err ValueError).
Proof. exact @questions. Qed.
Print Assumptions C79_answers_after_a_history.

(** A fit that succeeds makes the object forget its past: it is the object that
    was made with the current parameters and fitted once. *)
Theorem C79_successful_fit_forgets_the_past :
  forall (P : Type) (W V : WOrd) (Sz : SOrd) (Row : Type) (zero : V) (isfinite : Row -> bool) (set_list : list nat -> list nat)
         (accepted weights_accepted : list Row -> bool) (run : P -> list Row -> res (fitted W V Sz)) (p : P) (h : list (call P Row)) (X : list Row) (r : fitted W V Sz),
  outcome zero isfinite set_list accepted weights_accepted run (params_after p h) X = Ok r ->
  play zero isfinite set_list accepted weights_accepted run (new_object p) (h ++ [Fit X]) =
  play zero isfinite set_list accepted weights_accepted run (new_object (params_after p h)) [Fit X].
Proof. exact @forgets. Qed.
Print Assumptions C79_successful_fit_forgets_the_past.

(** Right after it the spanning tree is shown with the data it was made from. *)
Theorem C79_spanning_tree_with_its_data :
  forall (P : Type) (W V : WOrd) (Sz : SOrd) (Row : Type) (zero : V) (isfinite : Row -> bool) (set_list : list nat -> list nat)
         (accepted weights_accepted : list Row -> bool) (run : P -> list Row -> res (fitted W V Sz)) (p : P) (h : list (call P Row)) (X : list Row) (r : fitted W V Sz),
  outcome zero isfinite set_list accepted weights_accepted run (params_after p h) X = Ok r ->
  spanning_tree_of_object (play zero isfinite set_list accepted weights_accepted run (new_object p) (h ++ [Fit X])) = Ok (Some (f_mst r, X)).
Proof. exact @spanning_tree_shown. Qed.
Print Assumptions C79_spanning_tree_with_its_data.

(** The algorithm is complete in this sense for every spanning tree back end;
    [valid]: the parameters pass the checks, which raise ValueError. *)
Theorem C79_the_algorithm_is_complete :
  forall (P : Type) (W V : WOrd) (Row : Type) (lam : W -> V) (LA : LamArith V) (garbage : nat -> V) (mst_of : P -> list Row -> res (list (edge W)))
         (A : Arith V NatSize) (by_parent : list (crow V NatSize) -> list (crow V NatSize)) (st : P -> settings V NatSize) (valid : P -> bool),
  (forall p, valid p = true -> setting_ok lam LA A by_parent (st p)) ->
  (forall p rows M, 2 <= length rows -> mst_of p rows = Ok M -> spanning_tree (length rows) M) ->
  complete_run (fun p rows => if valid p then fast_hdbscan lam LA garbage (mst_of p) A by_parent (st p) rows else Err ValueError).
Proof. exact @fast_complete. Qed.
Print Assumptions C79_the_algorithm_is_complete.

(** Points on a line; the parameter is the minimum cluster size. *)
Example C79_example_complete : complete_run (Sz := NatSize) line_run.
Proof. exact line_complete. Qed.
Definition ex_history : list (call nat (option Z)) :=
  [Fit []; Fit [Some 0; Some 1; Some 10; None; Some 11]%Z; SetParams 1; Fit [Some 7; Some 8]%Z; SetParams 3; Fit [None]].
Example C79_example :
  map (fun k => line_labels (line_play 2 (firstn k ex_history))) [1; 2; 4; 6] =
  [None; Some [1; 1; 0; -1; 0]%Z; Some [1; 1; 0; -1; 0]%Z; Some [1; 1; 0; -1; 0]%Z].
Proof. vm_compute. reflexivity. Qed.
Example C79_example_applies : forall Y, In (Fit Y) ex_history -> ~ lone_row present Y.
Proof. intros Y H [_ H1]. cbn in H. repeat (destruct H as [H|H]; [try discriminate; injection H as <-; discriminate|]). exact H. Qed.
Example C79_example_cut :
  map (fun h => match dbscan_of_object (fun p => p) (line_play 2 h) (Some (Q2Qc (2#1))) with Ok l => l | Err _ => [] end)
    [[Fit [Some 0; Some 1; Some 10; Some 11; Some 12]%Z]; [Fit [Some 0; Some 1; Some 10; Some 11; Some 12]%Z; SetParams 3]] =
  [[0; 0; 1; 1; 1]%Z; [-1; -1; 0; 0; 0]%Z].
Proof. vm_compute. reflexivity. Qed.

(** The exception: if all rows but one have missing values, fit raises an error
    and the previous results are gone; the new labels do not fit the data. *)
Theorem C79_failed_fit_destroys_results_refuted :
  exists h X, let o := line_play 2 h in
  line_labels o = Some [1; 1; 0; 0]%Z /\ (exists e, outcome (la_zero ExactLam) present (fun l => l) (fun X => negb (length X =? 0)) (fun _ => true) line_run 2 X = Err e) /\
  line_labels (line_play 2 (h ++ [Fit X])) = Some [-1]%Z /\ length X = 2.
Proof. exact lone_row_damage. Qed.
Print Assumptions C79_failed_fit_destroys_results_refuted.

(** In general: *)
Theorem C79_what_a_lone_row_leaves :
  forall (P : Type) (W V : WOrd) (Sz : SOrd) (Row : Type) (zero : V) (isfinite : Row -> bool) (set_list : list nat -> list nat)
         (accepted weights_accepted : list Row -> bool) (run : P -> list Row -> res (fitted W V Sz)),
  complete_run run -> forall (o : object P W V Sz Row) (X : list Row) (r : fitted W V Sz),
  lone_row isfinite X -> accepted X = true -> weights_accepted X = true -> run (o_params o) (filter isfinite X) = Ok r -> f_condensed r = [] ->
  let after := fit_object zero isfinite set_list accepted weights_accepted run o X in
  snd after = Some IndexError /\ o_results (fst after) = Some r /\ length (f_labels r) < length X.
Proof. exact @lone_leaves. Qed.
Print Assumptions C79_what_a_lone_row_leaves.

(** After a fit that failed the spanning tree is shown with the data of that fit,
    in which its endpoints need not exist. *)
Theorem C79_spanning_tree_of_other_data_refuted :
  exists h M X e, spanning_tree_of_object (line_play 2 h) = Ok (Some (M, X)) /\ In e M /\ length X <= esrc e.
Proof. exact tree_of_other_data. Qed.
Print Assumptions C79_spanning_tree_of_other_data_refuted.

(** PLSCAN checks its parameters only when the object is made: parameters that the
    constructor refuses are taken when they are set later. *)
Theorem C79_plscan_parameters_refuted :
  exists a b p, plscan_new a = Ok a /\ plscan_new b = Err ValueError /\ plscan_object_dispatch (plscan_set_params a b) = Ok p.
Proof. exact plscan_unchecked. Qed.
Print Assumptions C79_plscan_parameters_refuted.
