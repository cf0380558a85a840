(** What a user expects of a detector object over time. *)
From Coq Require Import List Arith Bool ZArith.
From Verif Require Import Prelude Order Graph Size M_Linkage M_Condense M_Estimator M_SubClusters M_LensGraph M_Detector M_Session M_SessionDetector.
Import ListNotations.
Local Open Scope nat_scope.

(** The parameters in force after a history of calls. *)
Fixpoint dparams_after {A X} (a : A) (h : list (dcall A X)) : A :=
  match h with
  | [] => a
  | DSetParams b :: h' => dparams_after b h'
  | DFit _ :: h' => dparams_after a h'
  end.

Section Expected.
  Context {A X : Type} {W V : WOrd} {Row : Type}.
  (** [single a x]: the results and the data of one fit of a new detector. *)
  Variable single : A -> X -> res (detected W V * list Row).

  (** All attributes of the detector are those of [d], found in [data]; a
      BranchDetector tells them under its own names as well. *)
  Definition displays (branch : bool) (o : dobject A W V Row) (d : detected W V) (data : list Row) : Prop :=
    do_found o = Some d /\ do_raw_data o = Some data /\ do_branch o = if branch then Some (d_sub d, d_sub_probs d, d_lens d) else None.
  (** The detector has no attributes from a fit. *)
  Definition displays_nothing (o : dobject A W V Row) : Prop := do_found o = None /\ do_raw_data o = None /\ do_branch o = None.

  (** [d] and [data] stem from the last fit of the history that succeeded. *)
  Definition dlast_success (a : A) (h : list (dcall A X)) (b : A) (x : X) (d : detected W V) (data : list Row) : Prop :=
    exists h1 h2, h = h1 ++ DFit x :: h2 /\ b = dparams_after a h1 /\ single b x = Ok (d, data) /\
      forall h3 y h4, h2 = h3 ++ DFit y :: h4 -> exists e, single (dparams_after b h3) y = Err e.
  (** No fit of the history succeeded. *)
  Definition dnever (a : A) (h : list (dcall A X)) : Prop :=
    forall h3 y h4, h = h3 ++ DFit y :: h4 -> exists e, single (dparams_after a h3) y = Err e.
End Expected.

(** The clusterer, had its fit given these labels and strengths. *)
Definition given {C W V Sz Row : Type} (q : clusterer C W V Sz Row) (labels : fitted W V Sz -> list Z) (strengths : fitted W V Sz -> list V) : clusterer C W V Sz Row :=
  {| q_precomputed := q_precomputed q; q_raw_data := q_raw_data q; q_params := q_params q;
     q_fitted := option_map (fun rn => ({| f_labels := labels (fst rn); f_probabilities := strengths (fst rn); f_linkage := f_linkage (fst rn); f_condensed := f_condensed (fst rn);
                                           f_mst := f_mst (fst rn) |}, snd rn)) (q_fitted q) |}.
(** Fitted to a clusterer without other labels and strengths. *)
Definition plain {C W V Sz Row : Type} (q : clusterer C W V Sz Row) : fit_arguments C W V Sz Row := {| x_clusterer := q; x_labels := None; x_probabilities := None |}.

Section Single.
  Context {A C Set_ : Type} {W V N : WOrd} {Sz : SOrd} {Row : Type}.
  Variables (round : W -> W) (sort_row : list (nat * W) -> list (nat * W)).
  Variables (average : V -> V -> V) (zero one : V) (no_lens : W).
  Variables (resolve : A -> C -> res Set_) (cluster_of : Set_ -> list (edge W) -> res (list Z * list V)) (lens_of_class : A -> lens_input W V Row).
  Variables (propagate_flag sides : A -> bool) (branch : bool).
  Variables (inv : W -> res N) (nadd : N -> N -> N) (nzero : N) (fuel : nat).

  (** One fit as a function of the parameters and the arguments: the sub-clusters
      found, with the threshold of a BranchDetector, and the data. *)
  Definition single_fit (a : A) (x : fit_arguments C W V Sz Row) : res (detected W V * list Row) :=
    let* r := find_in round sort_row average zero one no_lens resolve cluster_of lens_of_class propagate_flag inv nadd nzero fuel a x in
    if branch then let* d := branch_fit zero (sides a) (fst r) in Ok (d, snd r) else Ok r.
End Single.
