(** Detector objects on points on a line. *)
From Coq Require Import List Arith Bool ZArith QArith Qcanon.
From Verif Require Import Prelude Order Graph Size Num M_Linkage M_Condense M_Select M_Labels M_Pipeline M_Estimator M_SubClusters M_LensGraph M_Detector M_Session M_SessionDetector
  S_Session S_SessionDetector P_PipelineEx P_EstimatorEx P_SubEx P_Session.
Import ListNotations.
Local Open Scope nat_scope.

(** The lens is the place of a point; the parameter of the detector is its minimum
    cluster size, 0 for that of the clusterer. *)
Definition place (X : list (option Z)) (p : nat) : QInf := match nth p X None with Some z => q z | None => None end.
Definition place_lens (_ : nat) : lens_input QInf QInf (option Z) := LensCallback (fun X _ pts => map (place X) pts).
Definition line_resolve (a c : nat) : res nat := let m := if a =? 0 then c else a in if 2 <=? m then Ok m else Err ValueError.
(** Every point with the points next to it in its cluster; the points are in order. *)
Definition line_neighbors (r : fitted QInf QInf NatSize) : list (list (option nat)) :=
  let ls := f_labels r in
  map (fun x => map Some (filter (fun y => ((y =? S x) || (x =? S y)) && (nth y ls (-1) =? nth x ls (-1))%Z) (seq 0 (length ls)))) (seq 0 (length ls)).
Definition line_single (branch : bool) : nat -> fit_arguments nat QInf QInf NatSize (option Z) -> res (detected QInf QInf * list (option Z)) :=
  single_fit (Sz := NatSize) (fun w => w) exact_sort exact_average (Some 0%Qc) (Some 1%Qc) (Some 0%Qc) line_resolve (exact_tree Eom) place_lens (fun _ => false) (fun _ => false) branch
    exact_inv exact_add (Some 0%Qc) 20.
Definition line_detector (branch : bool) (h : list (dcall nat (fit_arguments nat QInf QInf NatSize (option Z)))) : dobject nat QInf QInf (option Z) :=
  dplay (Sz := NatSize) (fun w => w) exact_sort exact_average (Some 0%Qc) (Some 1%Qc) (Some 0%Qc) line_resolve (exact_tree Eom) place_lens (fun _ => false) (fun _ => false) branch
    exact_inv exact_add (Some 0%Qc) 20 (dnew 0) h.
(** Fitted to the clusterer after history [h], without other labels. *)
Definition line_args (h : list (call nat (option Z))) : fit_arguments nat QInf QInf NatSize (option Z) :=
  {| x_clusterer := as_clusterer (line_play 2 h) line_neighbors; x_labels := None; x_probabilities := None |}.
Definition lens_seen (r : res (detected QInf QInf * list (option Z))) : option (list (option Q) * list Z) :=
  match r with Ok (d, _) => Some (map (fun v : QInf => match v with Some x => Some (this x) | None => None end) (d_lens d), d_sub d) | Err _ => None end.

Definition line_data : list (option Z) := [Some 1; Some 2; Some 3; Some 4; Some 5; Some 100; Some 101; Some 102]%Z.
Definition other_data : list (option Z) := [Some 1; Some 2; Some 9; Some 3; Some 1; Some 7; Some 8; Some 9]%Z.

Lemma other_data_used : exists X Y, length X = length Y /\
  (let before := line_play 2 [Fit X] in let after := line_play 2 [Fit X; SetParams 1; Fit Y; SetParams 2] in
   o_results before <> None /\ o_results after = o_results before /\ o_params after = o_params before) /\
  lens_seen (line_single true 0 (line_args [Fit X])) = Some (map (fun v : option Z => option_map inject_Z v) X, [-1; -1; -1; -1; -1; -1; -1; -1]%Z) /\
  lens_seen (line_single true 0 (line_args [Fit X; SetParams 1; Fit Y; SetParams 2])) = Some (map (fun v : option Z => option_map inject_Z v) Y, [0; 0; 0; 1; 1; -1; -1; -1]%Z).
Proof.
  exists line_data, other_data. split; [reflexivity|]. split.
  - cbn zeta. split; [vm_compute; discriminate|]. split; [reflexivity|reflexivity].
  - split; vm_compute; reflexivity.
Qed.
