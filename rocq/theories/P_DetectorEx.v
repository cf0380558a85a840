(** Detectors without rounding, for points on a line; [None] is a row with NaN. *)
From Coq Require Import List Arith Lia Bool ZArith QArith Qcanon Permutation.
From Verif Require Import Prelude Order Graph Size Num S_Kruskal M_Kruskal M_KruskalEntry M_Precomputed M_Linkage M_Condense M_Select M_Labels M_Pipeline M_Estimator
  M_SubClusters M_LensGraph M_Detector S_Detector P_EpsilonTop P_PipelineEx P_EstimatorEx P_SubEx P_Detector P_DetectorTop.
Import ListNotations.
Local Open Scope nat_scope.

(** The distances between the rows. *)
Definition line_distances (rows : list (option Z)) (i j : nat) : QInf :=
  match nth_error rows i, nth_error rows j with Some x, Some y => line_dist x y | _, _ => Some 0%Qc end.

(** Kruskal on all pairs, with constraints. *)
Definition line_mst (cl : cl_params) (rows : list (option Z)) : res (list (edge QInf)) :=
  let* (r, core) := kruskal_mst_brute (Some 0%Qc : QInf) (line_distances rows) (length rows) 2 cl in Ok (fst r).
Definition line_neighbors (rows : list (option Z)) : list (list (option nat)) :=
  map (fun i => map Some (brute_neighbors (W := QInf) (line_distances rows) (length rows) 2 i)) (seq 0 (length rows)).

(** HDBSCAN.fit, then SubClusterDetector.fit. *)
Definition line_model (cl : cl_params) (mcs : nat) (X : list (option Z)) : res (fitted QInf QInf NatSize) :=
  fit (W := QInf) (V := QInf) (Sz := NatSize) (la_zero ExactLam) present (fun l => l)
    (fast_hdbscan hdbscan_lambda_value ExactLam (fun _ => None) (line_mst cl) (ExactArith NatSize nat_as_q) by_parent_of
       (exact_settings (Sz := NatSize) mcs Eom false 0%Qc 0%Qc)) X.
Definition line_detect (flag : bool) (sub_mcs : nat) (X : list (option Z)) (r : fitted QInf QInf NatSize) (lens : lens_input QInf QInf (option Z)) :=
  detect (fun w => w) exact_sort exact_average (Some 0%Qc) (Some 1%Qc) (Some 0%Qc) (exact_tree Eom sub_mcs)
    (propagated exact_inv exact_add (Some 0%Qc : QInf) (length X)) flag X (f_condensed r) (f_labels r) (f_probabilities r)
    (line_neighbors (filter present X)) (f_mst r) lens.
Definition line_run flag cl mcs sub_mcs X lens := let* r := line_model cl mcs X in line_detect flag sub_mcs X r lens.
Definition seen {W V : WOrd} (r : res (detected W V)) : res (list Z * list Z * list Z * list (list nat)) :=
  match r with Ok d => Ok (d_cluster d, d_labels d, d_sub d, d_points d) | Err e => Err e end.

Definition some_X : list (option Z) := [Some 0; Some 1; None; Some 2; Some 3; Some 4; Some 5; Some 20; None; Some 21; Some 22]%Z.
Definition some_lens : list QInf := [q 1; q 1; q 7; q 1; q 6; q 2; q 2; q 1; q 9; q 1; q 1].

(** No missing values; samples 3 and 6 must not end up together. *)
Definition far_X : list (option Z) := [Some 0; Some 1; Some 2; Some 10; Some 11; Some 12; Some 50]%Z.
Definition far_groups := CLGroups [-1; -1; -1; 0; -1; -1; 0]%Z 1.
Definition far_lens : list QInf := repeat (q 1) 7.

(** Labels and rows of the condensed tree. *)
Definition tree_seen (r : res (fitted QInf QInf NatSize)) : res (list Z * list (nat * nat)) :=
  match r with Ok f => Ok (f_labels f, map (fun r => (c_parent r, c_child r)) (f_condensed f)) | Err e => Err e end.
Lemma tree_seen_ok r a b : tree_seen r = Ok (a, b) -> exists f, r = Ok f /\ f_labels f = a /\ map (fun r => (c_parent r, c_child r)) (f_condensed f) = b.
Proof. destruct r as [f|]; [|discriminate]. intros [= H1 H2]. eauto. Qed.

Lemma far_run : line_run false far_groups 3 2 far_X (LensValues far_lens) = Err IndexError.
Proof. vm_compute. reflexivity. Qed.
Lemma far_tree : tree_seen (line_model far_groups 3 far_X) =
  Ok ([1; 1; 1; 0; 0; 0; -1]%Z, [(7, 6); (7, 8); (7, 9); (8, 4); (8, 3); (8, 5); (9, 1); (9, 0); (9, 2)]).
Proof. vm_compute. reflexivity. Qed.
Lemma far_fails : exists X constraints lens r, forallb present X = true /\
    line_model constraints 3 X = Ok r /\ f_labels r = [1; 1; 1; 0; 0; 0; -1]%Z /\
    map (fun r => (c_parent r, c_child r)) (f_condensed r) = [(7, 6); (7, 8); (7, 9); (8, 4); (8, 3); (8, 5); (9, 1); (9, 0); (9, 2)] /\
    line_run false constraints 3 2 X (LensValues lens) = Err IndexError.
Proof.
  destruct (tree_seen_ok _ _ _ far_tree) as (r & E & H1 & H2).
  exact (ex_intro _ far_X (ex_intro _ far_groups (ex_intro _ far_lens (ex_intro _ r (conj eq_refl (conj E (conj H1 (conj H2 far_run)))))))).
Qed.

(** Sub-cluster strengths of samples in no cluster. *)
Definition sub_strength_X : list (option Z) := [Some 0; Some 1; Some 2; None; Some 10; Some 11; Some 12; Some 100]%Z.
Definition sub_strengths_seen (r : res (detected QInf QInf)) : res (list Z * list (option Q)) :=
  match r with Ok d => Ok (d_labels d, map (fun v : QInf => match v with Some x => Some (this x) | None => None end) (d_sub_probs d)) | Err e => Err e end.
Lemma sub_strengths_differ :
  exists X lens labels strengths x y, sub_strengths_seen (line_run false CLNone 3 2 X (LensValues lens)) = Ok (labels, strengths) /\
  nth_error labels x = Some (-1)%Z /\ nth_error labels y = Some (-1)%Z /\ nth_error strengths x = Some (Some 0%Q) /\ nth_error strengths y = Some (Some 1%Q).
Proof.
  eexists sub_strength_X, (repeat (q 1) 8), _, _, 7, 3. split; [vm_compute; reflexivity|]. repeat split.
Qed.
