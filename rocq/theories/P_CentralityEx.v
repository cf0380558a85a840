(** Branches of points in the plane.  Squared distances instead of distances: the
    order is the same.  A third entry marks a row with missing values. *)
From Coq Require Import List Arith Bool ZArith QArith Qcanon Lia.
From Verif Require Import Prelude Order Graph Size Num S_Kruskal M_Kruskal M_KruskalEntry M_Linkage M_Condense M_Select M_Labels M_Pipeline S_Pipeline M_Estimator
  M_SubClusters M_LensGraph M_Detector P_EpsilonTop P_PipelineEx P_EstimatorEx P_SubEx P_DetectorEx M_Centrality S_Centrality P_Centrality.
Import ListNotations.
Local Open Scope nat_scope.

Definition at_xy (xy : Z * Z) : point := [Q2Qc (inject_Z (fst xy)); Q2Qc (inject_Z (snd xy))].
Definition missing_row : point := [0%Qc; 0%Qc; 1%Qc].
Definition plane_complete (p : point) : bool := length p <=? 2.
Definition plane_root (s : Qc) : QInf := Some s.
Definition plane_inverse (s : Qc) : QInf := if Qc_eq_bool s 0 then None else Some (/ s)%Qc.
Definition strength_q (v : QInf) : Qc := match v with Some s => s | None => 1%Qc end.
Definition plane_branches (flag sides : bool) (X : list point) : res (detected QInf QInf) :=
  branches_of_points (W := QInf) (V := QInf) plane_complete 2 plane_root plane_inverse strength_q (Some 0%Qc) 2
    hdbscan_lambda_value ExactLam (fun _ => None) (ExactArith NatSize nat_as_q) by_parent_of (exact_settings (Sz := NatSize) 3 Eom false 0%Qc 0%Qc) (fun l => l)
    (fun w => w) exact_sort exact_average (Some 1%Qc) (Some 0%Qc) (exact_tree Eom 2)
    (propagated exact_inv exact_add (Some 0%Qc : QInf) (length X)) flag sides X.

(** A bar of seven samples, a missing row, three samples far away. *)
Definition bar : list point :=
  map at_xy [(0, 0); (1, 0); (2, 0); (3, 0)]%Z ++ [missing_row] ++ map at_xy [(4, 0); (5, 0); (6, 0); (40, 0); (41, 0); (40, 1)]%Z.

(** A quarter turn and a shift. *)
Definition turned (p : point) : point := (Q2Qc 3 - nth 1 p 0)%Qc :: (nth 0 p 0 - Q2Qc 7)%Qc :: skipn 2 p.
Lemma turned_motion : motion 2 turned.
Proof.
  constructor. exists (fun j k => match j, k with 0, 1 => (-(1))%Qc | 1, 0 => 1%Qc | _, _ => 0%Qc end), (fun j => match j with 0 => Q2Qc 3 | _ => (- Q2Qc 7)%Qc end). split.
  - intros p j Hj. destruct j as [|[|j]]; [| |lia]; unfold turned, qsum; cbn [nth map seq fold_right]; ring.
  - intro v. unfold qsum. cbn [map seq fold_right]. ring.
Qed.
Lemma exact_strength_number : strength_number (la_zero ExactLam) (la_one ExactLam) strength_q.
Proof.
  split; [reflexivity|reflexivity|]. intros [v|] H1 H2; [|discriminate]. cbn. cbn in H1. now apply Qcleb_le in H1.
Qed.
Lemma turned_complete p : plane_complete (turned p) = plane_complete p.
Proof. unfold plane_complete, turned. destruct p as [|a [|b p]]; auto. Qed.

Definition centrality_seen (r : res (list QInf)) := match r with Ok l => Ok (map (option_map this) l) | Err e => Err e end.
Definition given_centrality (strengths : list Z) : res (list QInf) :=
  compute_centrality (W := QInf) (V := QInf) 2 plane_inverse strength_q (map at_xy [(0, 0); (9, 9); (2, 0); (4, 0); (4, 2)]%Z) (map q strengths) [0; 2; 3; 4].
