(** C63: branches and where their clusters' centres are. *)
From Coq Require Import List Arith Bool ZArith Permutation QArith Qcanon.
From Verif Require Import Prelude Order Graph Size Num S_Kruskal M_Kruskal M_KruskalEntry M_Linkage M_Condense M_Select M_Labels M_Pipeline S_Pipeline M_Estimator
  M_SubClusters M_LensGraph M_Detector P_EpsilonTop P_PipelineEx P_EstimatorEx P_SubEx P_DetectorEx M_Centrality S_Centrality P_CentralityTop P_CentralityLens P_CentralityEx.
Import ListNotations.
Local Open Scope nat_scope.

(** C63.  The lens value of a sample of a cluster is the inverse of its distance to
    the point around which the cluster's samples balance, by strength. *)
Theorem C63_inverse_distance_to_centre :
  forall (W V : WOrd) (dim : nat) (inverse_root : Qc -> W) (as_q : V -> Qc) (data : list point) (strengths : list V) (points : list nat) (vs : list W),
  compute_centrality dim inverse_root as_q data strengths points = Ok vs <->
  exists rows ss c, values_at data points rows /\ values_at strengths points ss /\ qsum (map as_q ss) <> 0%Qc /\ balances dim rows (map as_q ss) c /\
    vs = map (fun r => inverse_root (square dim (minus dim r c))) rows.
Proof. exact @centrality_ok. Qed.
Print Assumptions C63_inverse_distance_to_centre.

(** There is no such point exactly if the strengths sum to zero; then it fails. *)
Theorem C63_fails_without_strengths :
  forall (W V : WOrd) (dim : nat) (inverse_root : Qc -> W) (as_q : V -> Qc) (data : list point) (strengths : list V) (points : list nat) (rows : list point) (ss : list V),
  values_at data points rows -> values_at strengths points ss ->
  (compute_centrality dim inverse_root as_q data strengths points = Err ZeroDivisionError <-> qsum (map as_q ss) = 0%Qc).
Proof. exact @centrality_fails. Qed.
Print Assumptions C63_fails_without_strengths.

(** The spanning tree under the clusters and branches: every edge is the mutual
    reachability distance of its two samples, with the distance of the two points. *)
Theorem C63_spanning_tree_of_points :
  forall (W : WOrd) (dim : nat) (root : Qc -> W) (zero : W) (min_samples : nat) (rows : list point), 0 < length rows ->
  exists T nbrs core, points_mst dim root zero min_samples rows = Ok (T, nbrs, core) /\ spanning_tree (length rows) T /\
  forall i j w, In (i, j, w) T -> exists a b, nth_error rows i = Some a /\ nth_error rows j = Some b /\
    w = wmax (wmax (nth i core winf) (nth j core winf)) (root (squared_distance dim a b)).
Proof. exact @points_tree. Qed.
Print Assumptions C63_spanning_tree_of_points.

(** For the clusters that a fit reports it never fails. *)
Theorem C63_fitted_clusters_have_centres :
  forall (W V : WOrd) (dim : nat) (inverse_root : Qc -> W) (as_q : V -> Qc) (lam : W -> V) (LA : LamArith V) (garbage : nat -> V)
         (mst_of : list point -> res (list (edge W))) (A : Arith V NatSize) (by_parent : list (crow V NatSize) -> list (crow V NatSize))
         (st : settings V NatSize) (rows : list point) (r : fitted W V NatSize) (k : nat),
  setting_ok lam LA A by_parent st -> root_ok st -> 2 <= length rows -> (forall M, mst_of rows = Ok M -> spanning_tree (length rows) M) ->
  strength_number (la_zero LA) (la_one LA) as_q ->
  fast_hdbscan lam LA garbage mst_of A by_parent st rows = Ok r -> (forall e, In e (f_mst r) -> wlt (la_zero LA) (lam (ewt e)) = true) ->
  num_clusters (f_labels r) = Ok k ->
  centralities dim inverse_root as_q rows (f_probabilities r) (map (fun c => members (f_labels r) (Z.of_nat c)) (seq 0 k)) = Ok tt.
Proof. exact @fitted_centralities. Qed.
Print Assumptions C63_fitted_clusters_have_centres.

(** Turning, mirroring and shifting the data changes neither the clusters, nor
    their trees and strengths, nor the branches.  With and without missing values;
    whatever cannot be computed fails alike. *)
Theorem C63_moving_keeps_clusters :
  forall (W V : WOrd) (complete : point -> bool) (dim : nat) (root : Qc -> W) (wzero : W) (min_samples : nat) (f : point -> point),
  motion dim f -> (forall p, complete (f p) = complete p) ->
  forall (lam : W -> V) (LA : LamArith V) (garbage : nat -> V) (A : Arith V NatSize) (by_parent : list (crow V NatSize) -> list (crow V NatSize))
         (st : settings V NatSize) (set_list : list nat -> list nat) (X : list point),
  hdbscan_points complete dim root wzero min_samples lam LA garbage A by_parent st set_list (map f X) =
  hdbscan_points complete dim root wzero min_samples lam LA garbage A by_parent st set_list X.
Proof. exact @hdbscan_moved. Qed.
Print Assumptions C63_moving_keeps_clusters.

Theorem C63_moving_keeps_branches :
  forall (W V : WOrd) (complete : point -> bool) (dim : nat) (root inverse_root : Qc -> W) (as_q : V -> Qc) (wzero : W) (min_samples : nat) (f : point -> point),
  motion dim f -> (forall p, complete (f p) = complete p) ->
  forall (lam : W -> V) (LA : LamArith V) (garbage : nat -> V) (A : Arith V NatSize) (by_parent : list (crow V NatSize) -> list (crow V NatSize))
         (st : settings V NatSize) (set_list : list nat -> list nat) (round : W -> W) (sort_row : list (nat * W) -> list (nat * W)) (average : V -> V -> V) (one : V)
         (no_lens : W) (cluster_of : list (edge W) -> res (list Z * list V))
         (propagate : joined V W * list (list nat * sub_result W V) -> res ((nat -> Z) * (nat -> Z))) (flag sides : bool) (X : list point),
  branches_of_points complete dim root inverse_root as_q wzero min_samples lam LA garbage A by_parent st set_list round sort_row average one no_lens cluster_of propagate
    flag sides (map f X) =
  branches_of_points complete dim root inverse_root as_q wzero min_samples lam LA garbage A by_parent st set_list round sort_row average one no_lens cluster_of propagate
    flag sides X.
Proof. exact @branches_moved. Qed.
Print Assumptions C63_moving_keeps_branches.

(** The lens values that a branch detector reports are these, each at its own
    sample, for all clusters of data without missing values. *)
Theorem C63_reported_lens :
  forall (W V : WOrd) (complete : point -> bool) (dim : nat) (root inverse_root : Qc -> W) (as_q : V -> Qc) (wzero : W) (min_samples : nat)
         (lam : W -> V) (LA : LamArith V) (garbage : nat -> V) (A : Arith V NatSize) (by_parent : list (crow V NatSize) -> list (crow V NatSize))
         (st : settings V NatSize) (set_list : list nat -> list nat) (round : W -> W) (sort_row : list (nat * W) -> list (nat * W)) (average : V -> V -> V) (one : V)
         (no_lens : W) (cluster_of : list (edge W) -> res (list Z * list V))
         (propagate : joined V W * list (list nat * sub_result W V) -> res ((nat -> Z) * (nat -> Z))) (flag sides : bool) (X : list point)
         (r : fitted W V NatSize) (b : detected W V),
  hdbscan_points complete dim root wzero min_samples lam LA garbage A by_parent st set_list X = Ok r ->
  length (f_labels r) = length X -> (forall row, In row (f_condensed r) -> wlt (la_zero LA) (c_lam row) = true) ->
  branches_of_points complete dim root inverse_root as_q wzero min_samples lam LA garbage A by_parent st set_list round sort_row average one no_lens cluster_of propagate
    flag sides X = Ok b ->
  forall pts, In pts (d_points b) ->
  exists rows ss c, values_at X pts rows /\ values_at (f_probabilities r) pts ss /\ qsum (map as_q ss) <> 0%Qc /\ balances dim rows (map as_q ss) c /\
    map (fun x => nth x (d_lens b) no_lens) pts = map (fun p => inverse_root (squared_distance dim p c)) rows.
Proof. exact @branch_lens. Qed.
Print Assumptions C63_reported_lens.

(** And with missing values. *)
Theorem C63_reported_lens_missing :
  forall (W V : WOrd) (complete : point -> bool) (dim : nat) (root inverse_root : Qc -> W) (as_q : V -> Qc) (wzero : W) (min_samples : nat)
         (lam : W -> V) (LA : LamArith V) (garbage : nat -> V) (A : Arith V NatSize) (by_parent : list (crow V NatSize) -> list (crow V NatSize))
         (st : settings V NatSize) (set_list : list nat -> list nat) (round : W -> W) (sort_row : list (nat * W) -> list (nat * W)) (average : V -> V -> V) (one : V)
         (no_lens : W) (cluster_of : list (edge W) -> res (list Z * list V))
         (propagate : joined V W * list (list nat * sub_result W V) -> res ((nat -> Z) * (nat -> Z))) (flag sides : bool) (X : list point)
         (r0 r : fitted W V NatSize) (b : detected W V),
  (forall l, Permutation (set_list l) l) -> forallb complete X = false ->
  hdbscan_points complete dim root wzero min_samples lam LA garbage A by_parent st set_list (filter complete X) = Ok r0 ->
  (forall row, In row (f_condensed r0) -> wlt (la_zero LA) (c_lam row) = true) ->
  hdbscan_points complete dim root wzero min_samples lam LA garbage A by_parent st set_list X = Ok r ->
  branches_of_points complete dim root inverse_root as_q wzero min_samples lam LA garbage A by_parent st set_list round sort_row average one no_lens cluster_of propagate
    flag sides X = Ok b ->
  forall pts, In pts (d_points b) ->
  exists rows ss c, values_at X pts rows /\ values_at (f_probabilities r) pts ss /\ qsum (map as_q ss) <> 0%Qc /\ balances dim rows (map as_q ss) c /\
    map (fun x => nth x (d_lens b) no_lens) pts = map (fun p => inverse_root (squared_distance dim p c)) rows.
Proof. exact @branch_lens_missing. Qed.
Print Assumptions C63_reported_lens_missing.

(** A quarter turn with a shift is such a motion. *)
Example C63_turn_applies : motion 2 turned /\ forall p, plane_complete (turned p) = plane_complete p.
Proof. exact (conj turned_motion turned_complete). Qed.
Example C63_strengths_apply : strength_number (la_zero ExactLam) (la_one ExactLam) strength_q.
Proof. exact exact_strength_number. Qed.

(** A bar has two branches, on the two sides of its middle; three samples far away
    have none. *)
Example C63_example :
  seen (plane_branches false true bar) =
  Ok ([0; 0; 0; 0; -1; 0; 0; 0; 1; 1; 1]%Z, [1; 1; 1; 0; -1; 2; 2; 2; 3; 3; 3]%Z, [0; 0; 0; -1; 0; 1; 1; 1; -1; -1; -1]%Z, [[0; 1; 2; 3; 5; 6; 7]; [8; 9; 10]]).
Proof. vm_compute. reflexivity. Qed.
Example C63_example_turned : map turned bar <> bar /\ seen (plane_branches false true (map turned bar)) = seen (plane_branches false true bar).
Proof. split; [intro H; apply (f_equal (fun l => map (map this) l)) in H; vm_compute in H; discriminate|vm_compute; reflexivity]. Qed.

(** The same rows without the missing one: the hypotheses of C63_reported_lens, and
    the lens values, greatest in the middle. *)
Definition whole_bar : list point := filter plane_complete bar.
Definition whole_fit : res (fitted QInf QInf NatSize) :=
  hdbscan_points (W := QInf) (V := QInf) plane_complete 2 plane_root (Some 0%Qc) 2 hdbscan_lambda_value ExactLam (fun _ => None) (ExactArith NatSize nat_as_q) by_parent_of
    (exact_settings (Sz := NatSize) 3 Eom false 0%Qc 0%Qc) (fun l => l) whole_bar.
Example C63_example_lens :
  match whole_fit, plane_branches false true whole_bar with
  | Ok r, Ok b => length (f_labels r) = length whole_bar /\ forallb (fun row => wlt (W := QInf) (la_zero ExactLam) (c_lam row)) (f_condensed r) = true /\
      d_points b = [[0; 1; 2; 3; 4; 5; 6]; [7; 8; 9]] /\ map (fun x => match nth x (d_lens b) (Some 0%Qc) with Some a => Some (this a) | None => None end) [0; 1; 2; 3; 4; 5; 6] =
        [Some (1 # 9); Some (1 # 4); Some 1; None; Some 1; Some (1 # 4); Some (1 # 9)]%Q
  | _, _ => False
  end.
Proof. vm_compute. repeat split; reflexivity. Qed.

(** With the missing row, whose lens value is zero: whole_fit is the fit of the
    other rows. *)
Example C63_example_lens_missing :
  forallb plane_complete bar = false /\
  match plane_branches false true bar with
  | Ok b => map (fun x => match nth x (d_lens b) (Some 1%Qc) with Some a => Some (this a) | None => None end) [0; 1; 2; 3; 4; 5; 6; 7] =
      [Some (1 # 9); Some (1 # 4); Some 1; None; Some 0; Some 1; Some (1 # 4); Some (1 # 9)]%Q
  | _ => False
  end.
Proof. vm_compute. split; reflexivity. Qed.

(** The sample in the middle; strengths zero. *)
Example C63_example_centre : centrality_seen (given_centrality [1; 1; 1; 1; 0]%Z) = Ok [Some (1 # 4); None; Some (1 # 4); Some (1 # 8)]%Q.
Proof. vm_compute. reflexivity. Qed.
Example C63_example_no_strength : given_centrality [0; 1; 0; 0; 0]%Z = Err ZeroDivisionError.
Proof. vm_compute. reflexivity. Qed.
