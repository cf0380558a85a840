(** C52, C53: sub-clusters of data with missing values, and propagating labels
    later. *)
From Coq Require Import List Arith Bool ZArith Permutation QArith Qcanon.
From Verif Require Import Prelude Order Graph Size Num S_Kruskal M_Kruskal M_KruskalEntry M_Precomputed M_Linkage S_Linkage M_Condense S_Condense
  M_Select M_Labels M_Pipeline S_Pipeline M_Estimator S_Estimator M_SubClusters M_LensGraph M_Detector S_Detector
  P_EpsilonTop P_PipelineEx P_EstimatorEx P_SubEx P_Detector P_DetectorTop P_Later P_DetectorEx.
Import ListNotations.
Local Open Scope nat_scope.

(** C52.  Fit a clustering to data with missing values, and detect sub-clusters
    (or branches) of it.  The finite rows get what they get when the others are
    left out from the start; the others are noise of strength zero.  If no
    spanning tree edge has density zero, that is, if all its edges are finite. *)
Theorem C52_missing_rows_left_out :
  forall (W V : WOrd) (Row : Type) (lam : W -> V) (LA : LamArith V) (garbage : nat -> V)
         (mst_of : list Row -> res (list (edge W))) (finite : Row -> bool) (set_list : list nat -> list nat) (X : list Row),
  (forall l, Permutation (set_list l) l) -> forallb finite X = false -> 3 <= length (filter finite X) ->
  forall (round : W -> W) (sort_row : list (nat * W) -> list (nat * W)) (average : V -> V -> V) (one : V) (no_lens : W)
         (cluster_of : list (edge W) -> res (list Z * list V))
         (propagate : joined V W * list (list nat * sub_result W V) -> res ((nat -> Z) * (nat -> Z)))
         (A : Arith V NatSize) (by_parent : list (crow V NatSize) -> list (crow V NatSize)) (st : settings V NatSize)
         (M : list (edge W)) (r0 r : fitted W V NatSize) (pos : nat -> nat),
  setting_ok lam LA A by_parent st -> mst_of (filter finite X) = Ok M -> spanning_tree (length (filter finite X)) M ->
  (forall e, In e M -> wlt (la_zero LA) (lam (ewt e)) = true) ->
  let run := fast_hdbscan lam LA garbage mst_of A by_parent st in
  run (filter finite X) = Ok r0 -> fit (la_zero LA) finite set_list run X = Ok r -> places finite X pos ->
  picked (length X) (length (filter finite X)) pos (f_labels r) (f_labels r0) /\
  picked (length X) (length (filter finite X)) pos (f_probabilities r) (f_probabilities r0) /\
  detects_same round sort_row average (la_zero LA) one no_lens cluster_of propagate finite X r0 r pos.
Proof. exact @detect_after_fit. Qed.
Print Assumptions C52_missing_rows_left_out.

(** The same for a clustering with sample weights. *)
Theorem C52_weighted_missing_rows_left_out :
  forall (W V : WOrd) (Row : Type) (lam : W -> V) (LA : LamArith V) (garbage : nat -> V)
         (mst_of : list Row -> res (list (edge W))) (finite : Row -> bool) (set_list : list nat -> list nat) (X : list Row),
  (forall l, Permutation (set_list l) l) -> forallb finite X = false -> 3 <= length (filter finite X) ->
  forall (round : W -> W) (sort_row : list (nat * W) -> list (nat * W)) (average : V -> V -> V) (one : V) (no_lens : W)
         (cluster_of : list (edge W) -> res (list Z * list V))
         (propagate : joined V W * list (list nat * sub_result W V) -> res ((nat -> Z) * (nat -> Z)))
         (Sz : SOrd) (weight : Row -> Sz) (A : Arith V Sz) (by_parent : list (crow V Sz) -> list (crow V Sz)) (st : settings V Sz)
         (M : list (edge W)) (r0 r : fitted W V Sz) (pos : nat -> nat),
  setting_ok lam LA A by_parent st -> mst_of (filter finite X) = Ok M -> spanning_tree (length (filter finite X)) M ->
  sle (s := Sz) szero sone = true -> (forall x, In x X -> finite x = true -> slt (weight x) (min_cluster_size st) = true) ->
  (forall e, In e M -> wlt (la_zero LA) (lam (ewt e)) = true) ->
  let run := fast_hdbscan_weighted lam LA garbage mst_of weight A by_parent st in
  run (filter finite X) = Ok r0 -> fit (la_zero LA) finite set_list run X = Ok r -> places finite X pos ->
  picked (length X) (length (filter finite X)) pos (f_labels r) (f_labels r0) /\
  picked (length X) (length (filter finite X)) pos (f_probabilities r) (f_probabilities r0) /\
  detects_same round sort_row average (la_zero LA) one no_lens cluster_of propagate finite X r0 r pos.
Proof. exact @detect_after_fit_weighted. Qed.
Print Assumptions C52_weighted_missing_rows_left_out.

(** Without rows of density zero in the tree, no row is left out. *)
Theorem C52_finite_data_unchanged :
  forall (W V : WOrd) (Sz : SOrd) (Row : Type) (round : W -> W) (sort_row : list (nat * W) -> list (nat * W)) (average : V -> V -> V) (zero one : V)
         (no_lens : W) (cluster_of : list (edge W) -> res (list Z * list V))
         (propagate : joined V W * list (list nat * sub_result W V) -> res ((nat -> Z) * (nat -> Z)))
         (flag : bool) (data : list Row) (T : list (crow V Sz)) (labels : list Z) (probs : list V) (neighbors : list (list (option nat)))
         (mst : list (edge W)) (lens : lens_input W V Row),
  (forall r, In r T -> wlt zero (c_lam r) = true) ->
  detect round sort_row average zero one no_lens cluster_of propagate flag data T labels probs neighbors mst lens =
  if forallb (fun l => (l =? -1)%Z) labels then Err ValueError else
  let* lens := lens_of no_lens lens (length data) None data probs in
  detect_rows round sort_row average zero one no_lens cluster_of propagate flag data labels probs neighbors mst lens.
Proof. exact @detect_plain. Qed.
Print Assumptions C52_finite_data_unchanged.

(** Rows 2 and 8 are missing.  Cluster 1 has two sub-clusters. *)
Example C52_example :
  seen (line_run false CLNone 3 2 some_X (LensValues some_lens)) =
  Ok ([1; 1; -1; 1; 1; 1; 1; 0; -1; 0; 0]%Z, [1; 1; -1; 1; 1; 2; 2; 0; -1; 0; 0]%Z, [0; 0; 0; 0; 0; 1; 1; -1; 0; -1; -1]%Z,
      [[7; 9; 10]; [0; 1; 3; 4; 5; 6]]).
Proof. vm_compute. reflexivity. Qed.
Example C52_example_left_out :
  seen (line_run false CLNone 3 2 (filter present some_X) (LensValues [q 1; q 1; q 1; q 6; q 2; q 2; q 1; q 1; q 1])) =
  Ok ([1; 1; 1; 1; 1; 1; 0; 0; 0]%Z, [1; 1; 1; 1; 2; 2; 0; 0; 0]%Z, [0; 0; 0; 0; 1; 1; -1; -1; -1]%Z, [[6; 7; 8]; [0; 1; 2; 3; 4; 5]]).
Proof. vm_compute. reflexivity. Qed.
Example C52_example_applies :
  forallb present some_X = false /\ length (filter present some_X) = 9 /\
  match line_mst CLNone (filter present some_X) with
  | Ok M => length M = 8 /\ forallb (fun e => wlt (la_zero ExactLam) (hdbscan_lambda_value (ewt e))) M = true
  | Err _ => False
  end.
Proof. vm_compute. repeat split. Qed.

(** Samples of finite data that leave the hierarchy at density zero are mistaken
    for missing rows.  The others are then numbered anew, but the spanning tree
    is not: detection always fails. *)
Theorem C52_zero_density_fails :
  forall (W V : WOrd) (Sz : SOrd) (Row : Type) (round : W -> W) (sort_row : list (nat * W) -> list (nat * W)) (average : V -> V -> V) (zero one : V)
         (no_lens : W) (cluster_of : list (edge W) -> res (list Z * list V))
         (propagate : joined V W * list (list nat * sub_result W V) -> res ((nat -> Z) * (nat -> Z)))
         (data : list Row) (T1 T2 : list (crow V Sz)) (labels : list Z) (probs : list V) (neighbors : list (list (option nat)))
         (mst : list (edge W)) (lens : lens_input W V Row) (flag : bool),
  let n := length data in
  spanning_tree n mst -> 2 <= n -> length labels = n -> length probs = n ->
  (forall r, In r T1 -> wlt zero (c_lam r) = false) -> (forall r, In r T2 -> wlt zero (c_lam r) = true) ->
  (exists r, In r T1 /\ c_child r < n) ->
  exists e, detect round sort_row average zero one no_lens cluster_of propagate flag data (T1 ++ T2) labels probs neighbors mst lens = Err e.
Proof. exact @detect_fails. Qed.
Print Assumptions C52_zero_density_fails.

(** It does happen: finite data, seven samples on a line, and one cannot-link
    pair.  The clustering has two clusters; sample 6 is left alone. *)
Theorem C52_cannot_link_refuted :
  exists X constraints lens r, forallb present X = true /\
    line_model constraints 3 X = Ok r /\ f_labels r = [1; 1; 1; 0; 0; 0; -1]%Z /\
    map (fun r => (c_parent r, c_child r)) (f_condensed r) = [(7, 6); (7, 8); (7, 9); (8, 4); (8, 3); (8, 5); (9, 1); (9, 0); (9, 2)] /\
    line_run false constraints 3 2 X (LensValues lens) = Err IndexError.
Proof. exact far_fails. Qed.
Print Assumptions C52_cannot_link_refuted.

(** Without the pair there is a result. *)
Example C52_without_the_pair :
  seen (line_run false CLNone 3 2 far_X (LensValues far_lens)) =
  Ok ([1; 1; 1; 0; 0; 0; -1]%Z, [1; 1; 1; 0; 0; 0; -1]%Z, [-1; -1; -1; -1; -1; -1; 0]%Z, [[3; 4; 5]; [0; 1; 2]]).
Proof. vm_compute. reflexivity. Qed.

(** The strength of samples in no cluster: sub_cluster_probabilities_ is 0 for those
    that are noise, but 1 for those with missing values. *)
Theorem C52_sub_strength_of_samples_in_no_cluster_refuted :
  exists X lens labels strengths x y, sub_strengths_seen (line_run false CLNone 3 2 X (LensValues lens)) = Ok (labels, strengths) /\
  nth_error labels x = Some (-1)%Z /\ nth_error labels y = Some (-1)%Z /\ nth_error strengths x = Some (Some 0%Q) /\ nth_error strengths y = Some (Some 1%Q).
Proof. exact sub_strengths_differ. Qed.
Print Assumptions C52_sub_strength_of_samples_in_no_cluster_refuted.

(** C53.  Detecting with label propagation gives the result of detecting without,
    with the labels that [propagated_labels] returns.  For every tree, with and
    without missing values. *)
Theorem C53_propagating_later :
  forall (W V N : WOrd) (Sz : SOrd) (Row : Type) (round : W -> W) (sort_row : list (nat * W) -> list (nat * W)) (average : V -> V -> V) (zero one : V)
         (no_lens : W) (cluster_of : list (edge W) -> res (list Z * list V)) (inv : W -> res N) (nadd : N -> N -> N) (nzero : N) (fuel : nat)
         (data : list Row) (T : list (crow V Sz)) (labels : list Z) (probs : list V) (neighbors : list (list (option nat)))
         (mst : list (edge W)) (lens : lens_input W V Row),
  length labels = length data -> length probs = length data ->
  let detect := detect (Sz := Sz) (Row := Row) round sort_row average zero one no_lens cluster_of (propagated inv nadd nzero fuel) in
  detect true data T labels probs neighbors mst lens =
  let* d := detect false data T labels probs neighbors mst lens in
  let* ls := propagated_labels inv nadd nzero fuel d in Ok (with_labels d ls).
Proof. exact @later_ok. Qed.
Print Assumptions C53_propagating_later.

(** Branches: [propagated_labels(sides)] gives the labels and branch labels that
    fitting with propagation and [sides] gives, however it was fitted. *)
Theorem C53_branches_later :
  forall (W V N : WOrd) (Sz : SOrd) (Row : Type) (round : W -> W) (sort_row : list (nat * W) -> list (nat * W)) (average : V -> V -> V) (zero one : V)
         (no_lens : W) (cluster_of : list (edge W) -> res (list Z * list V)) (inv : W -> res N) (nadd : N -> N -> N) (nzero : N) (fuel : nat)
         (data : list Row) (T : list (crow V Sz)) (labels : list Z) (probs : list V) (neighbors : list (list (option nat)))
         (mst : list (edge W)) (lens : lens_input W V Row) (sides0 sides : bool),
  length labels = length data -> length probs = length data ->
  let detect := detect (Sz := Sz) (Row := Row) round sort_row average zero one no_lens cluster_of (propagated inv nadd nzero fuel) in
  (let* d := detect false data T labels probs neighbors mst lens in
   let* b := branch_fit zero sides0 d in branch_propagated_labels zero inv nadd nzero fuel sides b) =
  (let* d := detect true data T labels probs neighbors mst lens in
   let* b := branch_fit zero sides d in Ok (d_labels b, d_sub b)).
Proof. exact @branch_later. Qed.
Print Assumptions C53_branches_later.

(** With propagation and without; rows 2 and 8 are missing. *)
Example C53_example :
  seen (line_run true CLNone 3 2 some_X (LensValues some_lens)) =
    Ok ([1; 1; -1; 1; 1; 1; 1; 0; -1; 0; 0]%Z, [1; 1; -1; 1; 1; 2; 2; -1; -1; -1; -1]%Z, [0; 0; 0; 0; 0; 1; 1; -1; 0; -1; -1]%Z,
        [[7; 9; 10]; [0; 1; 3; 4; 5; 6]]) /\
  (let* d := line_run false CLNone 3 2 some_X (LensValues some_lens) in propagated_labels exact_inv exact_add (Some 0%Qc : QInf) 11 d) =
    Ok ([1; 1; -1; 1; 1; 2; 2; -1; -1; -1; -1]%Z, [0; 0; 0; 0; 0; 1; 1; -1; 0; -1; -1]%Z).
Proof. split; vm_compute; reflexivity. Qed.
