(** C70: how densities and cuts respond to changes of the data. *)
From Coq Require Import List Arith Lia Bool ZArith Permutation QArith Qcanon.
From Verif Require Import Prelude Order Graph Size Num M_Linkage M_Condense S_Condense M_Select M_Labels P_LabelsEx M_Pipeline S_Pipeline P_PipelineEx
  M_Estimator S_Estimator P_EstimatorEx P_Sort S_Dbscan P_EpsilonTop S_Level S_Join S_Vary P_Vary Properties_Dbscan Properties_Level.
Import ListNotations.
Local Open Scope nat_scope.

(** Adding samples, bringing samples nearer to each other, and lowering min_samples
    or min_cluster_size never lowers the density at which a sample leaves. *)
Theorem C70_densities_rise :
  forall (W V : WOrd) (Row Row' : Type) (lam : W -> V) (LA : LamArith V) (zero : W)
    (dist : Row -> Row -> W) (finite : Row -> bool) (X : list Row) (min_samples : nat) (st : settings V NatSize) (r : fitted W V NatSize)
    (dist' : Row' -> Row' -> W) (finite' : Row' -> bool) (X' : list Row') (min_samples' : nat) (st' : settings V NatSize) (r' : fitted W V NatSize) (g : nat -> nat),
  fits lam LA zero dist finite min_samples X st r -> fits lam LA zero dist' finite' min_samples' X' st' r' -> placed (length X) (length X') g ->
  min_samples' <= min_samples ->
  min_cluster_size st <= length (filter finite X) -> min_cluster_size st' <= length (filter finite' X') -> min_cluster_size st' <= min_cluster_size st ->
  cluster_selection_persistence st = None -> cluster_selection_persistence st' = None ->
  forall p a a', nth_error X p = Some a -> finite a = true -> nth_error X' (g p) = Some a' -> finite' a' = true ->
  forall u v, In u (f_condensed r) -> c_child u = p -> In v (f_condensed r') -> c_child v = g p ->
  (forall i j, i < length X -> j < length X -> wle (row_distance finite' dist' X' (g i) (g j)) (row_distance finite dist X i j) = true) ->
  wle (c_lam u) (c_lam v) = true.
Proof. exact @densities_rise. Qed.
Print Assumptions C70_densities_rise.

(** Under the same changes, samples that a cut puts in one cluster are in one
    cluster of the cut at that distance, or a larger one, afterwards. *)
Theorem C70_cuts_grow :
  forall (W V : WOrd) (Row Row' : Type) (lam : W -> V) (LA : LamArith V) (zero : W)
    (dist : Row -> Row -> W) (finite : Row -> bool) (X : list Row) (min_samples : nat) (st : settings V NatSize) (r : fitted W V NatSize)
    (dist' : Row' -> Row' -> W) (finite' : Row' -> bool) (X' : list Row') (min_samples' : nat) (st' : settings V NatSize) (r' : fitted W V NatSize) (g : nat -> nat),
  fits lam LA zero dist finite min_samples X st r -> fits lam LA zero dist' finite' min_samples' X' st' r' -> placed (length X) (length X') g ->
  min_samples' <= min_samples ->
  (forall i j, i < length X -> j < length X -> wle (row_distance finite' dist' X' (g i) (g j)) (row_distance finite dist X i j) = true) ->
  forall eps eps' labels labels', wle eps eps' = true ->
  dbscan_clustering r eps min_samples = Ok labels -> dbscan_clustering r' eps' min_samples' = Ok labels' ->
  forall p q, p < length X -> q < length X -> (0 <= nth p labels (-2))%Z -> nth p labels (-2)%Z = nth q labels (-2)%Z ->
  (0 <= nth (g p) labels' (-2))%Z /\ nth (g p) labels' (-2)%Z = nth (g q) labels' (-2)%Z.
Proof. exact @cuts_grow. Qed.
Print Assumptions C70_cuts_grow.

(** If every distance grows at most as [f] says, then so does the distance at which
    each sample joins a large enough group. *)
Theorem C70_densities_near :
  forall (W V : WOrd) (Row Row' : Type) (lam : W -> V) (LA : LamArith V) (zero : W)
    (dist : Row -> Row -> W) (finite : Row -> bool) (X : list Row) (min_samples : nat) (st : settings V NatSize) (r : fitted W V NatSize)
    (dist' : Row' -> Row' -> W) (finite' : Row' -> bool) (X' : list Row') (min_samples' : nat) (st' : settings V NatSize) (r' : fitted W V NatSize) (g : nat -> nat),
  fits lam LA zero dist finite min_samples X st r -> fits lam LA zero dist' finite' min_samples' X' st' r' -> placed (length X) (length X') g ->
  min_samples' <= min_samples ->
  min_cluster_size st <= length (filter finite X) -> min_cluster_size st' <= length (filter finite' X') -> min_cluster_size st' <= min_cluster_size st ->
  cluster_selection_persistence st = None -> cluster_selection_persistence st' = None ->
  forall p a a', nth_error X p = Some a -> finite a = true -> nth_error X' (g p) = Some a' -> finite' a' = true ->
  forall u v, In u (f_condensed r) -> c_child u = p -> In v (f_condensed r') -> c_child v = g p ->
  forall f, (forall x y, wlt x y = true -> wlt (f x) (f y) = true) ->
  (forall i j, i < length X -> j < length X -> wle (row_distance finite' dist' X' (g i) (g j)) (f (row_distance finite dist X i j)) = true) ->
  exists d d', c_lam u = lam d /\ c_lam v = lam d' /\ forall eps, wlt d eps = true -> wlt d' (f eps) = true.
Proof. exact @densities_near. Qed.
Print Assumptions C70_densities_near.

(** In exact numbers: if no distance changes by more than [delta], then no sample's
    leaving distance changes by more than [delta].  So moving every sample by at
    most [delta / 2] has a bounded effect, however the clusters change. *)
Theorem C70_exact_distances_near :
  forall (V : WOrd) (Row Row' : Type) (lam : QInf -> V) (LA : LamArith V) (zero : QInf)
    (dist : Row -> Row -> QInf) finite X min_samples (st : settings V NatSize) r (dist' : Row' -> Row' -> QInf) finite' X' r' delta,
  fits lam LA zero dist finite min_samples X st r -> fits lam LA zero dist' finite' min_samples X' st r' -> length X = length X' ->
  min_cluster_size st <= length (filter finite X) -> min_cluster_size st <= length (filter finite' X') -> cluster_selection_persistence st = None ->
  (forall i j, i < length X -> j < length X ->
     wle (row_distance finite' dist' X' i j) (later delta (row_distance finite dist X i j)) = true /\
     wle (row_distance finite dist X i j) (later delta (row_distance finite' dist' X' i j)) = true) ->
  forall p a a', nth_error X p = Some a -> finite a = true -> nth_error X' p = Some a' -> finite' a' = true ->
  forall u v, In u (f_condensed r) -> c_child u = p -> In v (f_condensed r') -> c_child v = p ->
  exists d d', c_lam u = lam d /\ c_lam v = lam d' /\ wle d' (later delta d) = true /\ wle d (later delta d') = true.
Proof. exact @exact_near. Qed.
Print Assumptions C70_exact_distances_near.

(** ** Examples *)

(** Every run of the examples is a fit. *)
Example C70_example_fits : forall mcs m single ms X r, 2 <= mcs -> (if forallb present X then 2 else 3) <= length (filter present X) ->
  level_line mcs m single 0 ms X = Ok r ->
  fits (W := QInf) (V := QInf) hdbscan_lambda_value ExactLam (Some 0%Qc) line_dist present ms X (exact_settings (Sz := NatSize) mcs m single (Q2Qc (inject_Z 0)) 0%Qc) r.
Proof.
  intros mcs m single ms X r Hm Hn E. destruct C66_example_hypotheses as (H1 & H2 & H3 & _ & _).
  exists (fun _ => None), (fun l => l), (ExactArith NatSize nat_as_q), by_parent_of. split; [intro; apply Permutation_refl|].
  split; [|exact (conj H1 (conj H2 (conj H3 (conj Hn E))))].
  apply exact_ok; [|apply nat_mcs; lia]. split; [apply Permutation_sym, nsort_perm|apply nsort_sorted].
Qed.
Definition densities (r : fitted QInf QInf NatSize) (n : nat) : list Q :=
  map (fun x => match find (fun q => c_child q =? x) (f_condensed r) with Some q => match c_lam q with Some l => this l | None => 0%Q end | None => 0%Q end) (seq 0 n).
(** Two samples are added at 24 and 4; the first nine keep their places. *)
Example C70_example : exists r r', level_line 3 Eom false 0 2 dense_rows = Ok r /\ level_line 2 Eom false 0 2 (dense_rows ++ [Some 24; Some 4]%Z) = Ok r' /\
  placed (length dense_rows) (length (dense_rows ++ [Some 24; Some 4]%Z)) (fun i => i) /\
  densities r 9 = [1 # 2; 0; 1 # 2; 1 # 2; 1 # 2; 1 # 2; 1 # 2; 1 # 2; 1 # 9]%Q /\
  densities r' 9 = [1 # 2; 0; 1; 1; 1; 1 # 2; 1 # 2; 1 # 2; 1 # 8]%Q.
Proof.
  eexists _, _. split; [vm_compute; reflexivity|]. split; [vm_compute; reflexivity|]. split; [split; [cbn; lia|auto]|].
  split; vm_compute; reflexivity.
Qed.
(** Samples moved by one at most. *)
Definition moved_rows : list (option Z) := [Some (-1); None; Some 1; Some 3; Some 3; Some 9; Some 11; Some 13; Some 19]%Z.
Example C70_example_near : exists r, level_line 3 Eom false 0 2 moved_rows = Ok r /\ densities r 9 = [1 # 4; 0; 1 # 2; 1 # 2; 1 # 2; 1 # 4; 1 # 4; 1 # 4; 1 # 8]%Q /\
  forall i j, i < 9 -> j < 9 ->
    wle (w := QInf) (row_distance present line_dist moved_rows i j) (later (Q2Qc (inject_Z 2)) (row_distance present line_dist dense_rows i j)) = true /\
    wle (w := QInf) (row_distance present line_dist dense_rows i j) (later (Q2Qc (inject_Z 2)) (row_distance present line_dist moved_rows i j)) = true.
Proof.
  eexists. split; [vm_compute; reflexivity|]. split; [vm_compute; reflexivity|]. intros i j Hi Hj.
  assert (K : forallb (fun i => forallb (fun j =>
    wle (w := QInf) (row_distance present line_dist moved_rows i j) (later (Q2Qc (inject_Z 2)) (row_distance present line_dist dense_rows i j)) &&
    wle (w := QInf) (row_distance present line_dist dense_rows i j) (later (Q2Qc (inject_Z 2)) (row_distance present line_dist moved_rows i j))) (seq 0 9)) (seq 0 9) = true)
    by (vm_compute; reflexivity).
  rewrite forallb_forall in K. specialize (K i ltac:(apply in_seq; lia)). rewrite forallb_forall in K. specialize (K j ltac:(apply in_seq; lia)). now apply andb_true_iff in K.
Qed.
