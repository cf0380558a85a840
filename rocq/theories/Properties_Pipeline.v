(** C08, C28, C43, C44: complete runs of clusters_from_spanning_tree. *)
From Coq Require Import List Arith Bool ZArith QArith Qcanon.
From Verif Require Import Prelude Order Graph Size Num S_Kruskal S_Precomputed M_Kruskal M_KruskalEntry M_Precomputed
  M_Linkage S_Linkage M_Condense S_Condense M_Select M_Labels S_Labels M_Epsilon P_EpsilonTop M_Simplify M_Pipeline S_Pipeline
  S_Select P_PipelineEx P_PipelineMeaning P_PersistEmpty P_PersistLinks.
Import ListNotations.
Local Open Scope nat_scope.

(** C43.  For every spanning tree of at least two samples, every arithmetic and
    every combination of settings with a minimum size above one sample: the run
    ends with a clustering (strengths in [0, 1], noise has strength 0, every
    cluster has a sample of strength 1), or fails because of a persistence
    threshold on a hierarchy without splits. *)
Theorem C43_runs_complete :
  forall (W V : WOrd) (lam : W -> V) (LA : LamArith V) (A : Arith V NatSize) (garbage : nat -> V)
         (by_parent : list (crow V NatSize) -> list (crow V NatSize)) (st : settings V NatSize) (n : nat) (M : list (edge W)),
  setting_ok lam LA A by_parent st -> spanning_tree n M -> 2 <= n ->
  completes LA st n (fun _ => 1) (clusters_from_spanning_tree lam LA A garbage by_parent st M).
Proof. exact @plain_total. Qed.
Print Assumptions C43_runs_complete.

(** The same with sample weights below the minimum size. *)
Theorem C43_weighted_runs_complete :
  forall (W V : WOrd) (lam : W -> V) (LA : LamArith V) (Sz : SOrd) (A : Arith V Sz) (garbage : nat -> V)
         (by_parent : list (crow V Sz) -> list (crow V Sz)) (st : settings V Sz) (n : nat) (M : list (edge W)) (ws : list Sz),
  setting_ok lam LA A by_parent st -> spanning_tree n M -> 2 <= n -> length ws = n -> sle (s := Sz) szero sone = true ->
  (forall w, In w ws -> slt w (min_cluster_size st) = true) ->
  completes LA st n (fun x => nth x ws szero) (clusters_from_spanning_tree_weighted lam LA A garbage by_parent st M ws).
Proof. exact @weighted_total. Qed.
Print Assumptions C43_weighted_runs_complete.

(** C43 in exact arithmetic, for every epsilon: without a persistence threshold
    there is no failure at all. *)
Theorem C43_exact_runs_complete :
  forall (garbage : nat -> QInf) (by_parent : list (crow QInf NatSize) -> list (crow QInf NatSize))
         (mcs : nat) (m : selection_method) (allow_single : bool) (epsilon persistence : Qc) (n : nat) (M : list (edge QInf)),
  sorts_by_parent by_parent -> 2 <= mcs -> spanning_tree n M -> 2 <= n -> (persistence <= 0)%Qc ->
  exists ls ps T, exact_clusters garbage by_parent (exact_settings (Sz := NatSize) mcs m allow_single epsilon persistence) M = Ok (ls, ps, T) /\
    clustering (V := QInf) (Some 0%Qc) (Some 1%Qc) n ls ps.
Proof. exact @exact_run. Qed.
Print Assumptions C43_exact_runs_complete.

(** C28.  If all merge heights have positive density (finite distances), every
    reported cluster carries at least the minimum weight and the labels are
    0, 1, ..., k - 1. *)
Theorem C28_runs_report_large_clusters :
  forall (W V : WOrd) (lam : W -> V) (LA : LamArith V) (A : Arith V NatSize) (garbage : nat -> V)
         (by_parent : list (crow V NatSize) -> list (crow V NatSize)) (st : settings V NatSize) (n : nat) (M : list (edge W))
         (ls : list Z) (ps : list V) (T : list (crow V NatSize)),
  setting_ok lam LA A by_parent st -> root_ok st -> spanning_tree n M -> 2 <= n ->
  (forall e, In e M -> wlt (la_zero LA) (lam (ewt e)) = true) ->
  clusters_from_spanning_tree lam LA A garbage by_parent st M = Ok (ls, ps, T) ->
  large_clusters (Sz := NatSize) n (fun _ => 1) (min_cluster_size st) ls /\ numbered n ls.
Proof. exact @plain_sizes. Qed.
Print Assumptions C28_runs_report_large_clusters.

Theorem C28_weighted_clusters_are_heavy :
  forall (W V : WOrd) (lam : W -> V) (LA : LamArith V) (Sz : SOrd) (A : Arith V Sz) (garbage : nat -> V)
         (by_parent : list (crow V Sz) -> list (crow V Sz)) (st : settings V Sz) (n : nat) (M : list (edge W)) (ws : list Sz)
         (ls : list Z) (ps : list V) (T : list (crow V Sz)),
  setting_ok lam LA A by_parent st -> root_ok st -> spanning_tree n M -> 2 <= n ->
  (forall e, In e M -> wlt (la_zero LA) (lam (ewt e)) = true) ->
  length ws = n -> sle (s := Sz) szero sone = true ->
  (forall w, In w ws -> sle szero w = true /\ slt w (min_cluster_size st) = true) ->
  clusters_from_spanning_tree_weighted lam LA A garbage by_parent st M ws = Ok (ls, ps, T) ->
  large_clusters n (fun x => nth x ws szero) (min_cluster_size st) ls /\ numbered n ls.
Proof. exact @weighted_sizes. Qed.
Print Assumptions C28_weighted_clusters_are_heavy.

(** C28 in exact arithmetic, by counting. *)
Theorem C28_exact_clusters_are_large :
  forall (garbage : nat -> QInf) (by_parent : list (crow QInf NatSize) -> list (crow QInf NatSize))
         (mcs : nat) (m : selection_method) (allow_single : bool) (epsilon persistence : Qc) (n : nat) (M : list (edge QInf))
         (ls : list Z) (ps : list QInf) (T : list (crow QInf NatSize)),
  sorts_by_parent by_parent -> 2 <= mcs -> spanning_tree n M -> 2 <= n -> (forall x, In x M -> wfinite (ewt x) = true) ->
  (allow_single = true -> m = Eom -> (epsilon <= 0)%Qc /\ (persistence <= 0)%Qc) ->
  exact_clusters garbage by_parent (exact_settings (Sz := NatSize) mcs m allow_single epsilon persistence) M = Ok (ls, ps, T) ->
  numbered n ls /\
  forall x, x < n -> nth x ls 0%Z <> (-1)%Z ->
    exists ys, NoDup ys /\ (forall y, In y ys <-> y < n /\ nth y ls 0%Z = nth x ls 0%Z) /\ mcs <= length ys.
Proof. exact @exact_sizes. Qed.
Print Assumptions C28_exact_clusters_are_large.

Theorem C28_exact_weighted_clusters_are_heavy :
  forall (garbage : nat -> QInf) (by_parent : list (crow QInf QcSize) -> list (crow QInf QcSize))
         (mcs : Qc) (m : selection_method) (allow_single : bool) (epsilon persistence : Qc) (n : nat) (M : list (edge QInf)) (ws : list Qc)
         (ls : list Z) (ps : list QInf) (T : list (crow QInf QcSize)),
  sorts_by_parent by_parent -> (1 < mcs)%Qc -> spanning_tree n M -> 2 <= n -> (forall x, In x M -> wfinite (ewt x) = true) ->
  length ws = n -> (forall w, In w ws -> (0 <= w /\ w < mcs)%Qc) ->
  (allow_single = true -> m = Eom -> (epsilon <= 0)%Qc /\ (persistence <= 0)%Qc) ->
  exact_clusters_weighted garbage by_parent (exact_settings (Sz := QcSize) mcs m allow_single epsilon persistence) M ws = Ok (ls, ps, T) ->
  numbered n ls /\ large_clusters (Sz := QcSize) n (fun x => nth x ws 0%Qc) mcs ls.
Proof. exact @exact_sizes_weighted. Qed.
Print Assumptions C28_exact_weighted_clusters_are_heavy.

(** C08.  Without a persistence threshold, two samples share a cluster only if
    edges of positive density of the spanning tree connect them. *)
Theorem C08_clusters_are_connected :
  forall (W V : WOrd) (lam : W -> V) (LA : LamArith V) (A : Arith V NatSize) (garbage : nat -> V)
         (by_parent : list (crow V NatSize) -> list (crow V NatSize)) (st : settings V NatSize) (n : nat) (M : list (edge W))
         (Z0 N P : num A -> Prop) (ls : list Z) (ps : list V) (T : list (crow V NatSize)),
  setting_ok lam LA A by_parent st -> ScoreLaws lam A (la_zero LA) Z0 N P -> cluster_selection_persistence st = None ->
  spanning_tree n M -> 2 <= n ->
  clusters_from_spanning_tree lam LA A garbage by_parent st M = Ok (ls, ps, T) ->
  forall x y, x < n -> y < n -> nth x ls 0%Z <> (-1)%Z -> nth x ls 0%Z = nth y ls 0%Z ->
  connected (passing (fun w => wlt (la_zero LA) (lam w)) M) x y.
Proof. exact @plain_together. Qed.
Print Assumptions C08_clusters_are_connected.

(** C08.  On every bridged spanning tree, samples that must not be linked share
    no label but noise. *)
Theorem C08_cannot_link_reaches_the_labels :
  forall (W V : WOrd) (lam : W -> V) (LA : LamArith V) (A : Arith V NatSize) (garbage : nat -> V)
         (by_parent : list (crow V NatSize) -> list (crow V NatSize)) (st : settings V NatSize) (n : nat) (CL : cannot_link)
         (E M : list (edge W)) (Z0 N P : num A -> Prop) (ls : list Z) (ps : list V) (T : list (crow V NatSize)),
  setting_ok lam LA A by_parent st -> ScoreLaws lam A (la_zero LA) Z0 N P -> cluster_selection_persistence st = None ->
  wlt (la_zero LA) (lam winf) = false -> bridged_result n CL E M -> 2 <= n ->
  clusters_from_spanning_tree lam LA A garbage by_parent st M = Ok (ls, ps, T) ->
  forall x y, x < n -> y < n -> CL x y -> nth x ls 0%Z = nth y ls 0%Z -> nth x ls 0%Z = (-1)%Z.
Proof. exact @plain_cannot_link. Qed.
Print Assumptions C08_cannot_link_reaches_the_labels.

Theorem C08_weighted_cannot_link_reaches_the_labels :
  forall (garbage : nat -> QInf) (by_parent : list (crow QInf QcSize) -> list (crow QInf QcSize))
         (mcs : Qc) (m : selection_method) (allow_single : bool) (epsilon persistence : Qc) (n : nat) (CL : cannot_link)
         (E M : list (edge QInf)) (ws : list Qc),
  sorts_by_parent by_parent -> (1 < mcs)%Qc -> 2 <= n -> (persistence <= 0)%Qc -> bridged_result n CL E M ->
  length ws = n -> (forall w, In w ws -> (w < mcs)%Qc) ->
  exists ls ps T, exact_clusters_weighted garbage by_parent (exact_settings (Sz := QcSize) mcs m allow_single epsilon persistence) M ws = Ok (ls, ps, T) /\
    clustering (V := QInf) (Some 0%Qc) (Some 1%Qc) n ls ps /\
    forall x y, x < n -> y < n -> CL x y -> nth x ls 0%Z = nth y ls 0%Z -> nth x ls 0%Z = (-1)%Z.
Proof. exact @exact_cannot_link_weighted. Qed.
Print Assumptions C08_weighted_cannot_link_reaches_the_labels.

(** C08 from the user's arguments to the labels: precomputed sparse distances. *)
Theorem C08_precomputed :
  forall (garbage : nat -> QInf) (by_parent : list (crow QInf NatSize) -> list (crow QInf NatSize))
         (mcs : nat) (m : selection_method) (allow_single : bool) (epsilon persistence : Qc),
  sorts_by_parent by_parent -> 2 <= mcs -> (persistence <= 0)%Qc ->
  forall (entries : list (edge QInf)) (n min_samples : nat) (X : option sparse) (groups : option (list Z)),
  2 <= n -> in_range n entries -> valid_constraints n X groups ->
  exists cl M nbrs core ls ps T,
    resolve_cl_params n X true groups = Ok cl /\
    precomputed_kruskal (Some 0%Qc : QInf) entries n min_samples cl = Ok (M, nbrs, core) /\
    exact_clusters garbage by_parent (exact_settings (Sz := NatSize) mcs m allow_single epsilon persistence) M = Ok (ls, ps, T) /\
    clustering (V := QInf) (Some 0%Qc) (Some 1%Qc) n ls ps /\
    forall x y, x < n -> y < n -> user_constraints (option_map sp_entries X) groups x y ->
      nth x ls 0%Z = nth y ls 0%Z -> nth x ls 0%Z = (-1)%Z.
Proof. exact @cl_precomputed. Qed.
Print Assumptions C08_precomputed.

(** C08 from feature vectors, brute force. *)
Theorem C08_brute_force :
  forall (garbage : nat -> QInf) (by_parent : list (crow QInf NatSize) -> list (crow QInf NatSize))
         (mcs : nat) (m : selection_method) (allow_single : bool) (epsilon persistence : Qc),
  sorts_by_parent by_parent -> 2 <= mcs -> (persistence <= 0)%Qc ->
  forall (D : nat -> nat -> QInf) (n min_samples : nat) (X : option sparse) (groups : option (list Z)),
  2 <= n -> valid_constraints n X groups ->
  exists cl M nbrs core ls ps T,
    resolve_cl_params n X true groups = Ok cl /\
    kruskal_mst_brute (Some 0%Qc : QInf) D n min_samples cl = Ok (M, nbrs, core) /\
    exact_clusters garbage by_parent (exact_settings (Sz := NatSize) mcs m allow_single epsilon persistence) M = Ok (ls, ps, T) /\
    clustering (V := QInf) (Some 0%Qc) (Some 1%Qc) n ls ps /\
    forall x y, x < n -> y < n -> user_constraints (option_map sp_entries X) groups x y ->
      nth x ls 0%Z = nth y ls 0%Z -> nth x ls 0%Z = (-1)%Z.
Proof. exact @cl_brute. Qed.
Print Assumptions C08_brute_force.

(** C08 from feature vectors, nearest-neighbour graph. *)
Theorem C08_nearest_neighbours :
  forall (garbage : nat -> QInf) (by_parent : list (crow QInf NatSize) -> list (crow QInf NatSize))
         (mcs : nat) (m : selection_method) (allow_single : bool) (epsilon persistence : Qc),
  sorts_by_parent by_parent -> 2 <= mcs -> (persistence <= 0)%Qc ->
  forall (query : nat -> list (list (option nat * QInf))) (min_samples knn_k : nat) (X : option sparse) (groups : option (list Z)) (n : nat),
  let k := if 1 <? min_samples then Nat.max knn_k min_samples + 1 else knn_k + 1 in
  2 <= n -> length (query k) = n -> (forall row j d, In row (query k) -> In (Some j, d) row -> j < n) ->
  valid_constraints n X groups ->
  exists cl M nbrs core ls ps T,
    resolve_cl_params n X true groups = Ok cl /\
    kruskal_mst_knn (Some 0%Qc : QInf) query min_samples knn_k cl = Ok (M, nbrs, core) /\
    exact_clusters garbage by_parent (exact_settings (Sz := NatSize) mcs m allow_single epsilon persistence) M = Ok (ls, ps, T) /\
    clustering (V := QInf) (Some 0%Qc) (Some 1%Qc) n ls ps /\
    forall x y, x < n -> y < n -> user_constraints (option_map sp_entries X) groups x y ->
      nth x ls 0%Z = nth y ls 0%Z -> nth x ls 0%Z = (-1)%Z.
Proof. exact @cl_knn. Qed.
Print Assumptions C08_nearest_neighbours.

(** C44 is false: with a persistence threshold two samples that must not be
    linked can get the same label. *)
Theorem C44_cannot_link_with_persistence_refuted :
  exists entries X cl M nbrs core ls ps T x y,
    in_range 6 entries /\ valid_constraints 6 (Some X) None /\
    resolve_cl_params 6 (Some X) true None = Ok cl /\
    precomputed_kruskal (Some 0%Qc : QInf) entries 6 1 cl = Ok (M, nbrs, core) /\
    exact_clusters (fun _ => None) by_parent_of (exact_settings (Sz := NatSize) 2 Eom false 0%Qc (Q2Qc (1 # 2))) M = Ok (ls, ps, T) /\
    user_constraints (Some (sp_entries X)) None x y /\
    nth x ls 0%Z = nth y ls 0%Z /\ nth x ls 0%Z <> (-1)%Z.
Proof. exact persistence_refuted. Qed.
Print Assumptions C44_cannot_link_with_persistence_refuted.

(** C44.  The property holds if the density of every finite edge of the spanning
    tree reaches the threshold: samples with one label are joined by finite edges,
    so pairs that must not be linked never share a cluster. *)
Theorem C44_labels_follow_finite_edges :
  forall (garbage : nat -> QInf) (by_parent : list (crow QInf NatSize) -> list (crow QInf NatSize))
         (mcs : nat) (m : selection_method) (allow_single : bool) (epsilon persistence : Qc) (n : nat) (M : list (edge QInf)) ls ps T,
  sorts_by_parent by_parent -> 2 <= mcs -> spanning_tree n M -> 2 <= n -> (0 < persistence)%Qc -> edges_within persistence M ->
  exact_clusters garbage by_parent (exact_settings (Sz := NatSize) mcs m allow_single epsilon persistence) M = Ok (ls, ps, T) ->
  forall x y, x < n -> y < n -> nth x ls 0%Z <> (-1)%Z -> nth x ls 0%Z = nth y ls 0%Z -> connected (passing wfinite M) x y.
Proof. exact exact_together_persist. Qed.
Print Assumptions C44_labels_follow_finite_edges.

Theorem C44_labels_follow_finite_edges_weighted :
  forall (garbage : nat -> QInf) (by_parent : list (crow QInf QcSize) -> list (crow QInf QcSize))
         (mcs : Qc) (m : selection_method) (allow_single : bool) (epsilon persistence : Qc) (n : nat) (M : list (edge QInf)) ws ls ps T,
  sorts_by_parent by_parent -> (1 < mcs)%Qc -> spanning_tree n M -> 2 <= n -> (0 < persistence)%Qc -> edges_within persistence M ->
  length ws = n -> (forall w, In w ws -> (w < mcs)%Qc) ->
  exact_clusters_weighted garbage by_parent (exact_settings (Sz := QcSize) mcs m allow_single epsilon persistence) M ws = Ok (ls, ps, T) ->
  forall x y, x < n -> y < n -> nth x ls 0%Z <> (-1)%Z -> nth x ls 0%Z = nth y ls 0%Z -> connected (passing wfinite M) x y.
Proof. exact exact_together_persist_weighted. Qed.
Print Assumptions C44_labels_follow_finite_edges_weighted.

Theorem C44_cannot_link_with_short_edges :
  forall (garbage : nat -> QInf) (by_parent : list (crow QInf NatSize) -> list (crow QInf NatSize))
         (mcs : nat) (m : selection_method) (allow_single : bool) (epsilon persistence : Qc) (n : nat)
         (CL : nat -> nat -> Prop) (E M : list (edge QInf)) ls ps T,
  sorts_by_parent by_parent -> 2 <= mcs -> 2 <= n -> (0 < persistence)%Qc -> edges_within persistence M -> bridged_result n CL E M ->
  exact_clusters garbage by_parent (exact_settings (Sz := NatSize) mcs m allow_single epsilon persistence) M = Ok (ls, ps, T) ->
  forall x y, x < n -> y < n -> CL x y -> nth x ls 0%Z = nth y ls 0%Z -> nth x ls 0%Z = (-1)%Z.
Proof. exact exact_cannot_link_persist. Qed.
Print Assumptions C44_cannot_link_with_short_edges.

(** The settings of the theorems exist, and such runs label samples. *)
Example C43_example_sorts : sorts_by_parent (V := QInf) (Sz := NatSize) by_parent_of.
Proof. exact ex_sorts. Qed.
Example C43_example_settings : forall epsilon persistence,
  setting_ok hdbscan_lambda_value ExactLam (ExactArith NatSize nat_as_q) by_parent_of
    (exact_settings (Sz := NatSize) 2 Eom false epsilon persistence).
Proof. intros. apply exact_ok; [exact ex_sorts|reflexivity]. Qed.
Example C08_example_constraints : in_range 6 ex_entries /\ valid_constraints 6 (Some ex_pairs) None.
Proof. exact (conj ex_range ex_valid). Qed.
(** Samples 0 and 2 must not be linked: without and with a persistence threshold. *)
Example C08_example_labels : ex_labels 0%Qc = Some [2; 2; 1; 1; 0; 0]%Z.
Proof. vm_compute. reflexivity. Qed.
(** The same constraints with a threshold that every finite edge reaches. *)
Example C44_example_short : ex_labels (Q2Qc (1 # 10)) = Some [2; 2; 1; 1; 0; 0]%Z.
Proof. vm_compute. reflexivity. Qed.
Example C44_example_edges :
  match resolve_cl_params 6 (Some ex_pairs) true None with
  | Err _ => None
  | Ok cl => match precomputed_kruskal (Some 0%Qc : QInf) ex_entries 6 1 cl with
    | Err _ => None
    | Ok (M, _, _) => Some (forallb (fun e => match ewt e with Some d => Qcleb (Q2Qc (1 # 10) * d) 1 | None => true end) M,
                            forallb (fun e => match ewt e with Some d => Qcleb (Q2Qc (1 # 2) * d) 1 | None => true end) M)
    end
  end = Some (true, false).
Proof. vm_compute. reflexivity. Qed.
Example C44_example_labels : ex_labels (Q2Qc (1 # 2)) = Some [0; 0; 0; 0; 1; 1]%Z.
Proof. vm_compute. reflexivity. Qed.

(** C28: two groups on a line joined by a finite edge, one sample far away;
    minimum size 3. *)
Definition ex_tree : list (edge QInf) :=
  [(0, 1, ex_q 1); (1, 2, ex_q 1); (2, 3, ex_q 9); (3, 4, ex_q 2); (4, 5, ex_q 2); (5, 6, ex_q 50)].
Example C28_example_finite : forallb (fun e => wfinite (ewt e)) ex_tree = true.
Proof. vm_compute. reflexivity. Qed.
Example C28_example_labels :
  match exact_clusters (fun _ => None) by_parent_of (exact_settings (Sz := NatSize) 3 Eom false 0%Qc 0%Qc) ex_tree with
  | Ok (ls, _, _) => Some ls
  | Err _ => None
  end = Some [1; 1; 1; 0; 0; 0; -1]%Z.
Proof. vm_compute. reflexivity. Qed.
Example C28_example_leaf_labels :
  match exact_clusters_weighted (fun _ => None) (fun ct => nsort c_parent ct) (exact_settings (Sz := QcSize) (Q2Qc (5 # 2)) Leaf false 0%Qc 0%Qc) ex_tree
          (repeat (Q2Qc (3 # 2)) 7) with
  | Ok (ls, _, _) => Some ls
  | Err _ => None
  end = Some [1; 1; 1; 0; 0; 0; -1]%Z.
Proof. vm_compute. reflexivity. Qed.
(** [allow_single_cluster] does not turn an unsplit hierarchy into a cluster. *)
Example C43_example_single :
  match exact_clusters (fun _ => None) by_parent_of (exact_settings (Sz := NatSize) 3 Eom true 0%Qc 0%Qc)
          [(0, 1, ex_q 1); (1, 2, ex_q 1); (2, 3, ex_q 1)] with
  | Ok (ls, _, _) => Some ls
  | Err _ => None
  end = Some [-1; -1; -1; -1]%Z.
Proof. vm_compute. reflexivity. Qed.

(** C45.  Every complete run can be explained stage by stage (see [explained]):
    single linkage of the spanning tree, condensation, simplification if asked
    for, the clusters of the chosen method, the epsilon search if asked for,
    labels by nearest selected cluster, strengths by relative density. *)
Theorem C45_runs_are_explained :
  forall (W V : WOrd) (lam : W -> V) (LA : LamArith V) (A : Arith V NatSize) (garbage : nat -> V)
         (by_parent : list (crow V NatSize) -> list (crow V NatSize)) (st : settings V NatSize) (n : nat) (M : list (edge W))
         (ls : list Z) (ps : list V) (T : list (crow V NatSize)),
  setting_ok lam LA A by_parent st -> spanning_tree n M -> 2 <= n ->
  clusters_from_spanning_tree lam LA A garbage by_parent st M = Ok (ls, ps, T) ->
  exists L T0 chosen final, explained lam LA st n (fun _ => 1) M ls ps T L T0 chosen final.
Proof. exact @c45. Qed.
Print Assumptions C45_runs_are_explained.

Theorem C45_weighted_runs_are_explained :
  forall (W V : WOrd) (lam : W -> V) (LA : LamArith V) (Sz : SOrd) (A : Arith V Sz) (garbage : nat -> V)
         (by_parent : list (crow V Sz) -> list (crow V Sz)) (st : settings V Sz) (n : nat) (M : list (edge W)) (ws : list Sz)
         (ls : list Z) (ps : list V) (T : list (crow V Sz)),
  setting_ok lam LA A by_parent st -> spanning_tree n M -> 2 <= n -> length ws = n -> sle (s := Sz) szero sone = true ->
  (forall w, In w ws -> slt w (min_cluster_size st) = true) ->
  clusters_from_spanning_tree_weighted lam LA A garbage by_parent st M ws = Ok (ls, ps, T) ->
  exists L T0 chosen final, explained lam LA st n (fun x => nth x ws szero) M ls ps T L T0 chosen final.
Proof. exact @c45_weighted. Qed.
Print Assumptions C45_weighted_runs_are_explained.

(** C45 in exact arithmetic: moreover 'eom' selects clusters of the largest total
    stability among all disjoint choices. *)
Theorem C45_exact_runs_are_optimal :
  forall (garbage : nat -> QInf) (by_parent : list (crow QInf NatSize) -> list (crow QInf NatSize))
         (mcs : nat) (m : selection_method) (allow_single : bool) (epsilon persistence : Qc) (n : nat) (M : list (edge QInf))
         (ls : list Z) (ps : list QInf) (T : list (crow QInf NatSize)),
  sorts_by_parent by_parent -> 2 <= mcs -> spanning_tree n M -> 2 <= n ->
  exact_clusters garbage by_parent (exact_settings (Sz := NatSize) mcs m allow_single epsilon persistence) M = Ok (ls, ps, T) ->
  exists L T0 chosen final,
    explained hdbscan_lambda_value ExactLam (exact_settings (Sz := NatSize) mcs m allow_single epsilon persistence) n (fun _ => 1) M ls ps T
      L T0 chosen final /\
    (m = Eom -> all_finite T -> cluster_rows n T <> [] ->
     forall Y, NoDup Y -> (forall c, In c Y -> admissible n T None allow_single c) -> disjoint_clusters n T Y ->
       (total_stability nat_as_q T Y <= total_stability nat_as_q T chosen)%Qc).
Proof. exact c45_exact. Qed.
Print Assumptions C45_exact_runs_are_optimal.

(** The four settings make a difference on one tree: two groups of four that
    split again, minimum size 2. *)
Definition ex_deep : list (edge QInf) :=
  [(0, 1, ex_q 1); (1, 2, ex_q 7); (2, 3, ex_q 1); (3, 4, ex_q 20); (4, 5, ex_q 4); (5, 6, ex_q 5); (6, 7, ex_q 4)].
Definition ex_run (m : selection_method) (allow : bool) (e p : Qc) : option (list Z) :=
  match exact_clusters (fun _ => None) by_parent_of (exact_settings (Sz := NatSize) 2 m allow e p) ex_deep with
  | Ok (ls, _, _) => Some ls
  | Err _ => None
  end.
Example C45_example_eom : ex_run Eom false 0%Qc 0%Qc = Some [2; 2; 1; 1; 0; 0; 0; 0]%Z.
Proof. vm_compute. reflexivity. Qed.
Example C45_example_leaf : ex_run Leaf false 0%Qc 0%Qc = Some [1; 1; 0; 0; 3; 3; 2; 2]%Z.
Proof. vm_compute. reflexivity. Qed.
Example C45_example_epsilon_6 : ex_run Leaf false (Q2Qc 6) 0%Qc = Some [2; 2; 1; 1; 0; 0; 0; 0]%Z.
Proof. vm_compute. reflexivity. Qed.
Example C45_example_epsilon_8 : ex_run Leaf false (Q2Qc 8) 0%Qc = Some [0; 0; 0; 0; 1; 1; 1; 1]%Z.
Proof. vm_compute. reflexivity. Qed.
Example C45_example_persistence : ex_run Leaf false 0%Qc (Q2Qc (1 # 2)) = Some [1; 1; 0; 0; -1; -1; -1; -1]%Z.
Proof. vm_compute. reflexivity. Qed.

(** C42.  A persistence threshold makes a run fail exactly when the hierarchy of
    the same data, settings and no threshold has no split; otherwise the run ends
    with a clustering. *)
Theorem C42_fails_exactly_without_splits :
  forall (garbage : nat -> QInf) (by_parent : list (crow QInf NatSize) -> list (crow QInf NatSize))
         (mcs : nat) (m : selection_method) (allow_single : bool) (epsilon persistence : Qc) (n : nat) (M : list (edge QInf)),
  sorts_by_parent by_parent -> 2 <= mcs -> spanning_tree n M -> 2 <= n -> (0 < persistence)%Qc ->
  exists ls0 ps0 T0,
    exact_clusters garbage by_parent (exact_settings (Sz := NatSize) mcs m allow_single epsilon 0%Qc) M = Ok (ls0, ps0, T0) /\
    (cluster_rows n T0 = [] ->
      exact_clusters garbage by_parent (exact_settings (Sz := NatSize) mcs m allow_single epsilon persistence) M = Err IndexError) /\
    (cluster_rows n T0 <> [] -> exists ls ps T,
      exact_clusters garbage by_parent (exact_settings (Sz := NatSize) mcs m allow_single epsilon persistence) M = Ok (ls, ps, T) /\
      clustering (V := QInf) (Some 0%Qc) (Some 1%Qc) n ls ps).
Proof. exact exact_unsplit. Qed.
Print Assumptions C42_fails_exactly_without_splits.

(** Both cases occur: the tree above never splits at minimum size 5. *)
Definition ex_outcome (mcs : nat) (p : Qc) : option (list Z) :=
  match exact_clusters (fun _ => None) by_parent_of (exact_settings (Sz := NatSize) mcs Eom false 0%Qc p) ex_deep with
  | Ok (ls, _, _) => Some ls
  | Err _ => None
  end.
Example C42_example_unsplit : ex_outcome 5 0%Qc = Some [-1; -1; -1; -1; -1; -1; -1; -1]%Z /\ ex_outcome 5 (Q2Qc (1 # 100)) = None.
Proof. split; vm_compute; reflexivity. Qed.
Example C42_example_split : ex_outcome 4 (Q2Qc (1 # 100)) = Some [0; 0; 0; 0; 1; 1; 1; 1]%Z.
Proof. vm_compute. reflexivity. Qed.
