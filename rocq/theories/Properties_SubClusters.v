(** C38, C39, C47: sub-clusters, label propagation and branches. *)
From Coq Require Import List Arith Bool ZArith QArith Qcanon Permutation Sorted.
From Verif Require Import Prelude Order Graph Size Num M_Precomputed M_Linkage M_Condense M_Select M_Labels M_CoreGraph M_Pipeline M_LayerTree M_SubClusters
  M_LensGraph S_CoreGraph S_Labels S_Pipeline S_LayerTree S_SubClusters P_EpsilonTop P_PipelineEx P_SubClusters P_Propagate P_PropagateTop P_Branches
  P_LensGraph P_SubRun P_SubTop P_SubEx.
Import ListNotations.
Local Open Scope nat_scope.

(** C38.  Joining the results of clusters without a common sample, whose
    sub-labels have no gaps: every sample keeps its sub-label, its two
    probabilities are averaged, and samples share a final label exactly if they
    share cluster and sub-label.  Other samples are noise. *)
Theorem C38_joined_labels :
  forall (P Lens : Type) (average : P -> P -> P) (zero : P) (no_lens : Lens) (cluster_probabilities : nat -> P) (pieces : list (piece P Lens)),
  separate (map pc_points pieces) -> (forall c, In c pieces -> good_piece c) ->
  exists s, update_labels average zero no_lens cluster_probabilities pieces = Ok s /\
    (forall x, ~ In x (concat (map pc_points pieces)) ->
       j_labels s x = (-1)%Z /\ j_sub s x = 0%Z /\ j_sub_probs s x = zero /\ j_probs s x = cluster_probabilities x /\ j_lens s x = no_lens) /\
    (forall c i x, In c pieces -> nth_error (pc_points c) i = Some x ->
       nth_error (pc_labels c) i = Some (j_sub s x) /\ nth_error (pc_probs c) i = Some (j_sub_probs s x) /\
       nth_error (pc_lens c) i = Some (j_lens s x) /\ j_probs s x = average (cluster_probabilities x) (j_sub_probs s x)) /\
    refines (map pc_points pieces) (fun _ x y => j_sub s x = j_sub s y) (j_labels s) /\
    consecutive (map pc_points pieces) (j_labels s).
Proof. exact @update_labels_ok. Qed.
Print Assumptions C38_joined_labels.

(** C38.  The branch labels of a detector: clusters that have a hierarchy and at
    most [count] branches stay whole, in the others branches are told apart; the
    clusters stay apart. *)
Theorem C38_branches :
  forall (P : Type) (sides : bool) (branch : nat -> Z) (cluster_probabilities : nat -> P) (clusters : list (list nat * bool)) (labels : nat -> Z) (probs : nat -> P),
  let count := if sides then 1 else 2 in
  separate (map fst clusters) -> (forall c, In c clusters -> gap_free (map branch (fst c))) ->
  exists labels' probs', apply_branch_threshold sides clusters branch cluster_probabilities labels probs = Ok (labels', probs') /\
    (forall x, ~ In x (concat (map fst clusters)) -> labels' x = labels x /\ probs' x = probs x) /\
    (forall c x, In c clusters -> In x (fst c) ->
       (snd c = true /\ few_labels count branch (fst c) -> probs' x = cluster_probabilities x) /\
       (~ (snd c = true /\ few_labels count branch (fst c)) -> probs' x = probs x)) /\
    refines (map fst clusters) (fun k x y => (exists c, nth_error clusters k = Some c /\ snd c = true /\ few_labels count branch (fst c)) \/ branch x = branch y) labels' /\
    consecutive (map fst clusters) labels'.
Proof. intros P sides branch cp clusters labels probs count. exact (branches_ok count branch cp clusters labels probs). Qed.
Print Assumptions C38_branches.

(** C39.  In one cluster: if the edges respect [v], every unlabelled sample is
    connected to a labelled one and there is fuel for as many rounds as samples,
    propagation ends.  One after the other, unlabelled samples adopt a label with
    the most votes among their neighbours, until none is left; labelled samples
    keep their labels. *)
Theorem C39_propagation_in_a_cluster :
  forall (W N : WOrd) (inv : W -> res N) (nadd : N -> N -> N) (nzero : N) (g : csr W) (ls : list Z) (v : nat -> nat -> N) (fuel : nat),
  in_range (length ls) (csr_entries g) -> votes_are inv (csr_entries g) v ->
  reachable (csr_entries g) (length ls) (values ls) -> length ls <= fuel ->
  exists ls', propagate_labels_per_cluster inv nadd nzero fuel g ls = Ok ls' /\ length ls' = length ls /\
    votes_lead nadd nzero (csr_entries g) v (values ls) (values ls') /\
    (forall x, x < length ls -> values ls' x <> (-1)%Z /\ In (values ls' x) ls) /\
    (forall x, x < length ls -> values ls x <> (-1)%Z -> values ls' x = values ls x).
Proof. exact @propagate_one. Qed.
Print Assumptions C39_propagation_in_a_cluster.

(** C39.  Only then: if a sample is connected to no labelled one, the loop never
    ends. *)
Theorem C39_propagation_never_ends :
  forall (W N : WOrd) (inv : W -> res N) (nadd : N -> N -> N) (nzero : N) (g : csr W) (ls : list Z) (v : nat -> nat -> N) (x : nat),
  in_range (length ls) (csr_entries g) -> votes_are inv (csr_entries g) v ->
  x < length ls -> (forall y, connected (csr_entries g) x y -> values ls y = (-1)%Z) ->
  forall fuel, propagate_labels_per_cluster inv nadd nzero fuel g ls = Err OutOfFuel.
Proof. exact @propagate_forever. Qed.
Print Assumptions C39_propagation_never_ends.

(** C39.  Over all clusters, each with a labelled sample: afterwards no sample of a
    cluster is unlabelled and the clusters stay apart. *)
Theorem C39_propagation :
  forall (W N : WOrd) (inv : W -> res N) (nadd : N -> N -> N) (nzero : N) (fuel : nat) (clusters : list (list nat * csr W)) (labels sub : nat -> Z),
  separate (map fst clusters) -> (forall c, In c clusters -> good_graph inv fuel sub c) ->
  exists labels' sub', propagate_sub_cluster_labels inv nadd nzero fuel labels sub clusters = Ok (labels', sub') /\
    (forall x, ~ In x (concat (map fst clusters)) -> labels' x = labels x /\ sub' x = sub x) /\
    (forall c, In c clusters -> voted inv nadd nzero sub sub' c) /\
    refines (map fst clusters) (fun _ x y => sub' x = sub' y) labels' /\ consecutive (map fst clusters) labels'.
Proof. exact @propagate_ok. Qed.
Print Assumptions C39_propagation.

(** C47.  A complete run.  Whatever the neighbours, the spanning tree and the lens
    values of a clustering whose clusters have two samples, and whose samples have
    a neighbour in their cluster, with lens values of positive density: the run
    ends; the final labels split the clusters by sub-label; the sub-labels of a
    cluster are the components of its lens graph, or else the clusters of a
    spanning tree of it; probabilities are averaged. *)
Theorem C47_sub_clusters_of_a_run :
  forall (W V : WOrd) (round : W -> W) (sort_row : list (nat * W) -> list (nat * W)),
  (forall l, Permutation (sort_row l) l /\ sorted_by (fun cw : nat * W => snd cw) (sort_row l)) ->
  forall (lam : W -> V) (LA : LamArith V) (A : Arith V NatSize) (garbage : nat -> V) (by_parent : list (crow V NatSize) -> list (crow V NatSize))
         (st : settings V NatSize),
  setting_ok lam LA A by_parent st -> root_ok st -> cluster_selection_persistence st = None ->
  forall (labels : list Z) (neighbors : list (list (option nat))) (mst : list (edge W)) (lens_callback : nat -> list W) (K : nat),
  sub_input labels neighbors mst lens_callback K ->
  (forall k a, k < K -> In a (lens_callback k) -> wlt (la_zero LA) (lam (round a)) = true) ->
  forall (average : V -> V -> V) (no_lens : W) (probabilities : nat -> V),
  exists s cs, find_sub_clusters round sort_row average (la_zero LA) (la_one LA) no_lens (cluster_tree lam LA A garbage by_parent st) labels probabilities
                 neighbors mst lens_callback = Ok (s, cs) /\
    splits labels (fun x y => j_sub s x = j_sub s y) (j_labels s) /\
    (forall k, k < K -> exists p E tree, cluster_points labels k p /\ lens_edges round neighbors mst p (lens_callback k) E /\
       explained (la_one LA) (cluster_tree lam LA A garbage by_parent st) (length p) E (map (j_sub s) p) (map (j_sub_probs s) p) tree) /\
    (forall x, x < length labels -> nth x labels (-1)%Z = (-1)%Z -> j_probs s x = probabilities x) /\
    (forall x, x < length labels -> nth x labels (-1)%Z <> (-1)%Z -> j_probs s x = average (probabilities x) (j_sub_probs s x)).
Proof. exact @find_ok. Qed.
Print Assumptions C47_sub_clusters_of_a_run.

(** C47, C38.  The probabilities stay between zero and one. *)
Theorem C47_probabilities :
  forall (W V : WOrd) (round : W -> W) (sort_row : list (nat * W) -> list (nat * W)),
  (forall l, Permutation (sort_row l) l /\ sorted_by (fun cw : nat * W => snd cw) (sort_row l)) ->
  forall (lam : W -> V) (LA : LamArith V) (A : Arith V NatSize) (garbage : nat -> V) (by_parent : list (crow V NatSize) -> list (crow V NatSize))
         (st : settings V NatSize),
  setting_ok lam LA A by_parent st -> root_ok st -> cluster_selection_persistence st = None ->
  forall (labels : list Z) (neighbors : list (list (option nat))) (mst : list (edge W)) (lens_callback : nat -> list W) (K : nat),
  sub_input labels neighbors mst lens_callback K ->
  (forall k a, k < K -> In a (lens_callback k) -> wlt (la_zero LA) (lam (round a)) = true) ->
  forall (average : V -> V -> V) (no_lens : W) (probabilities : nat -> V) s cs,
  let unit p := wle (la_zero LA) p = true /\ wle p (la_one LA) = true in
  find_sub_clusters round sort_row average (la_zero LA) (la_one LA) no_lens (cluster_tree lam LA A garbage by_parent st) labels probabilities
    neighbors mst lens_callback = Ok (s, cs) ->
  (forall p q, unit p -> unit q -> unit (average p q)) -> wle (la_zero LA) (la_one LA) = true -> (forall x, unit (probabilities x)) ->
  forall x, unit (j_probs s x) /\ unit (j_sub_probs s x).
Proof. exact @find_unit. Qed.
Print Assumptions C47_probabilities.

(** C47, C39.  The same run with propagation, if every cluster has a sample with a
    sub-label and the lens values can be inverted: it ends, every sample of a
    cluster has a sub-label, clusters stay apart, and the new sub-labels arise by
    majority votes over the lens graph. *)
Theorem C47_propagated_labels_of_a_run :
  forall (W V : WOrd) (round : W -> W) (sort_row : list (nat * W) -> list (nat * W)),
  (forall l, Permutation (sort_row l) l /\ sorted_by (fun cw : nat * W => snd cw) (sort_row l)) ->
  forall (lam : W -> V) (LA : LamArith V) (A : Arith V NatSize) (garbage : nat -> V) (by_parent : list (crow V NatSize) -> list (crow V NatSize))
         (st : settings V NatSize),
  setting_ok lam LA A by_parent st -> root_ok st -> cluster_selection_persistence st = None ->
  forall (labels : list Z) (neighbors : list (list (option nat))) (mst : list (edge W)) (lens_callback : nat -> list W) (K : nat),
  sub_input labels neighbors mst lens_callback K ->
  (forall k a, k < K -> In a (lens_callback k) -> wlt (la_zero LA) (lam (round a)) = true) ->
  forall (average : V -> V -> V) (no_lens : W) (probabilities : nat -> V)
         (Nu : WOrd) (inv : W -> res Nu) (nadd : Nu -> Nu -> Nu) (nzero : Nu),
  (forall k a, k < K -> In a (lens_callback k) -> exists v, inv (round a) = Ok v) ->
  (forall a b, wle a b = true -> wle b a = true -> inv (round a) = inv (round b)) ->
  forall s cs (fuel : nat),
  find_sub_clusters round sort_row average (la_zero LA) (la_one LA) no_lens (cluster_tree lam LA A garbage by_parent st) labels probabilities
    neighbors mst lens_callback = Ok (s, cs) ->
  length labels <= fuel ->
  (forall k, k < K -> exists x, nth_error labels x = Some (Z.of_nat k) /\ j_sub s x <> (-1)%Z) ->
  exists labels' sub', propagated inv nadd nzero fuel (s, cs) = Ok (labels', sub') /\
    splits labels (fun x y => sub' x = sub' y) labels' /\
    (forall x, x < length labels -> nth x labels (-1)%Z <> (-1)%Z -> sub' x <> (-1)%Z /\ (j_sub s x <> (-1)%Z -> sub' x = j_sub s x)) /\
    (forall k, k < K -> exists p E v, cluster_points labels k p /\ lens_edges round neighbors mst p (lens_callback k) E /\
       votes_are inv E v /\ votes_lead nadd nzero E v (fun i => nth i (map (j_sub s) p) 0%Z) (fun i => nth i (map sub' p) 0%Z)).
Proof. exact @propagated_ok. Qed.
Print Assumptions C47_propagated_labels_of_a_run.

(** C47, C38.  The branches of the same run: clusters with a connected lens graph
    and few branches stay whole, the others are split into their branches. *)
Theorem C47_branches_of_a_run :
  forall (W V : WOrd) (round : W -> W) (sort_row : list (nat * W) -> list (nat * W)),
  (forall l, Permutation (sort_row l) l /\ sorted_by (fun cw : nat * W => snd cw) (sort_row l)) ->
  forall (lam : W -> V) (LA : LamArith V) (A : Arith V NatSize) (garbage : nat -> V) (by_parent : list (crow V NatSize) -> list (crow V NatSize))
         (st : settings V NatSize),
  setting_ok lam LA A by_parent st -> root_ok st -> cluster_selection_persistence st = None ->
  forall (labels : list Z) (neighbors : list (list (option nat))) (mst : list (edge W)) (lens_callback : nat -> list W) (K : nat),
  sub_input labels neighbors mst lens_callback K ->
  (forall k a, k < K -> In a (lens_callback k) -> wlt (la_zero LA) (lam (round a)) = true) ->
  forall (average : V -> V -> V) (no_lens : W) (probabilities : nat -> V) (sides : bool) (cluster_probabilities : nat -> V) s cs,
  find_sub_clusters round sort_row average (la_zero LA) (la_one LA) no_lens (cluster_tree lam LA A garbage by_parent st) labels probabilities
    neighbors mst lens_callback = Ok (s, cs) ->
  exists labels' probs' (merge : nat -> Prop), branches sides cluster_probabilities (s, cs) = Ok (labels', probs') /\
    splits labels (fun x y => merge (Z.to_nat (nth x labels (-1)%Z)) \/ j_sub s x = j_sub s y) labels' /\
    (forall x, x < length labels -> nth x labels (-1)%Z <> (-1)%Z ->
       (merge (Z.to_nat (nth x labels (-1)%Z)) -> probs' x = cluster_probabilities x) /\
       (~ merge (Z.to_nat (nth x labels (-1)%Z)) -> probs' x = j_probs s x)) /\
    (forall k, k < K -> exists p E, cluster_points labels k p /\ lens_edges round neighbors mst p (lens_callback k) E /\
       (merge k <-> (forall i j, i < length p -> j < length p -> connected E i j) /\ few_labels (if sides then 1 else 2) (j_sub s) p)).
Proof. exact @branches_run_ok. Qed.
Print Assumptions C47_branches_of_a_run.

(** ** What the code gets wrong *)
(** C38 is false with infinite lens values, which compute_centrality yields for
    samples at the centroid: sub-labels get gaps and samples of two clusters share
    a final label. *)
Theorem C38_infinite_lens_refuted : exists labels neighbors lens_callback s cs x y,
  sub_input labels neighbors [] lens_callback 2 /\
  exact_run Leaf 2 labels neighbors [] lens_callback = Ok (s, cs) /\
  x < length labels /\ y < length labels /\ nth x labels (-1)%Z = 0%Z /\ nth y labels (-1)%Z = 1%Z /\ j_labels s x = j_labels s y.
Proof. exact infinite_lens_refuted. Qed.
Print Assumptions C38_infinite_lens_refuted.

(** C38 is false if a sample lacks a neighbour: index -1 is read as the last
    sample, and the lens graph joins samples that nothing links. *)
Theorem C38_missing_neighbour_refuted : exists labels neighbors lens_callback s cs E x y,
  lens_edges (fun w => w) neighbors [] [0; 1; 2; 3] (lens_callback 0) E /\ ~ connected E x y /\ x < 4 /\ y < 4 /\
  exact_run Eom 2 labels neighbors [] lens_callback = Ok (s, cs) /\ labels = [0; 0; 0; 0]%Z /\ j_labels s x = j_labels s y.
Proof. exact missing_neighbour_refuted. Qed.
Print Assumptions C38_missing_neighbour_refuted.

(** find_branch_sub_clusters never returns. *)
Theorem C38_branch_function_refuted :
  forall (W V : WOrd) (found : res (joined V W * list (list nat * sub_result W V))) r, find_branch_sub_clusters found <> Ok r.
Proof. intros W V [?|?] r H; discriminate. Qed.
Print Assumptions C38_branch_function_refuted.

(** C39 is false if a cluster has no sub-clusters: after propagation all of it
    shares the label of a sub-cluster of another cluster. *)
Theorem C39_clusters_stay_apart_refuted : exists labels neighbors mst lens_callback s cs labels' sub' x y,
  sub_input labels neighbors mst lens_callback 2 /\
  (forall k a, k < 2 -> In a (lens_callback k) -> wlt (la_zero ExactLam) (hdbscan_lambda_value a) = true) /\
  exact_run Eom 3 labels neighbors mst lens_callback = Ok (s, cs) /\
  propagated exact_inv exact_add (Some 0%Qc : QInf) (length labels) (s, cs) = Ok (labels', sub') /\
  x < length labels /\ y < length labels /\ nth x labels (-1)%Z = 0%Z /\ nth y labels (-1)%Z = 1%Z /\ labels' x = labels' y.
Proof. exact no_sub_clusters_refuted. Qed.
Print Assumptions C39_clusters_stay_apart_refuted.

(** C39 is false with lens values zero: the votes divide by zero. *)
Theorem C39_zero_lens_refuted : exists labels neighbors lens_callback s cs,
  sub_input labels neighbors [] lens_callback 1 /\
  (forall a, In a (lens_callback 0) -> wlt (la_zero ExactLam) (hdbscan_lambda_value a) = true) /\
  exact_run Eom 3 labels neighbors [] lens_callback = Ok (s, cs) /\
  forall fuel, propagated exact_inv exact_add (Some 0%Qc : QInf) fuel (s, cs) = Err ZeroDivisionError.
Proof. exact zero_lens_refuted. Qed.
Print Assumptions C39_zero_lens_refuted.

(** C39 is false if a sample has no neighbour in its cluster, as user-supplied
    labels may have it: an edge that does not exist puts it into the spanning tree,
    and propagation never ends. *)
Theorem C39_isolated_sample_refuted : exists labels neighbors lens_callback s cs x,
  (forall l, In l labels -> l = 0%Z) /\ x < length labels /\ j_sub s x <> (-1)%Z /\
  (forall a b, a < length labels -> linked neighbors ([] : list (edge QInf)) a b -> b < length labels /\ b <> a) /\
  exact_run Eom 3 labels neighbors [] lens_callback = Ok (s, cs) /\
  forall fuel, propagated exact_inv exact_add (Some 0%Qc : QInf) fuel (s, cs) = Err OutOfFuel.
Proof. exact isolated_refuted. Qed.
Print Assumptions C39_isolated_sample_refuted.

(** ** Examples *)
Example C47_example_input : sub_input sub_labels sub_neighbors sub_mst sub_lens 2.
Proof. apply sub_check_ok. vm_compute. reflexivity. Qed.
Example C47_example_positive : forall k a, k < 2 -> In a (sub_lens k) -> wlt (la_zero ExactLam) (hdbscan_lambda_value a) = true.
Proof. exact sub_positive. Qed.
Example C47_example_votes : forall k a, k < 2 -> In a (sub_lens k) -> exists v, exact_inv a = Ok v.
Proof. exact sub_votes. Qed.
Example C47_example_sorts : forall l, Permutation (exact_sort l) l /\ sorted_by (fun cw : nat * QInf => snd cw) (exact_sort l).
Proof. exact exact_sorts. Qed.
Example C47_example_same : forall a b : QInf, wle a b = true -> wle b a = true -> exact_inv a = exact_inv b.
Proof. exact exact_inv_same. Qed.
(** Sample 7 is an outlier of the first cluster; propagation moves it to a
    sub-cluster. *)
Example C47_example_labels : see_run 13 sub_example = Some [1; 1; 1; 1; 2; 2; 2; 0; 3; 3; 4; 4; -1]%Z.
Proof. vm_compute. reflexivity. Qed.
Example C47_example_propagated : see_propagated 13 sub_example = Some [0; 0; 0; 0; 1; 1; 1; 0; 2; 2; 3; 3; -1]%Z.
Proof. vm_compute. reflexivity. Qed.
Example C47_example_branches : see_branches 13 false sub_example = Some [0; 0; 0; 0; 0; 0; 0; 0; 1; 1; 2; 2; -1]%Z.
Proof. vm_compute. reflexivity. Qed.
Example C47_example_sides : see_branches 13 true sub_example = Some [1; 1; 1; 1; 2; 2; 2; 0; 3; 3; 4; 4; -1]%Z.
Proof. vm_compute. reflexivity. Qed.
(** C38 on pieces that are not from a run. *)
Example C38_example_joined :
  match update_labels (fun a b : nat => a + b) 0 0 (fun _ => 10)
          [{| pc_points := [4; 1; 2]; pc_labels := [-1; 0; 1]%Z; pc_probs := [0; 5; 6]; pc_lens := [1; 2; 3] |};
           {| pc_points := [0; 5]; pc_labels := [0; 0]%Z; pc_probs := [7; 8]; pc_lens := [4; 5] |}] with
  | Ok s => Some (map (j_labels s) (seq 0 6), map (j_sub s) (seq 0 6), map (j_probs s) (seq 0 6))
  | Err _ => None
  end = Some ([3; 1; 2; -1; 0; 3]%Z, [0; 0; 1; 0; -1; 0]%Z, [17; 15; 16; 10; 10; 18]).
Proof. vm_compute. reflexivity. Qed.
