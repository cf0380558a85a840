(** C34, C35, C36, C46: the multi-resolution clustering (PLSCAN). *)
From Coq Require Import List Arith Bool ZArith QArith Qcanon Sorted.
From Verif Require Import Prelude Order Size Num M_Linkage S_Linkage M_Condense S_Condense M_Select S_Select M_Labels S_Labels
  M_Layers S_Layers P_Peaks P_LayersRun P_LayerCurve P_LayerSelect P_LayerSearch P_LayersTop P_LayersBase P_LabelsEx P_LayersEx.
Import ListNotations.
Local Open Scope nat_scope.

(** C34.  For every linkage tree, minimum size and condensed tree with splits, the
    barcode exists and at every size from the minimum size up to the number of
    samples: the clusters alive are the root alone or at least two others, no
    sample is in two of them, and they are the leaf clusters one gets by condensing
    the linkage tree again with the next minimum size. *)
Theorem C34_alive_clusters_are_leaf_clusters :
  forall (W V : WOrd) (D : Type) (lam : W -> V) (n : nat) (L : list (lrow W NatSize)) (death_of : V -> D) (zero : D)
         (garbage : nat -> nat) (garbage_lambda : nat -> D) (m : nat) (T : list (crow V NatSize)),
  dendrogram n L -> sizes_are (Sz := NatSize) n (fun _ => 1) L -> 2 <= n -> 2 <= m ->
  tree_of lam n L m T -> cluster_rows n T <> [] ->
  exists b, min_cluster_size_barcode death_of zero n garbage garbage_lambda (cluster_rows n T) m = Ok b /\
    right_barcode n T death_of zero m b /\
    forall s, m <= s < n ->
      (alive b s = [0] \/ (~ In 0 (alive b s) /\ 2 <= length (alive b s))) /\
      (forall i j x, In i (alive b s) -> In j (alive b s) -> below n T (i + n) x -> below n T (j + n) x -> i = j) /\
      (forall T', tree_of lam n L (S s) T' ->
        (forall i, In i (alive b s) -> exists l, leaf_cluster n T' l /\ forall x, below n T (i + n) x <-> below n T' l x) /\
        (forall l, leaf_cluster n T' l -> exists i, In i (alive b s) /\ forall x, below n T (i + n) x <-> below n T' l x)).
Proof. exact @alive_clustering. Qed.
Print Assumptions C34_alive_clusters_are_leaf_clusters.

(** C34.  The whole run from the linkage tree: it ends; the layers are the leaf
    clusters for the base minimum size, and for every selected size the clusters
    alive at that size.  Each layer is a set of disjoint clusters with the labels
    and strengths these clusters should have; sizes, similarity, order and number
    of the layers are as [layer_stack] says. *)
Theorem C34_layers :
  forall (W V P : WOrd) (D : Type) (LA : LamArith V) (search_lam lam : W -> V) (death_of : V -> D) (dzero : D)
         (garbage : nat -> nat) (garbage_lambda : nat -> D) (pzero : P) (accumulate : P -> nat -> nat -> D -> P)
         (argsort : list P -> list nat) (argsort_counts : list Z -> list nat) (n : nat) (L : list (lrow W NatSize)),
  dendrogram n L -> sizes_are (Sz := NatSize) n (fun _ => 1) L -> heights_sorted L ->
  (forall x y, wle x y = true -> wle (lam y) (lam x) = true) -> (forall x, wle (la_zero LA) (lam x) = true) ->
  LamLaws LA -> argsorts argsort -> argsorts_Z argsort_counts -> 2 <= n ->
  forall (base_m : nat) (threshold : Q) (max_layers : nat), 2 <= base_m ->
  exists T S b base ys,
    layers_from_linkage_tree search_lam lam LA death_of dzero garbage garbage_lambda pzero accumulate argsort argsort_counts L n
      base_m None threshold max_layers = Ok ys /\
    tree_of lam n L base_m T /\ (forall c, In c S <-> leaf_cluster n T c) /\
    right_layer LA n T S (y_labels base) (y_strengths base) /\ y_persistence base = pzero /\
    (cluster_rows n T <> [] -> right_barcode n T death_of dzero base_m b) /\
    layer_stack LA pzero accumulate n T b threshold base_m max_layers base ys.
Proof. exact @layers_ok. Qed.
Print Assumptions C34_layers.

(** C34, C46.  The same when a number of clusters is requested: the base layer is
    the one the search returns, and the size of its smallest cluster is the minimum
    size for the others.  All distances are finite here. *)
Theorem C34_layers_for_a_number_of_clusters :
  forall (W V P : WOrd) (D : Type) (LA : LamArith V) (search_lam lam : W -> V) (death_of : V -> D) (dzero : D)
         (garbage : nat -> nat) (garbage_lambda : nat -> D) (pzero : P) (accumulate : P -> nat -> nat -> D -> P)
         (argsort : list P -> list nat) (argsort_counts : list Z -> list nat) (n : nat) (L : list (lrow W NatSize)),
  dendrogram n L -> sizes_are (Sz := NatSize) n (fun _ => 1) L -> heights_sorted L ->
  (forall x y, wle x y = true -> wle (lam y) (lam x) = true) -> (forall x, wle (la_zero LA) (lam x) = true) ->
  (forall x y, wle x y = true -> wle (search_lam y) (search_lam x) = true) -> (forall x, wle (la_zero LA) (search_lam x) = true) ->
  LamLaws LA -> argsorts argsort -> argsorts_Z argsort_counts -> 4 <= n ->
  (forall r, In r L -> wle (search_lam (l_d r)) (la_zero LA) = false) ->
  forall (base_m k : nat) (threshold : Q) (max_layers : nat),
  exists j T0 S m T b base ys,
    layers_from_linkage_tree search_lam lam LA death_of dzero garbage garbage_lambda pzero accumulate argsort argsort_counts L n
      base_m (Some k) threshold max_layers = Ok ys /\
    best search_lam n L k j /\ tree_of search_lam n L j T0 /\ (forall c, In c S <-> leaf_cluster n T0 c) /\
    right_layer LA n T0 S (y_labels base) (y_strengths base) /\ y_persistence base = pzero /\
    2 <= m /\ smallest_cluster (y_labels base) m /\ tree_of lam n L m T /\
    (cluster_rows n T <> [] -> right_barcode n T death_of dzero m b) /\
    layer_stack LA pzero accumulate n T b threshold m max_layers base ys.
Proof. exact @layers_number_ok. Qed.
Print Assumptions C34_layers_for_a_number_of_clusters.

(** C46.  The search ends with two neighbouring sizes, one of which has the closest
    number of clusters there is.  It returns the leaf clusters of the closer one; if
    both are equally close, those with less noise; if that is equal as well, those
    of the larger size. *)
Theorem C46_choice_of_the_search :
  forall (W V : WOrd) (LA : LamArith V) (search_lam : W -> V) (n : nat) (L : list (lrow W NatSize)),
  dendrogram n L -> sizes_are (Sz := NatSize) n (fun _ => 1) L -> heights_sorted L ->
  (forall x y, wle x y = true -> wle (search_lam y) (search_lam x) = true) -> (forall x, wle (la_zero LA) (search_lam x) = true) ->
  LamLaws LA -> 4 <= n -> forall k : nat,
  let far (S : list nat) := Z.abs (Z.of_nat (length S) - Z.of_nat k) in
  exists lo up Tl Tu Sl Su lsl lsu psl psu,
    2 <= lo <= up /\ up <= n / 2 /\ up <= lo + 1 /\ (best search_lam n L k lo \/ best search_lam n L k up) /\
    tree_of search_lam n L lo Tl /\ (forall c, In c Sl <-> leaf_cluster n Tl c) /\ right_layer LA n Tl Sl lsl psl /\
    tree_of search_lam n L up Tu /\ (forall c, In c Su <-> leaf_cluster n Tu c) /\ right_layer LA n Tu Su lsu psu /\
    binary_search_for_n_clusters search_lam LA L n k =
      Ok (if (far Sl <? far Su)%Z then (Sl, lsl, psl) else if (far Su <? far Sl)%Z then (Su, lsu, psu)
          else if noise lsl <? noise lsu then (Sl, lsl, psl) else (Su, lsu, psu)).
Proof. exact @search_choice. Qed.
Print Assumptions C46_choice_of_the_search.

(** C35.  For every sequence the peaks found are the midpoints of its flat local
    maxima, in order; no write leaves the arrays. *)
Theorem C35_peaks :
  forall (W : WOrd) (x : list W),
  exists ms, find_peaks x = Ok ms /\ StronglySorted lt ms /\ forall m, In m ms <-> exists a b, plateau x a b /\ m = (a + b) / 2.
Proof. exact @find_peaks_ok. Qed.
Print Assumptions C35_peaks.

(** C35.  The curve in which they are found: the persistence of the clusters alive
    at each birth size. *)
Theorem C35_persistence_curve :
  forall (D : Type) (P : WOrd) (pzero : P) (accumulate : P -> nat -> nat -> D -> P) (b : barcode D), 0 < b_nodes b ->
  forall sizes total, compute_total_persistence pzero accumulate b = (sizes, total) ->
  StronglySorted lt sizes /\ (forall s, In s sizes <-> exists i, i < b_nodes b /\ b_births b i = s) /\ length total = length sizes /\
  forall k, k < length sizes -> nth k total pzero = persistence_at pzero accumulate b (nth k sizes 0).
Proof. exact (fun D P => @curve_ok D P). Qed.
Print Assumptions C35_persistence_curve.

(** C36.  For every list of distinct peaks: the selection takes peaks, at most as
    many as allowed, pairwise not similar; a peak is left out only for a similar
    one of at least its persistence or because there are enough; the most
    persistent one is taken. *)
Theorem C36_selection_is_diverse :
  forall (P : WOrd) (D : Type) (argsort : list P -> list nat) (pzero : P) (peaks : list nat) (total : list P) (sizes : list nat)
         (b : barcode D) (threshold : Q) (max_layers : nat),
  argsorts argsort -> NoDup peaks ->
  let out := select_diverse_peaks argsort pzero peaks total sizes b threshold max_layers in
  let similar p q := exists j, jaccard_index (alive b (nth p sizes 0)) (alive b (nth q sizes 0)) j /\ (threshold < j)%Q in
  incl out peaks /\ NoDup out /\ length out <= max_layers /\
  (forall p q, In p out -> In q out -> p <> q -> ~ similar p q) /\
  (forall p, In p peaks -> In p out \/ length out = max_layers \/
     exists q, In q out /\ similar p q /\ wle (nth p total pzero) (nth q total pzero) = true) /\
  (peaks <> [] -> 1 <= max_layers -> exists p, In p out /\ forall q, In q peaks -> wle (nth q total pzero) (nth p total pzero) = true).
Proof. exact @peaks_selected. Qed.
Print Assumptions C36_selection_is_diverse.

(** C36.  Similarity is the Jaccard index of the sets of clusters and lies between
    0 and 1. *)
Theorem C36_similarity :
  forall (D : Type) (b : barcode D) (s s' : nat),
  jaccard_index (alive b s) (alive b s') (estimate_cluster_similarity b s s') /\
  (0 <= estimate_cluster_similarity b s s')%Q /\ (estimate_cluster_similarity b s s' <= 1)%Q.
Proof. exact @similarity_ok. Qed.
Print Assumptions C36_similarity.

(** C46.  The number of leaf clusters never grows with the minimum size. *)
Theorem C46_fewer_leaves_for_larger_sizes :
  forall (W V : WOrd) (lam : W -> V) (n : nat) (L : list (lrow W NatSize)) (j k : nat) (S S' : list nat),
  dendrogram n L -> sizes_are (Sz := NatSize) n (fun _ => 1) L -> heights_sorted L ->
  (forall x y, wle x y = true -> wle (lam y) (lam x) = true) -> 2 <= n -> 2 <= j -> j <= k ->
  leaves_at lam L j = Ok S -> leaves_at lam L k = Ok S' -> length S' <= length S.
Proof. exact @leaves_number_falls. Qed.
Print Assumptions C46_fewer_leaves_for_larger_sizes.

(** C46.  Therefore the search ends at a minimum size, up to half the samples, for
    which the number of clusters is closest to the requested one, and returns its
    leaf clusters, labels and strengths. *)
Theorem C46_search_finds_the_closest_number :
  forall (W V : WOrd) (LA : LamArith V) (lam : W -> V) (n : nat) (L : list (lrow W NatSize)),
  dendrogram n L -> sizes_are (Sz := NatSize) n (fun _ => 1) L -> heights_sorted L ->
  (forall x y, wle x y = true -> wle (lam y) (lam x) = true) -> (forall x, wle (la_zero LA) (lam x) = true) ->
  LamLaws LA -> 4 <= n ->
  forall approx, exists k T S ls ps,
    best lam n L approx k /\ tree_of lam n L k T /\ (forall c, In c S <-> leaf_cluster n T c) /\
    binary_search_for_n_clusters lam LA L n approx = Ok (S, ls, ps) /\ right_layer LA n T S ls ps.
Proof. exact @binary_search_ok. Qed.
Print Assumptions C46_search_finds_the_closest_number.

(** ** Non-vacuity *)
(** The linkage tree [yd] of 15 samples, exact arithmetic, lambda 1/d and stable
    sorting meet the hypotheses. *)
Example C34_example_tree :
  dendrogram 15 yd /\ sizes_are (Sz := NatSize) 15 (fun _ => 1) yd /\ heights_sorted yd.
Proof. exact (conj yd_dendrogram (conj yd_sizes yd_heights)). Qed.
Example C34_example_lambda :
  (forall x : QInf, wle (la_zero ExactLam) (hdbscan_lambda_value x) = true) /\ LamLaws ExactLam /\
  forall r, In r yd -> wle (hdbscan_lambda_value (l_d r)) (la_zero ExactLam) = false.
Proof. exact (conj hdbscan_lambda_nonneg (conj exact_lam_laws yd_finite)). Qed.
Example C34_example_sorting : argsorts (@sort_indices QInf) /\ argsorts_Z sort_indices_Z.
Proof. exact (conj (sort_indices_ok QInf) sort_indices_Z_ok). Qed.

(** Three leaf clusters, and a second layer at size 3 where two have joined. *)
Example C34_example_layers :
  (let* ys := yrun 2 None (1 # 5) 10 in
   Ok (map (fun y : layer QInf QInf => (y_labels y, option_map this (y_persistence y))) ys))
  = Ok [([1; 1; 1; 2; 2; 2; 2; 0; 0; 0; 0; 0; 0; 0; 0]%Z, Some 0%Q); ([0; 0; 0; 0; 0; 0; 0; 1; 1; 1; 1; 1; 1; 1; 1]%Z, Some (37 # 3)%Q)].
Proof. vm_compute. reflexivity. Qed.
(** Two clusters requested. *)
Example C34_example_number :
  (let* ys := yrun 2 (Some 2) (1 # 5) 10 in Ok (map (fun y : layer QInf QInf => y_labels y) ys))
  = Ok [[0; 0; 0; 0; 0; 0; 0; 1; 1; 1; 1; 1; 1; 1; 1]%Z].
Proof. vm_compute. reflexivity. Qed.

Example C35_example :
  find_peaks (W := NInf) [Some 1; Some 3; Some 3; Some 3; Some 2; Some 5; Some 4; Some 4; Some 6] = Ok [2; 5].
Proof. vm_compute. reflexivity. Qed.

(** Three peaks, the second of which resembles the first. *)
Example C36_example :
  let b := {| b_nodes := 5; b_births := fun i => nth i [9; 1; 1; 4; 6] 0; b_deaths := fun i => nth i [10; 9; 4; 6; 9] 0;
              b_parents := fun _ => 0; b_lambdas := fun _ => tt |} in
  (alive b 1, alive b 4, alive b 6) = ([1; 2], [1; 3], [1; 4]) /\
  select_diverse_peaks (P := NInf) sort_indices (Some 0) [0; 1; 2] [Some 7; Some 9; Some 8] [1; 4; 6] b (1 # 4) 3 = [1] /\
  select_diverse_peaks (P := NInf) sort_indices (Some 0) [0; 1; 2] [Some 7; Some 9; Some 8] [1; 4; 6] b (1 # 2) 2 = [1; 2].
Proof. vm_compute. split; [|split]; reflexivity. Qed.

Example C46_example_leaves :
  map (leaves_at hdbscan_lambda_value yd) [2; 3; 4; 7; 8] = [Ok [17; 18; 19]; Ok [17; 18; 19]; Ok [16; 17]; Ok [16; 17]; Ok [15]].
Proof. vm_compute. reflexivity. Qed.
Example C46_example_search :
  map (fun k => let* r := binary_search_for_n_clusters hdbscan_lambda_value ExactLam yd 15 k in Ok (fst (fst r))) [1; 2; 3; 9]
  = [Ok [16; 17]; Ok [16; 17]; Ok [17; 18; 19]; Ok [17; 18; 19]].
Proof. vm_compute. reflexivity. Qed.
