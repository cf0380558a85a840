(** C50: spanning trees over neighbour tables. *)
From Coq Require Import List Arith Lia Bool ZArith QArith Qcanon Permutation.
From Verif Require Import Prelude Order Size Num Graph M_Kruskal M_KruskalEntry S_Kruskal S_Precomputed M_Precomputed M_TreeQuery S_SpaceTree
  M_Linkage S_Linkage M_NNDescent S_NNDescent M_Condense S_Condense M_Select M_Labels M_Pipeline S_Pipeline P_EpsilonTop P_PipelineEx S_Unique P_UniqueEx P_NNDescentTop.
Import ListNotations.
Local Open Scope nat_scope.

(** C50.  Whatever neighbours the other package reports, the result is a spanning
    tree: the lightest forest over the reported pairs at their mutual
    reachability distances, completed by infinite edges.  Core distance and
    neighbours are read off the row after its first place. *)
Theorem C50_tree_over_neighbour_graph :
  forall (W : WOrd) (zero : W) graph n min_samples knn_k,
  let k := Nat.max (match knn_k with None => Nat.max (3 * min_samples) 15 | Some k => k end) min_samples in
  let rows := graph (k + 1) in
  0 < n -> neighbour_table n (k + 1) rows ->
  exists E T nbrs core, compute_mst_from_knn_graph zero graph n min_samples knn_k = Ok (T, nbrs, core) /\
    length core = n /\ length nbrs = n /\
    (forall i, i < n -> nth i core winf = (if min_samples <=? 1 then zero else snd (nth min_samples (nth i rows []) (None, winf))) /\
                        nth i nbrs [] = map fst (firstn (Nat.max 1 min_samples) (tl (nth i rows [])))) /\
    (forall i j w, In (i, j, w) E <-> i < n /\ i <> j /\ wfinite w = true /\
       exists c d, nth_error (nth i rows []) (S c) = Some (Some j, d) /\ greatest_of_three (nth i core winf) (nth j core winf) d w /\
                   w = mrd3 (nth i core winf) (nth j core winf) d) /\
    spanning_tree n T /\ bridged_result n no_constraint E T.
Proof. exact @c50_tree. Qed.
Print Assumptions C50_tree_over_neighbour_graph.

(** C50.  Rows too short for [min_samples] are an error, not a wrong core distance. *)
Theorem C50_short_rows_rejected :
  forall (W : WOrd) (zero : W) graph n min_samples knn_k,
  let k := Nat.max (match knn_k with None => Nat.max (3 * min_samples) 15 | Some k => k end) min_samples in
  let rows := graph (k + 1) in
  rows <> [] -> 1 < min_samples -> (forall row, In row rows -> length row <= min_samples) ->
  compute_mst_from_knn_graph zero graph n min_samples knn_k = Err IndexError.
Proof. exact @c50_short. Qed.
Print Assumptions C50_short_rows_rejected.

(** C50.  Complete runs: every such table gives labels and strengths. *)
Theorem C50_runs_complete :
  forall mcs m allow_single epsilon persistence n, (persistence <= 0)%Qc -> 2 <= mcs -> 2 <= n ->
  forall garbage by_parent, sorts_by_parent by_parent ->
  forall graph min_samples knn_k,
  let k := Nat.max (match knn_k with None => Nat.max (3 * min_samples) 15 | Some k => k end) min_samples in
  neighbour_table n (k + 1) (graph (k + 1)) ->
  exists M nbrs core ls ps T, compute_mst_from_knn_graph (Some 0%Qc : QInf) graph n min_samples knn_k = Ok (M, nbrs, core) /\
    exact_clusters garbage by_parent (exact_settings (Sz := NatSize) mcs m allow_single epsilon persistence) M = Ok (ls, ps, T) /\
    clustering (V := QInf) (Some 0%Qc) (Some 1%Qc) n ls ps.
Proof. exact @c50_run. Qed.
Print Assumptions C50_runs_complete.

(** C50.  With all neighbours nothing is lost: the same core distances as the
    exhaustive algorithm, the same samples connected at every threshold, and
    without ties the same clusters. *)
Theorem C50_complete_neighbour_graph_is_exact :
  forall mcs m allow_single epsilon persistence n, (epsilon <= 0)%Qc -> (persistence <= 0)%Qc -> 2 <= mcs -> 2 <= n ->
  forall garbage garbage' by_parent by_parent', sorts_by_parent by_parent -> sorts_by_parent by_parent' ->
  forall graph min_samples knn_k (D : nat -> nat -> QInf),
  let k := Nat.max (match knn_k with None => Nat.max (3 * min_samples) 15 | Some k => k end) min_samples in
  min_samples < n -> neighbour_table n (k + 1) (graph (k + 1)) -> exhaustive n D (graph (k + 1)) ->
  (forall i j, i < n -> j < n -> D i j = D j i) -> (forall i j, i < n -> j < n -> wfinite (D i j) = true) ->
  exists M nbrs core ls ps T M' nbrs' ls' ps' T',
    compute_mst_from_knn_graph (Some 0%Qc : QInf) graph n min_samples knn_k = Ok (M, nbrs, core) /\
    exact_clusters garbage by_parent (exact_settings (Sz := NatSize) mcs m allow_single epsilon persistence) M = Ok (ls, ps, T) /\
    kruskal_mst_brute (Some 0%Qc : QInf) D n min_samples CLNone = Ok (M', nbrs', core) /\
    exact_clusters garbage' by_parent' (exact_settings (Sz := NatSize) mcs m allow_single epsilon persistence) M' = Ok (ls', ps', T') /\
    ((forall e, In e M -> wlt (Some 0%Qc : QInf) (ewt e) = true) -> distinct_weights M ->
     same_clustering (V := QInf) (Some 0%Qc) n (fun x => x) ls ls' ps ps').
Proof. exact @c50_table_clusters. Qed.
Print Assumptions C50_complete_neighbour_graph_is_exact.

Theorem C50_complete_neighbour_graph_same_hierarchy :
  forall (W : WOrd), (forall a b : W, wle a b = true -> wle b a = true -> a = b) ->
  forall (zero : W) graph n min_samples knn_k D,
  let k := Nat.max (match knn_k with None => Nat.max (3 * min_samples) 15 | Some k => k end) min_samples in
  min_samples < n -> neighbour_table n (k + 1) (graph (k + 1)) -> exhaustive n D (graph (k + 1)) ->
  (forall i j, i < n -> j < n -> D i j = D j i) -> (forall i j, i < n -> j < n -> wfinite (D i j) = true) -> wfinite zero = true ->
  exists T nbrs core T2 nbrs2, compute_mst_from_knn_graph zero graph n min_samples knn_k = Ok (T, nbrs, core) /\
    kruskal_mst_brute zero D n min_samples CLNone = Ok (T2, nbrs2, core) /\ spanning_tree n T /\ spanning_tree n T2 /\
    same_hierarchy n (fun x => x) T T2.
Proof. exact @c50_complete_table. Qed.
Print Assumptions C50_complete_neighbour_graph_same_hierarchy.

(** C50.  The same for tree search: [knn_k] at least n - 1 and no two samples at
    the same place. *)
Theorem C50_all_neighbours_same_hierarchy :
  forall (W : WOrd), (forall a b : W, wle a b = true -> wle b a = true -> a = b) ->
  forall (zero : W) t n (rd lb : nat -> nat -> W) root min_samples knn_k,
  tree_shape t n -> lower_bounds t rd lb -> min_samples < n -> n <= knn_k + 1 ->
  (forall i j, i < n -> j < n -> rd i j = rd j i) ->
  (forall i j, i < n -> j < n -> wfinite (rd i j) = true /\ wfinite (root (rd i j)) = true) ->
  (forall x y, wle x y = true -> wle (root x) (root y) = true) -> (forall x, wfinite x = true -> wlt (root x) (root winf) = true) ->
  wfinite zero = true -> (forall i j, i < n -> j < n -> i <> j -> wlt (root (rd i i)) (root (rd i j)) = true) ->
  exists T nbrs core T2 nbrs2, kruskal_mst_knn zero (tree_table t rd lb root n) min_samples knn_k CLNone = Ok (T, nbrs, core) /\
    kruskal_mst_brute zero (fun i j => root (rd i j)) n min_samples CLNone = Ok (T2, nbrs2, core) /\
    spanning_tree n T /\ spanning_tree n T2 /\ same_hierarchy n (fun x => x) T T2.
Proof. exact @c50_complete_query. Qed.
Print Assumptions C50_all_neighbours_same_hierarchy.

Theorem C50_all_neighbours_same_clusters :
  forall mcs m allow_single epsilon persistence n, (epsilon <= 0)%Qc -> (persistence <= 0)%Qc -> 2 <= mcs -> 2 <= n ->
  forall garbage garbage' by_parent by_parent', sorts_by_parent by_parent -> sorts_by_parent by_parent' ->
  forall t (rd lb : nat -> nat -> QInf) root min_samples knn_k,
  tree_shape t n -> lower_bounds t rd lb -> min_samples < n -> n <= knn_k + 1 ->
  (forall i j, i < n -> j < n -> rd i j = rd j i) ->
  (forall i j, i < n -> j < n -> wfinite (rd i j) = true /\ wfinite (root (rd i j)) = true) ->
  (forall x y, wle x y = true -> wle (root x) (root y) = true) -> (forall x, wfinite x = true -> wlt (root x) (root winf) = true) ->
  (forall i j, i < n -> j < n -> i <> j -> wlt (root (rd i i)) (root (rd i j)) = true) ->
  exists M nbrs core ls ps T M' nbrs' ls' ps' T',
    kruskal_mst_knn (Some 0%Qc : QInf) (tree_table t rd lb root n) min_samples knn_k CLNone = Ok (M, nbrs, core) /\
    exact_clusters garbage by_parent (exact_settings (Sz := NatSize) mcs m allow_single epsilon persistence) M = Ok (ls, ps, T) /\
    kruskal_mst_brute (Some 0%Qc : QInf) (fun i j => root (rd i j)) n min_samples CLNone = Ok (M', nbrs', core) /\
    exact_clusters garbage' by_parent' (exact_settings (Sz := NatSize) mcs m allow_single epsilon persistence) M' = Ok (ls', ps', T') /\
    ((forall e, In e M -> wlt (Some 0%Qc : QInf) (ewt e) = true) -> distinct_weights M ->
     same_clustering (V := QInf) (Some 0%Qc) n (fun x => x) ls ls' ps ps').
Proof. exact @c50_query_clusters. Qed.
Print Assumptions C50_all_neighbours_same_clusters.

(** C50.  Identical samples: a correct and complete table may list the other
    sample first; the code takes the first place for the sample itself, drops it,
    and puts the two samples infinitely far apart. *)
Theorem C50_identical_samples_refuted : exists n min_samples knn_k (graph : nat -> list (list (option nat * NInf))) D T nbrs core,
  let k := Nat.max knn_k min_samples in
  neighbour_table n (k + 1) (graph (k + 1)) /\ complete_rows n D (graph (k + 1)) /\
  (forall i j, D i j = Some 0) /\
  compute_mst_from_knn_graph (Some 0 : NInf) graph n min_samples (Some knn_k) = Ok (T, nbrs, core) /\
  (forall e, In e T -> ewt e = winf) /\ length T = n - 1 /\ 2 <= n /\ forall i, i < n -> nth i nbrs [] = [Some i].
Proof. exact identical_refuted. Qed.
Print Assumptions C50_identical_samples_refuted.

(** ** Examples: six samples on a line at 0, 1, 3, 20, 24, 29. *)
Definition line_at : list nat := [0; 1; 3; 20; 24; 29].
Definition line_dist (i j : nat) : NInf := Some (let a := nth i line_at 0 in let b := nth j line_at 0 in (a - b) + (b - a)).
Definition line_row (k i : nat) : list (option nat * NInf) :=
  map (fun q => (Some q, line_dist i q)) (firstn k (isort (line_dist i) (seq 0 6))) ++ repeat (None, None) (k - 6).
Definition line_graph (k : nat) : list (list (option nat * NInf)) := map (line_row k) (seq 0 6).

Example C50_example_table : neighbour_table 6 3 (line_graph 3).
Proof.
  split; [reflexivity| |].
  - intros row H. vm_compute in H. repeat (destruct H as [<-|H]; [reflexivity|]). destruct H.
  - intros row j d H. vm_compute in H. repeat (destruct H as [<-|H]; [intro K; vm_compute in K; repeat (destruct K as [K|K]; [injection K as <- <-; lia|]); destruct K|]). destruct H.
Qed.
(** Two neighbours each: the two groups are only bridged. *)
Example C50_example_two_neighbours : compute_mst_from_knn_graph (Some 0 : NInf) line_graph 6 2 (Some 2) =
  Ok ([(0, 1, Some 3); (0, 2, Some 3); (3, 4, Some 9); (3, 5, Some 9); (0, 3, None)],
      [[Some 1; Some 2]; [Some 0; Some 2]; [Some 1; Some 0]; [Some 4; Some 5]; [Some 3; Some 5]; [Some 4; Some 3]],
      [Some 3; Some 2; Some 3; Some 9; Some 5; Some 9]).
Proof. vm_compute. reflexivity. Qed.
(** All neighbours and ten empty places: the exhaustive result. *)
Example C50_example_all_neighbours :
  match compute_mst_from_knn_graph (Some 0 : NInf) line_graph 6 2 None, kruskal_mst_brute (Some 0 : NInf) line_dist 6 2 CLNone with
  | Ok (T, _, core), Ok (T2, _, core2) => Some (map ewt T, map ewt T2, core, core2)
  | _, _ => None
  end = Some ([Some 3; Some 3; Some 9; Some 9; Some 17], [Some 3; Some 3; Some 9; Some 9; Some 17],
              [Some 3; Some 2; Some 3; Some 9; Some 5; Some 9], [Some 3; Some 2; Some 3; Some 9; Some 5; Some 9]).
Proof. vm_compute. reflexivity. Qed.
Example C50_example_exhaustive : exhaustive 6 line_dist (line_graph 16) /\ neighbour_table 6 16 (line_graph 16).
Proof.
  split; [split; [reflexivity|]|split; [reflexivity| |]].
  - intros i Hi.
    assert (H : exists others, isort (line_dist i) (seq 0 6) = i :: others).
    { do 6 (destruct i as [|i]; [eexists; vm_compute; reflexivity|]). lia. }
    destruct H as (others & H). exists others, (repeat (None, None) 10). split; [|split; [|split]].
    + unfold line_graph. do 6 (destruct i as [|i]; [cbn [nth map seq]; unfold line_row; rewrite H, firstn_all2; [reflexivity|rewrite <- H; vm_compute; lia]|]). lia.
    + intros x Hx. apply repeat_spec in Hx. now subst x.
    + rewrite <- H. apply Permutation_sym, isort_perm.
    + rewrite <- H. apply isort_sorted.
  - intros row H. vm_compute in H. repeat (destruct H as [<-|H]; [reflexivity|]). destruct H.
  - intros row j d H. vm_compute in H. repeat (destruct H as [<-|H]; [intro K; vm_compute in K; repeat (destruct K as [K|K]; [try discriminate K; injection K as <- <-; lia|]); destruct K|]). destruct H.
Qed.
Example C50_example_short : compute_mst_from_knn_graph (Some 0 : NInf) (fun _ => line_graph 2) 6 2 None = Err IndexError.
Proof. vm_compute. reflexivity. Qed.
(** Tree search for all neighbours meets the hypotheses. *)
Example C50_example_distinct : tree_shape (flat_tree 8) 8 /\
  (forallb (fun i => forallb (fun j => (i =? j) || wlt (line [0; 1; 3; 20; 24; 29; 60; 90]%Z i i) (line [0; 1; 3; 20; 24; 29; 60; 90]%Z i j)) (seq 0 8)) (seq 0 8) = true) /\
  match kruskal_mst_knn (Some 0%Qc : QInf) (tree_table (flat_tree 8) (line [0; 1; 3; 20; 24; 29; 60; 90]%Z) (fun _ _ => Some 0%Qc : QInf) (fun w => w) 8) 1 7 CLNone with
  | Ok (M, _, _) =>
    match exact_clusters (fun _ => None) by_parent_of (exact_settings (Sz := NatSize) 3 Eom false 0%Qc 0%Qc) M with
    | Ok (ls, _, _) => Some (distinctb M, positiveb M, ls)
    | Err _ => None
    end
  | Err _ => None
  end = Some (true, true, [1; 1; 1; 0; 0; 0; -1; -1]%Z).
Proof. split; [apply flat_shape; lia|]. vm_compute. split; reflexivity. Qed.
