# Formal model of fast_hdbscan in Rocq (Coq 8.16.1)

Source: `/repo` (TutteInstitute/fast_hdbscan at the pinned commit), read as text only.
Nothing of the project was executed. Everything below is about the *model*; the
link between the model and the python text is by review (each definition cites
file and lines).

## 1. Layout

| file (rocq/theories) | content |
|---|---|
| `Prelude.v` | error monad `res`, functional arrays `upd`, list lemmas |
| `Order.v` | weight orders (`WOrd`), stable sort |
| `Graph.v` | **specification**: connectivity, forests, threshold connectivity, minimality |
| `M_*.v` | **model**: one file per python module, definitions only |
| `S_*.v` | **specification** vocabulary for a property group where `Graph.v` is not enough |
| `P_*.v` | proofs |
| `Properties_*.v` | the property theorems (`Cnn_...`), each `exact lemma`, with `Print Assumptions`, and the concrete `Example`s that meet their hypotheses |

Theorem names start with the property id. `_partial` = the English property is
only partly covered (what is missing is written next to it). `_refuted` = the
code violates the property; the theorem exhibits a concrete input on which the
model of the code misbehaves.

## 2. Modelling decisions

* **Arrays.** Mutable numpy work arrays are total functions `nat -> A` updated by
  `upd`; tables that are returned are lists. Where an out-of-range index is
  really reachable in the code (an empty table indexed by -1, index -1 used as a
  sample id, a dictionary miss) the model returns an explicit error.
* **Loops.** `for` = structural recursion over a list; `while` = recursion on
  fuel returning `Err OutOfFuel` when exhausted. Theorems show the result is
  `Ok`, so termination is part of what is proved.
* **Exceptions** are values of `res`.
* **Weights.** Algorithms that only compare weights (Kruskal, Boruvka, linkage,
  cuts, heaps, pruning) are stated for an arbitrary total preorder with a top
  element (`WOrd`). IEEE floats without NaN are an instance, so no rounding
  argument is needed there. Where the code does arithmetic (stability,
  membership strength, BCubed) the model uses exact rationals extended by
  +inf/-inf/NaN with the IEEE rules for those (`Num.v`), without rounding and
  overflow. C64 instantiates the path from a float32 matrix to labels with IEEE
  numbers (Flocq's `binary_float`, round to nearest even; `M_Float.v`,
  `M_FloatRun.v`).
* **Integers** are unbounded (`nat`, `Z`): int32/intp overflow is not modelled.
* **Parallel loops.** Where iterations share memory (`boruvka_tree_query*`) the
  model is a small-step interleaving semantics over atomic reads/writes; where
  iterations touch disjoint cells they are modelled as a sequential map.
* **Space tree.** Coordinates (`Coord.v`) are numbers whose operations are monotone
  and exact on zero, which holds with rounding; NaN is excluded and overflow to
  +inf allowed. The number of levels is computed without rounding, node radii
  (never read by a query) are left out, and uint16 loop counters are unbounded.
* **Estimator.** A row is an abstract value with a test for being finite. The
  spanning tree algorithm is a parameter of `fast_hdbscan` in `M_Estimator.v`, so
  the theorems hold for every back end that returns a spanning tree. Of the
  parameters only what the checks look at is modelled (`M_Dispatch.v`).
* **Layers.** `layer_clusters.py` is modelled from the spanning tree on; distances are
  normalised in exact arithmetic (`M_Plscan.v`). `exp(-d)` and
  `exp(-1/lambda)` are parameters (`lam`, `death_of`); only antitonicity and
  non-negativity of `lam` are used. The term added to the persistence,
  `death - birth * lambda`, is a parameter too except in `M_Scores.v` (C80), which
  keeps the code's precedence, although `(death - birth) * lambda` was probably meant. The unstable
  `np.argsort` is any function that sorts.
* **numba**: `fastmath=True` re-association is not modelled; `inline`/`cache`
  have no semantic effect.

## 3. Trusted base

* Coq 8.16.1 kernel and `coqchk`.
* What `Print Assumptions` reports for each property theorem (see section 6).
* For C64, Flocq's definition of IEEE 754 arithmetic (`IEEE754.BinarySingleNaN`).
* The reading of the python text recorded in the comments of `M_*.v`.
* Not modelled: numba/LLVM compilation, numpy/scipy internals (their calls are
  replaced by their documented result), float rounding outside C64, integer overflow,
  memory exhaustion, scikit-learn's `check_array`, plotting code.

## 4. Plan per property

| id | what is modelled | how it is proved |
|---|---|---|
| C01 | `disjoint_set.py` complete | invariant: roots of the parent array = classes of the equivalence closure of the unions |
| C02 | same; interleavings of finds | writes store the value already there; rank invariant `2^rank <= size of tree` |
| C03 | `_kruskal_core` with path compression, early exit | loop invariant over the sorted edge list; counting roots for the early exit; exchange/counting for total weight |
| C04 | `_get_component_labels_jit` | from C03's invariant |
| C05 | `_kruskal_core_constrained` with the linked-list pool | refinement to an abstract greedy relation |
| C06 | `_kruskal_core_group_constrained` with 64-bit word masks | same abstract greedy relation, hence equality |
| C07 | the three kernels | corollary of refinement (determinism of the greedy relation) |
| C08 | end-to-end pipeline | expected: provable for 'eom'/'leaf'; refutable for persistence > 0, data labels and for dispatch paths that drop the constraints |
| C09, C10 | `bridge_forest_with_inf`, `unbridge_mst` | counting components; union-find invariant |
| C11-C13 | `_symmetrize_min_csr`, `_core_distances_csr`, MRD builders | list reasoning |
| C14 | `core_graph.py` Boruvka | sequential invariant: at most one unprocessed component per merged component, whose pick is a lightest edge out of it; expected refutation for empty rows |
| C15 | corollary of C03/C14/C18 | threshold connectivity determines the weight multiset |
| C16 | small-step interleaving model of the queries | invariant on the shared bound (always attained or infinite) |
| C17 | same | expected refutation: two schedules, two results |
| C18 | `parallel_boruvka` | C14's invariant with C16 as choice; expected refutation for min_samples >= n |
| C19, C20 | `numba_kdtree.py` | permutation and containment by induction on the tree; heap invariants |
| C21 | `mst_to_linkage_tree` | union-find invariant with cluster ids |
| C22 | `get_cluster_labelling_at_cut` | C01 + C21 |
| C23, C24 | `condense_tree` | frontier invariant over the breadth-first list; expected refutation for min_cluster_size = 1 |
| C25 | `extract_eom_clusters` | induction on ids from the bottom; optimality in exact arithmetic; every leaf within the maximum size lies in a selected cluster; expected refutation of the size bound for the root |
| C26 | `extract_leaves` | direct |
| C27 | `get_cluster_label_vector` | representatives are tops of merged trees; expected refutation: KeyError when one non-root cluster is selected |
| C28 | pipeline | C24 + C27 |
| C29 | membership strengths | case analysis in extended rationals |
| C30 | epsilon search | expected refutation (search in `segments_in_branch`) plus a positive theorem for the corrected condition |
| C31 | `simplify_hierarchy` | expected refutation for trees without a split |
| C32 | remapping | list reasoning; expected refutation for few finite rows |
| C33 | validation and dispatch | decision procedure as a function; expected refutation: constraints dropped |
| C34, C46 | barcode, layers, search for a number of clusters | alive clusters = leaf clusters of the dendrogram at the next size; number of leaves falls, hence bisection is right |
| C35 | `find_peaks` | loop invariant |
| C36 | `select_diverse_peaks`, `jaccard_similarity` | loop invariant |
| C37 | `_build_cluster_tree`, choice of the returned layer | the candidates are visited in lexicographic order, the first one wins; layers of a run have no gaps |
| C38, C39 | `sub_clusters.py`, `branches.py` | offset arithmetic; propagation terminates since every round labels a sample next to a labelled one |
| C47 | `find_sub_clusters`, `knn_mst_union`, lens graph, `core_graph_clusters` | composition of C38, C39, C14 and C43 |
| C40 | BCubed selection | induction on the tree of clusters and virtual nodes (samples below clusters: ranks instead of ids); lexicographic scores as an ordered monoid |
| C48 | `clusters_from_spanning_tree` with `semi_supervised=True` | C40 in place of C25 in the composition of C43; labels and strengths do not depend on the order of the selected clusters |
| C49 | all of `clusters_from_spanning_tree`, exhaustive Kruskal and tree Borůvka in front of it | a dendrogram has only one condensed tree up to names; without ties equal threshold components force equal dendrograms; the selected clusters are characterised by C24/C25 without reference to names |
| C50 | `nndescent.py` after the call of pynndescent (its answer is a parameter; `try_connect_knn_graph` and `_knn_graph_to_sparse` are never called) | shown equal to the nearest neighbour variant of Kruskal; a complete table has the edges and core distances of the exhaustive algorithm |
| C51 | `sample_weight_core_distance`, the weighted branches of `parallel_boruvka` and `_kruskal_mst_knn` (weights and averages exact rationals; a Borůvka query for no neighbours, or for more than there are samples, is an error in the model where the code reads outside its arrays or wraps around) | the scan stops at the first place whose prefix is heavy enough; Borůvka rounds keep a forest whatever the first edges are |
| C52, C53 | `find_sub_clusters` around the clusters (finding the rows left out, `remap_results`), `SubClusterDetector` and `BranchDetector` `fit` and `propagated_labels`; without sample weights for the sub-clusters, and lens callbacks that use data, strengths and samples only | the binary search splits the reported tree where densities become positive (C32, C43); propagation commutes with renumbering samples |
| C54 | the whole run of `clusters_from_spanning_tree`, plain, weighted and semi-supervised | every cell of an uninitialised array is written before it is read; the searches look at all children of a cluster, in any order |
| C55, C56 | the whole run in exact arithmetic, brute-force spanning trees, DBSCAN cut | each function commutes with an order embedding of distances and densities; strengths are ratios |
| C57 | `PLSCAN.fit_predict` after the data checks: normalisation, sort, linkage tree, layers, tree of layers, reported layer | a normalised run is a run on the same linkage tree with other densities; then C34-C37 |
| C58 | normalisation of the distances | mean and minimum commute with scaling; Kruskal commutes with order embeddings |
| C59 | `PLSCAN._validate_params`, the checks of `fit_predict`, `validate_precomputed_sparse_graph` | case analysis, with C33 for the choice of the algorithm |
| C60 | `knn_mst_union`, `flatten_to_csr`, `sort_by_lens` with distances, `core_graph_to_edge_list`, `approximation_graph_`, `spanning_trees_` | reported trees are spanning forests of the links, sorted when the cluster is connected; the graph with distances, distances dropped, is the graph of C40/C52; rows of the graph are permutations of dictionaries without repeated keys |
| C61 | checks of `sample_weight` in `HDBSCAN.fit` and `PLSCAN.fit_predict` | case analysis of scalars and arrays; `gather` of the finite index against the filtered rows. sklearn's `check_array` is modelled only as far as it rejects numeric arrays (dimension, NaN, infinity) |
| C62 | the checks in `SubClusterDetector.fit` and `find_sub_clusters` | case analysis, both directions |
| C63 | `compute_centrality`, `HDBSCAN.fit` then `BranchDetector.fit` on points with exact coordinates | the weighted mean is the only point where weighted deviations cancel; a distance preserving affine map commutes with it; Kruskal on all pairs, the estimator and the detector depend on the data through distances and lens only. A fitted cluster has a sample of strength one (C43), so the strengths never sum to zero. Square roots are parameters (functions of the squared length) |
| C64 | `rdist`, the space tree, Borůvka, lambdas, strengths, epsilon and persistence tests and stabilities of one run in IEEE numbers: float32 and float64 as the code has them, round to nearest even, no `fastmath` reordering; NaN is excluded from distances and densities (proved for squared distances) and possible in stabilities | rounding is monotone, so rounded differences, squares, sums, roots and inverses keep the order that C18, C20 and C43 need; `1/x < eps` implies `1/eps <= x` after rounding, since both sides are representable; rounded products and sums keep zero and sign (`float_score_laws`), which is all that C08, C71 and C73 ask of stabilities |
| C65 | the neighbour rows of `_kruskal_mst_brute`, `_kruskal_mst_knn` and `parallel_boruvka` | a sorted prefix of all samples without its first entry; the first entry is the sample itself unless another one is at distance zero |
| C66 | `dbscan_clustering`, `get_cluster_labelling_at_cut` after `fit` or a spanning tree search | thresholding a minimum spanning tree of the mutual reachability distances leaves the components of the thresholded graph; a mutual reachability distance below eps means: both samples have a core distance below eps and are nearer than eps; rows with missing values are joined at infinity |
| C67 | labels of `fit`, of the parallel search and of any spanning tree, related to the data and to `dbscan_clustering` | a cluster of the condensed tree is one side of a merge of the single-linkage hierarchy; it is joined below the merge distance and apart from the rest up to it; a sole root cluster keeps the samples above one density, a node of the hierarchy as well |
| C68 | leaving densities and strengths of `fit`, of the parallel search and of any spanning tree, plain and weighted | a sample leaves where the side of a merge that holds it is too small: the smallest node above it of at least min_cluster_size; the tree's components below a distance are the density-connected groups, so that distance is a fact about the samples; strengths are ratios of these densities |
| C69 | labels, leaving densities and cuts of identical samples | identical samples have the same neighbours, are core at the same distances and are then connected; from C66, C67 and C68. The labels themselves may differ at a tie, which is refuted |
| C70 | two fits of related data: more samples, changed distances, changed min_samples and min_cluster_size | core samples, chains and large enough groups of the first data set are carried to the second; by C68 and C66 this bounds leaving densities and cuts |
| C71 | stored sparse distances through both precomputed back ends, cut and clustered | core distances and mutual reachability entries of the stored rows describe the chains of core samples (C12, C13); edges of density zero never join a reported cluster (C08), and a sample joined by positive edges to one that leaves at positive density does so too (C68) |
| C72 | detect on complete rows, then branch_fit, with every output | the run of C47 gives the joined arrays; every reported list is read off them row by row; the reported clusters are the only ascending enumerations, so the branch step (C38) applies to them |
| C73 | `HDBSCAN.fit` with cannot-link arguments (algorithm="kruskal", all pairs or nearest neighbours): the arguments reach the spanning tree unchanged after the rows with missing values were dropped | a bridged spanning tree (C09) puts constrained rows apart (C08), and labels are copied to the places of the finite rows (C52); constraints of another size are rejected before the tree is built |
| C74 | `HDBSCAN.fit` with semi_supervised=True on feature data (labels as integers, `None` for NaN and infinity; labels that are not whole numbers and check_X_y's own checks are not modelled) | rows are paired with their labels, so dropping rows drops their labels; the BCubed dictionaries commute with a one-to-one renaming of the labels; C48 and C52 for the report |
| C75 | the whole fit (dense Kruskal and Borůvka spanning trees, sample weights at the spanning tree), stated with density-connected groups of min_cluster_size samples (`S_Split.parted`) | two groups apart give a node of the linkage tree whose two sides are both heavy enough, so a condensed split and two clusters below it; conversely a split without ties leaves two groups apart |
| C76 | the whole fit with `max_cluster_size` (any spanning tree, with missing rows, sample weights at the spanning tree), stated with the clusters of the condensed tree that have at most `m` rows (`S_MaxSize.fitting`) | the selected clusters are an antichain of fitting clusters that meets every fitting one, so its shape decides between noise, `KeyError` and at least two clusters; sizes of labels are sizes of condensed clusters |
| C77 | two whole fits of the same rows (missing rows included) with the same `min_samples` and any two settings; also from a spanning tree, with and without sample weights | every reported cluster is a set of samples `solid` in the one single-linkage hierarchy (all samples below a node, or all samples leaving the root at one density), so two of them are nested or apart (`never_cross`); a cluster of the condensed tree for a larger `min_cluster_size` is exactly one that the smaller size also has and whose sibling is also large enough (`hierarchy_cluster_of_size`); a larger `min_cluster_size` together with a larger persistence threshold (`stricter`) leaves a subset of the clusters of the hierarchy; with `leaf`, each cluster of the stricter fit contains one of the other, hence at most as many |
| C78 | whole runs of `PLSCAN` and `HDBSCAN` on the same rows (no missing values; brute-force tree), and both on any spanning tree, also with `base_n_clusters` | each PLSCAN layer and the `leaf` clustering for some `min_cluster_size` have the same clusters and noise (`same_partition`), unless the hierarchy never splits; assumes distinct edge lengths, or that PLSCAN's sort orders the rescaled edges as HDBSCAN's sort orders the edges (`C78_sorting_alike`: true if it used the same sort); HDBSCAN's success is part of the conclusion |
| C79 | `HDBSCAN` objects on feature data as records of attributes (`M_Session.v`): constructor, `set_params`, `fit` assignment by assignment, `dbscan_clustering`, `condensed_tree_`, `minimum_spanning_tree_` | `fit_object` refines the function `fit` of C32; induction over histories with `last_success`; `complete_run` (a label and strength per row, trees for two rows or more) is proved of `fast_hdbscan` for any back end. `single_linkage_tree_` is the attribute itself; other kinds of fits of the same object: C86 |
| C80 | `compute_total_persistence` with the arithmetic of line 244 (`M_Scores.v`), inside the whole PLSCAN run of C57 | a peak is above its left neighbour, which is a sum of positive terms; `exp(-1/lambda)` is any function into [0, 1]; exact arithmetic (with float32 rounding a sum may fail to grow) |
| C81 | the run of C41-C45 and the fit of C32 with and without `cluster_selection_epsilon` (`P_EpsMerge.v`, `P_EpsMergeTop.v`) | both runs select the same clusters first; the search replaces each by itself or by a cluster above it, or loses it. Which clusters can be lost is C41 (`Properties_Lost.v`): parts of a splitting cluster outside the merged one that has a higher number than some leaf below the merged one; none with one merge, none in two levels |
| C82 | the fit of C32 and the run of C45 (`P_Parts.v`, `P_PartsTop.v`) | a side of a merge is what shorter edges connect; without ties the condensed tree's clusters are exactly the parts (also for one direction of 'eom'), and the leaves are the parts without a smaller one. With ties the order of the rows decides (`C75_ties_refuted`) |
| C83 | the fit of C32 on two data sets and on both together (`P_Far.v`, `P_FarTop.v`) | the parts (C82) of both together are the parts of each and the two sets themselves; two rows are connected exactly beyond the height at which their branches meet |
| C84 | `_knn_graph_to_sparse` and `try_connect_knn_graph` (called by nothing else in the package; pynndescent's functions are parameters) | C11 for the stored entries; both graphs have the same components at every finite threshold, then C15's argument. `connect_graph`'s return value is not used by the code (`C84_answer_of_connect_graph_not_used`) |
| C85 | the weighted runs of C51 and C28 and the unweighted one (`P_SizeHom.v`: the whole of hdbscan.py:497-574 under a change of sizes) | a map of sizes that keeps order and sums changes nothing but the sizes of cluster rows; rows of single samples keep size 1, which is why `eom` is excluded |
| C86 | `HDBSCAN` objects with all three ways to fit them (`M_SessionMixed.v`): features, features with labels, `metric='precomputed'` with or without labels; `_raw_data`, `_raw_labels`, `_all_finite` and results assignment by assignment, every exception in its place; the runs themselves are `fast_hdbscan`, `semi_fast_hdbscan` and `graph_fast_hdbscan` | everything that fit calls is one record `parts`; `mfit` refines the function `moutcome` of parameters and arguments; induction over histories for results and, separately, for the data shown with the spanning tree (`mlast_data`); completeness of the labelled and the graph run is proved for any back end; which labels are refused is stated on the labels themselves. Which data scikit-learn's validators take is a parameter; a sparse matrix given as features fails in `np.isfinite` with `TypeError` (numpy's behaviour, trusted) |
| C87 | `PLSCAN` objects as records of attributes (`M_SessionPlscan.v`): `set_params`, `fit_predict` assignment by assignment, `fit`; an input is data with weights, the checks of each are parameters, and so is `build_cluster_layers` in the history theorems | `proper_layers` (what the history theorems need of the layers: at least one, one label of at least -1 for every sample) is proved of `build_cluster_layers` for every tree of n - 1 edges, every setting, infinite distances included; the tree over such layers never raises, whatever the sorting; hence a call changes all result attributes or none, and induction over histories gives those of the last success. `min_cluster_sizes_` and `total_persistence_` are assigned with the layers and are opaque here |
| C88 | `SubClusterDetector` and `BranchDetector` objects as records of attributes (`M_SessionDetector.v`): `set_params`, `fit` with other labels and strengths, the changes that a BranchDetector makes afterwards, `propagated_labels()`; clusterers are records of what a detector reads, in any state, among them HDBSCAN objects after any history | whatever is found lies in clusters that are not empty, so the threshold on branches never raises and a fit changes all attributes or none; induction over histories. Sample weights and `_core_distances` are left out; the choice and the checks of the settings are a parameter |
| C89 | `linkage_trees_`, `condensed_trees_` of detectors (`M_ReportTrees.v`) | every part is either in several components or was clustered from its sorted spanning tree; the trees are built again from that tree, by the functions that the clustering used, so C20–C24 apply. Remapping rows and the threshold on branches leave the trees alone. The plotting wrappers are left out |
| C41-C45 | `clusters_from_spanning_tree` complete | composition of C21-C31 |

## 5. Findings (properties the code violates)

Each is a theorem `..._refuted` with a concrete input.

| theorem | what goes wrong |
|---|---|
| `C05_signed_matrix_refuted` | `_validate_cannot_link` adds the two triangles; entries of opposite sign cancel and the constraint disappears |
| `C05_one_triangle_unvalidated_refuted` | without validation a matrix with one triangle filled constrains only one direction and linked samples can be merged |
| `C10_numbered_by_smallest_sample_refuted` | `unbridge_mst` numbers components by union-find root order, not as its docstring says |
| `C14_isolated_sample_refuted` | `select_components` reads the next row when a row is empty: with `min_samples=1` a sample without neighbours is joined to a stranger at distance 0 |
| `C14_directed_graph_refuted` | on a graph that stores edges from one end only (the lens graph) the tree is not minimal |
| `C14_self_loops_refuted` | self loops sort first in every row; if no row offers another edge the search stops although the graph is connected |
| `C15_rounding_refuted` | the precomputed Boruvka path compares float32 distances; two distances that round to the same number give a tree with other clusters than Kruskal's |
| `C17_reproducible_refuted` | the `reproducible` variant's slice of the bounds is a view, so threads of one block still see each other's writes: two schedules give different edges |
| `C18_min_samples_refuted` | with `min_samples >= n` all core distances are infinite, no candidate is found and sample index -1 is used (an explicit error in the model) |
| `C18_own_neighbour_refuted` | the reported neighbours drop column 0 of the query, which need not be the sample itself when it has duplicates |
| `C23_min_cluster_size_one_refuted` | `condense_tree` with a minimum size of 1 loses samples |
| `C25_max_cluster_size_refuted` | the root's size is recorded one too small, so `max_cluster_size` can select a root that is too large |
| `C27_single_cluster_refuted` | labelling raises `KeyError` if exactly one cluster other than the root is selected |
| `C28_infinite_distances_refuted` | with infinite distances a selected cluster may get no label at all: gaps in the numbering |
| `C30_no_cluster_is_lost_refuted` | `segments_in_branch` uses `searchsorted` without comparing the result: the epsilon search can return a wrong set of clusters |
| `C31_unsplit_tree_refuted` | a persistence threshold on a hierarchy without splits raises `IndexError` |
| `C32_two_finite_rows_refuted` | with exactly two finite rows the renumbered linkage tree reuses node ids: it is not a hierarchy |
| `C32_one_finite_row_refuted` | with exactly one finite row and other rows `fit` raises `IndexError`; the row alone is accepted |
| `C32_spanning_tree_refuted` | the spanning tree reported for data with missing values still uses positions among the finite rows |
| `C33_constraints_dropped_refuted` | cannot-link constraints (and the choice of algorithm) are ignored without a warning for other metrics and for Euclidean data with more than 30 columns |
| `C37_gaps_refuted` | `_build_cluster_tree` looks a label's group up by its rank among the labels present; if a label is missing, clusters end up below the wrong parent |
| `C37_empty_cluster_refuted` | a run with infinite distances produces such labels, and its tree names a cluster without samples |
| `C38_infinite_lens_refuted` | infinite lens values (as `compute_centrality` gives for samples at the centroid) leave gaps in the sub-labels, and samples of two clusters share a final label |
| `C38_missing_neighbour_refuted` | a missing neighbour (index -1) is read as the last sample of the data |
| `C38_branch_function_refuted` | `find_branch_sub_clusters` passes arguments that do not fit and never returns |
| `C39_clusters_stay_apart_refuted` | propagation gives all samples of a cluster without sub-clusters the last label of the cluster before it |
| `C39_zero_lens_refuted` | lens values of zero make propagation divide by zero |
| `C39_isolated_sample_refuted` | a sample without a neighbour in its cluster (user-supplied labels) makes propagation loop forever |
| `C40_max_cluster_size_ignored_refuted` | labelled samples switch `max_cluster_size` off |
| `C48_cannot_link_with_labels_refuted` | labelled samples select a cluster joined by an infinite bridge, so samples that must not be linked share a label |
| `C49_ties_refuted` | with ties the clusters depend on the order of the samples: 0, 1, 3, 4, 6, 7, 8 on a line (minimum size 3) gives two clusters, the same samples backwards give only noise |
| `C50_identical_samples_refuted` | the first neighbour is taken for the sample itself; for identical samples it may be the other one, and the two end up infinitely far apart |
| `C51_units_refuted` | weighted Borůvka mixes distances and squared distances and takes the root of both: two samples are reported closer than they are |
| `C51_order_refuted` | for the same reason the order in which samples join differs from weighted Kruskal with all neighbours |
| `C51_heavy_weights_fail` | weights of more than twice min_samples on average make weighted Borůvka ask for no neighbours; the query then reads and writes outside of empty arrays (an explicit error in the model) |
| `C51_light_neighbours_refuted` | the number of neighbours looked at follows the average weight; light neighbours do not make the weight and the core distance is silently too small |
| `C51_unit_weights_refuted` | with weights the sample itself counts towards min_samples, without weights it does not |
| `C52_cannot_link_refuted` | detection takes samples that leave at density zero for missing rows; with cannot-link constraints there are such samples in finite data, the labels are then shortened but the spanning tree is not, and detection raises `IndexError` (always: `C52_zero_density_fails`) |
| `C52_sub_strength_of_samples_in_no_cluster_refuted` | `remap_results` fills `sub_cluster_probabilities_` with 1 (sub_clusters.py:222), `update_labels` with 0: of the samples in no cluster, noise has sub-cluster strength 0 and rows with missing values have 1 |
| `C44_cannot_link_with_persistence_refuted` | a persistence threshold merges clusters across an infinite bridge, so samples that must not be linked share a label (it cannot happen if every finite edge is short enough for the threshold: `C44_cannot_link_with_short_edges`) |
| `C57_size_one_refuted` | PLSCAN accepts `base_min_cluster_size=1`; `condense_tree` then loses samples: most become noise and the layers number clusters without samples |
| `C57_single_sample_refuted` | PLSCAN raises `ValueError` (maximum of an empty table) for a single sample, which HDBSCAN accepts |
| `C60_min_samples_one_refuted` | for `min_samples=1` core distances are zero while neighbours are not the samples themselves: the reported graph gives a link distance zero in one direction and its length in the other (neighbours always: `C60_single_sample`) |
| `C60_spanning_trees_refuted` | `spanning_trees_` pairs a tree whose ends are places within a cluster with the whole data, so the edges it draws join rows of other clusters (`approximation_graph_` does translate) |
| `C61_negative_weights_refuted` | a negative sample weight is accepted; the size rules of the hierarchy then mean nothing |
| `C61_nan_weight_refuted` | PLSCAN accepts NaN as weight of all samples, unlike HDBSCAN (`C61_nan_weight_rejected`) |
| `C62_size_one_refuted` | HDBSCAN accepts `min_cluster_size=1`, but a detector that takes the size over from it rejects it |
| `C64_overflow_refuted` | squared distances overflow in float32 when coordinates differ by 2^64 or more: no neighbour is found, its index stays -1 and the code reads and links the last sample instead |
| `C64_underflow_refuted` | different samples closer than about 2^-75 are at distance zero (infinite density) |
| `C64_core_distance_refuted` | core distances are float32 roots, tree weights float64 roots of the same numbers: a link of the tree can be shorter than the reported core distance of its end |
| `C64_scale_refuted` | densities are float32 although stored distances are float64: finite distances of 2^150 have density zero and every sample is noise, distances of 2^-150 have infinite density and clusters merge; the same data at ordinary scale has three clusters |
| `C65_own_neighbour_refuted` | all searches drop the first entry of the sorted row as the sample itself; of two samples at the same place one is then listed as its own neighbour (and misses the other one) |
| `C66_missing_row_cluster_refuted` | `dbscan_clustering` relabels no rows: after a fit with min_samples=1 every row with missing values is a cluster of its own, although `labels_` calls it noise |
| `C66_core_samples_as_noise_refuted` | `dbscan_clustering` also drops connected core samples if there are fewer than min_samples of them, which DBSCAN* does not do |
| `C67_single_cluster_with_epsilon_refuted` | with allow_single_cluster, 'eom' and cluster_selection_epsilon a selected root is cut at 1/epsilon although its two sides merge beyond epsilon: the one reported cluster consists of separate groups, with a sample between them left out as noise |
| `C69_identical_samples_same_label_refuted` | two identical samples get different labels: one joins its cluster just before the cluster merges with another, the other one, at the same distance, just after; which is which depends on the order of the rows |
| `C73_unvalidated_constraints_refuted`, `C73_constraints_of_all_rows_raise` | cannot-link constraints are not renumbered when rows with missing values are dropped: constraints for all rows are always rejected with a message about the data size, and with validate_cannot_link=False they are applied to other rows, so that two constrained rows end in one cluster |
| `C74_labels_below_minus_one_refuted` | the semi-supervised fit tests for a label different from -1 where its message (and the algorithm) ask for a label above -1: labels that are all -2 are accepted and the fit is silently unsupervised |
| `C75_allow_single_cluster_refuted` | allow_single_cluster=True reports only noise when the hierarchy never splits, which is the case of one group it is meant for |
| `C75_single_cluster_not_allowed_refuted` | allow_single_cluster=False still reports one cluster of all samples when cluster_selection_epsilon exceeds the distance of the last split (`traverse_upwards` returns the root) |
| `C75_ties_refuted` | evenly spaced samples are two clusters or all noise depending on the order of the rows |
| `C76_fit_fails_refuted` | `fit` raises `KeyError` when exactly one cluster (or one chain of clusters) has at most `max_cluster_size` rows |
| `C76_root_off_by_one_refuted` | with `allow_single_cluster=True` a cluster of `max_cluster_size + 1` rows is reported when that is all rows |
| `C76_epsilon_ignores_the_maximum_refuted` | `cluster_selection_epsilon` merges clusters beyond `max_cluster_size` |
| `C76_leaf_ignores_the_maximum_refuted` | `cluster_selection_method='leaf'` ignores `max_cluster_size` |
| `C77_excess_of_mass_refuted` | with `eom` a larger `min_cluster_size` can give more clusters (2 becomes 3) |
| `C77_default_min_samples_refuted` | `min_samples` defaults to `min_cluster_size`, so changing only `min_cluster_size` can give clusters that partly overlap the previous ones |
| `C77_single_cluster_with_epsilon_refuted` | the one cluster of `allow_single_cluster` with an epsilon can partly overlap the clusters of another fit |
| `C78_no_split_refuted` | data whose hierarchy never splits: PLSCAN reports one cluster of all samples, HDBSCAN noise |
| `C78_ties_refuted` | PLSCAN sorts edges by length only, HDBSCAN by length and sample numbers: for four equally spaced samples PLSCAN can report two clusters that HDBSCAN reports for no `min_cluster_size` |
| `C79_failed_fit_destroys_results_refuted` | `fit` on data with missing values in all rows but one raises `IndexError` after it has overwritten the results: `labels_` has one entry, the previous results are lost |
| `C79_spanning_tree_of_other_data_refuted` | `_raw_data` is assigned before anything can fail: after a failing fit `minimum_spanning_tree_` combines the old tree with the new data, which may have fewer rows |
| `C79_plscan_parameters_refuted` | PLSCAN validates in its constructor only: `set_params(max_layers=0)` and the like are not refused |
| `C80_denser_clusters_refuted` | the score adds `death - birth * lambda_death` (line 244), probably meant as `(death - birth) * lambda_death`: the denser a cluster, the lower the score of its layer |
| `C81_no_new_noise_refuted` | a fit with the defect of `C30_no_cluster_is_lost_refuted`: seven pairs on a line, all clusters; with `cluster_selection_epsilon=5` two pairs at distance 3 become one cluster, two other pairs at distance 3 become noise |
| `C83_excess_of_mass_refuted` | with `eom`, rows far away can join two clusters into one: a cluster of the hierarchy can be selected only when something else makes it differ from the root |
| `C85_excess_of_mass_refuted` | with sample weights, rows of single samples count as 1 in the stability of a cluster while its birth counts all the weight (cluster_trees.py:225, 664-667): multiplying all weights, min_samples and min_cluster_size by 10 turns three clusters into two; heavy leaf clusters have negative stability |
| `C86_spanning_tree_withheld_refuted` | `metric='precomputed'` sets `_raw_data = None` before the labels are checked: after such a failing fit `minimum_spanning_tree_` is `None`, though the object still holds the tree of its features |
| `C86_tree_of_a_graph_with_features_refuted` | the other way round: after a failing fit to features `minimum_spanning_tree_` shows the tree of an earlier graph with these features |
| `C88_detection_on_other_data_refuted` | `HDBSCAN.fit` assigns `_raw_data` before anything can fail: after a failing fit to Y a detector combines the labels and the trees of the earlier data X with lens values computed from Y, and finds other branches without any error |

Also visible in the model without a separate theorem: `allow_single_cluster=True`
has no effect on a hierarchy that never splits (`C43_example_single`); with
labelled samples a leaf cluster whose stability is negative (possible with
weights or rounding) may be left out, since the semi-supervised recursion starts
from zero instead of taking the leaf (hypothesis on leaves in C40).

## 6. Assumptions of the theorems

`Print Assumptions` reports "Closed under the global context" for every property
theorem except those of C64: no axioms, own or from the standard library, are
used. The theorems of C64 are about real numbers through Flocq and depend on four
axioms of the standard library: `ClassicalDedekindReals.sig_not_dec`,
`ClassicalDedekindReals.sig_forall_dec`,
`FunctionalExtensionality.functional_extensionality_dep` and
`Classical_Prop.classic`.

Arithmetic assumptions appear as hypotheses of the theorems and have proved
instances: `WOrd` (instances `ZInf`, `NInf`, `QInf`), `SOrd` (`NatSize`,
`QcSize`), `LamLaws` (`exact_lam_laws`), `ScoreLaws` (`exact_laws`, in IEEE numbers `float_score_laws`), `BLaws` (`exact_b_laws`),
`setting_ok` (`exact_ok`); and in IEEE numbers `WOrd` (`FloatOrd`), `Coord`
(`FloatCoord`), `LamLaws` (`lam_laws`), `setting_ok` (`float_ok`).
`eom_recursion` is compiled with `fastmath=True` and node sizes are cast to
float32; neither is modelled.
