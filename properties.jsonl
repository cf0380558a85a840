{"id": "C01", "title": "Merging bookkeeping is exactly connectivity", "statement": "After any sequence of merges, two samples are reported as belonging to the same component if and only if they are joined by a chain of merged pairs; a component look-up always terminates and always returns a member of that component.", "quantifier": "every number of samples, every sequence of merges of valid sample ids, every pair of samples", "why_tests_cant": "A union-find bug shows only after particular merge orders (rank ties, swaps); the number of merge histories is unbounded.", "anchors": ["fast_hdbscan/disjoint_set.py:ds_find", "fast_hdbscan/disjoint_set.py:ds_union_by_rank", "fast_hdbscan/disjoint_set.py:ds_union_by_size"]}
{"id": "C02", "title": "Component look-ups are read-only and shallow", "statement": "A component look-up never changes the shared structure, so concurrent look-ups made by parallel loops return the same answers under every interleaving; and the chain it walks is at most log2(n) long.", "quantifier": "every history of merges, every interleaving of any number of concurrent look-ups", "why_tests_cant": "A data race appears only under some schedules and the depth bound is about every history.", "anchors": ["fast_hdbscan/disjoint_set.py:ds_find", "fast_hdbscan/boruvka.py:update_component_vectors"]}
{"id": "C03", "title": "Kruskal output is a minimum spanning forest", "statement": "For any weighted edge list the Kruskal back end returns a subset of the given edges, without cycles, such that for every threshold t the components of the returned edges of weight <= t are exactly the components of the given edges of weight <= t (the bottleneck form of minimality), and its total weight is minimal among all forests that connect the same samples.", "quantifier": "every number of samples, every finite edge list, every total preorder of weights (ties included), every threshold", "why_tests_cant": "Minimality is a comparison with every other forest; ties and disconnected inputs give infinitely many shapes.", "anchors": ["fast_hdbscan/kruskal.py:_kruskal_core", "fast_hdbscan/kruskal.py:_run_kruskal_core"]}
{"id": "C04", "title": "Kruskal component labels describe the returned forest", "statement": "The component labelling returned together with the forest gives two samples the same label exactly when they are connected in the forest, and the number of returned edges is the number of samples minus the number of labels.", "quantifier": "every edge list and every pair of samples", "why_tests_cant": "Path compression and the early exit change the parent array on every input differently.", "anchors": ["fast_hdbscan/kruskal.py:_get_component_labels_jit", "fast_hdbscan/kruskal.py:_kruskal_core"]}
{"id": "C05", "title": "Pairwise cannot-link constraints hold in the forest", "statement": "With a symmetric cannot-link relation, no two constrained samples are ever connected by the returned forest, transitively; and the constraint never costs more than needed: an edge of the input joining two different final components joins two components that contain a constrained pair.", "quantifier": "every edge list, every symmetric cannot-link relation, every pair of samples", "why_tests_cant": "Violations need particular chains of merges; the conflict lists are a hand-written linked list in a pool.", "anchors": ["fast_hdbscan/kruskal.py:_kruskal_core_constrained"]}
{"id": "C06", "title": "Group cannot-link constraints hold in the forest and agree with the pairwise form", "statement": "With group constraints (samples carrying the same non-negative group label must stay apart) no component of the returned forest holds two different samples of one group, for any number of groups (also beyond one 64-bit word); the returned edges equal those produced by the pairwise kernel for the constraints 'same group'.", "quantifier": "every edge list, every assignment of samples to groups, any number of groups", "why_tests_cant": "Bit-mask word boundaries and merge orders are unbounded.", "anchors": ["fast_hdbscan/kruskal.py:_kruskal_core_group_constrained"]}
{"id": "C07", "title": "No constraints means the unconstrained result", "statement": "Running a constrained kernel with an empty constraint set returns the same edges, in the same order, as the unconstrained kernel.", "quantifier": "every edge list", "why_tests_cant": "Equality of two programs on all inputs.", "anchors": ["fast_hdbscan/kruskal.py:_kruskal_core", "fast_hdbscan/kruskal.py:_kruskal_core_constrained", "fast_hdbscan/kruskal.py:_kruskal_core_group_constrained"]}
{"id": "C08", "title": "Cannot-link constraints survive to the final labels", "statement": "Without a persistence threshold, two samples that must not be linked never receive the same non-noise label.", "quantifier": "every data set, constraint set and combination of accepted parameters without cluster_selection_persistence", "why_tests_cant": "Interaction of bridging, condensation, selection, simplification and labelling over all inputs.", "anchors": ["fast_hdbscan/hdbscan.py:compute_minimum_spanning_tree", "fast_hdbscan/hdbscan.py:clusters_from_spanning_tree", "fast_hdbscan/cluster_trees.py:simplify_hierarchy"]}
{"id": "C09", "title": "Bridging a forest yields a spanning tree and adds only infinite edges", "statement": "Given a forest and its component labels, bridging returns exactly n-1 edges that connect all samples; the given edges come first, unchanged, and every added edge has infinite weight.", "quantifier": "every forest on every number of samples", "why_tests_cant": "Holds for every number and arrangement of components.", "anchors": ["fast_hdbscan/precomputed.py:bridge_forest_with_inf"]}
{"id": "C10", "title": "Un-bridging recovers the forest", "statement": "Removing the infinite edges from a bridged tree returns the finite edges and component ids such that two samples have the same id exactly when finite edges connect them; ids are 0..k-1.", "quantifier": "every list of edges, finite or infinite", "why_tests_cant": "Path halving and numbering depend on the whole edge list.", "anchors": ["fast_hdbscan/precomputed.py:unbridge_mst"]}
{"id": "C11", "title": "Sparse symmetrisation keeps the lighter direction", "statement": "The symmetrised graph contains i-j and j-i with the same weight, namely the minimum over all stored entries (i,j) and (j,i); it has an entry exactly when one was stored; explicit zeros are kept and the diagonal is dropped.", "quantifier": "every sparse matrix given as a list of entries, in every order, duplicates included", "why_tests_cant": "Lexsort plus grouped reduction plus mirroring has to be right for every sparsity pattern.", "anchors": ["fast_hdbscan/precomputed.py:_symmetrize_min_csr"]}
{"id": "C12", "title": "Precomputed core distances are order statistics", "statement": "The core distance of a sample is the min_samples-th smallest stored distance of its row, infinite when it has fewer neighbours, and zero when min_samples <= 1.", "quantifier": "every graph, every sample, every min_samples", "why_tests_cant": "Quantifies over every row content and k.", "anchors": ["fast_hdbscan/precomputed.py:_core_distances_csr"]}
{"id": "C13", "title": "Mutual reachability weights", "statement": "Every edge weight used by the Kruskal back ends is max(distance, both core distances); it is symmetric and never below the distance.", "quantifier": "every graph and core-distance vector", "why_tests_cant": "All edges of all graphs.", "anchors": ["fast_hdbscan/kruskal.py:_compute_mrd_csr_flat", "fast_hdbscan/kruskal.py:_build_mrd_edges_knn", "fast_hdbscan/precomputed.py:_build_core_graph_csr"]}
{"id": "C14", "title": "Boruvka on a stored graph is a minimum spanning forest", "statement": "On a stored graph without self loops, whose rows are sorted by weight and whose samples without neighbours come last, the graph-based Boruvka terminates and returns edges of the graph, without cycles, joining exactly what the graph joins, with labels and a count that describe the components. If each edge is stored from both ends the forest has the bottleneck minimality of C03, even when weights tie. (Outside these conditions the code misbehaves: see the refutations.)", "quantifier": "every stored graph, every tie pattern; minimality for every symmetric one", "why_tests_cant": "Boruvka with ties is the classic case that passes tests and fails on rare inputs.", "anchors": ["fast_hdbscan/core_graph.py:select_components", "fast_hdbscan/core_graph.py:merge_components", "fast_hdbscan/core_graph.py:update_graph_components", "fast_hdbscan/core_graph.py:boruvka_mst"]}
{"id": "C15", "title": "Boruvka and Kruskal back ends agree", "statement": "For the same distances the two algorithms give the same components at every distance threshold, hence the same multiset of edge weights.", "quantifier": "every graph and threshold", "why_tests_cant": "Equality of two algorithms on all inputs.", "anchors": ["fast_hdbscan/precomputed.py:compute_mst_from_precomputed_sparse", "fast_hdbscan/precomputed.py:compute_mst_from_precomputed_sparse_kruskal", "fast_hdbscan/boruvka.py:parallel_boruvka"]}
{"id": "C16", "title": "Parallel tree queries find a lightest outgoing edge under every schedule", "statement": "For every component, after a parallel query round, the best candidate recorded by its samples has the smallest mutual reachability distance among all edges leaving the component, whatever the interleaving of the parallel queries and whatever stale bounds they read.", "quantifier": "every point set, component assignment, space tree and interleaving", "why_tests_cant": "The pruning bound is shared without locks; schedules cannot be enumerated by tests.", "anchors": ["fast_hdbscan/boruvka.py:component_aware_query_recursion", "fast_hdbscan/boruvka.py:boruvka_tree_query", "fast_hdbscan/boruvka.py:boruvka_tree_query_reproducible"]}
{"id": "C17", "title": "reproducible=True does not depend on the thread schedule", "statement": "With the reproducible option the chosen edges are the same for every interleaving.", "quantifier": "every interleaving of the queries inside a block", "why_tests_cant": "Needs all schedules; ties make the outcome depend on who writes the bound first.", "anchors": ["fast_hdbscan/boruvka.py:boruvka_tree_query_reproducible", "fast_hdbscan/boruvka.py:merge_components"]}
{"id": "C18", "title": "The parallel Boruvka spanning tree is minimal", "statement": "parallel_boruvka returns n-1 edges between existing samples forming a minimum spanning tree of the complete mutual reachability graph.", "quantifier": "every data set, min_samples and schedule", "why_tests_cant": "Combines C16 with tie handling and the k-nearest-neighbour shortcut for the first round.", "anchors": ["fast_hdbscan/boruvka.py:parallel_boruvka", "fast_hdbscan/boruvka.py:initialize_boruvka_from_knn", "fast_hdbscan/boruvka.py:merge_components"]}
{"id": "C19", "title": "Space tree stores every sample once and bounds it", "statement": "The space tree's leaves hold every sample exactly once, and each node's box contains all samples stored below it.", "quantifier": "every data matrix and leaf size", "why_tests_cant": "Hand-written introselect and recursion over all inputs.", "anchors": ["fast_hdbscan/numba_kdtree.py:build_kdtree", "fast_hdbscan/numba_kdtree.py:_recursive_build_tree", "fast_hdbscan/numba_kdtree.py:_introselect"]}
{"id": "C20", "title": "Nearest-neighbour queries are exact", "statement": "A k-nearest-neighbour query returns, sorted, the k smallest distances from the query to all samples, with indices at those distances, for every tree satisfying C19.", "quantifier": "every data set, query, k and valid space tree", "why_tests_cant": "Pruning errors need specific geometries; heaps need specific insertion orders.", "anchors": ["fast_hdbscan/numba_kdtree.py:tree_query_recursion", "fast_hdbscan/numba_kdtree.py:simple_heap_push", "fast_hdbscan/numba_kdtree.py:deheap_sort"]}
{"id": "C21", "title": "Single linkage tree is a valid dendrogram of the spanning tree", "statement": "From a spanning tree with n-1 edges sorted by weight, the single linkage tree has n-1 rows; every node except the root is a child of exactly one row; merge heights are non-decreasing; the size column is the number of samples below; the samples below the i-th merge are exactly the component of the i-th edge in the first i edges.", "quantifier": "every spanning tree", "why_tests_cant": "Path compression and id assignment over all merge orders.", "anchors": ["fast_hdbscan/cluster_trees.py:mst_to_linkage_tree", "fast_hdbscan/cluster_trees.py:linkage_merge_find", "fast_hdbscan/cluster_trees.py:linkage_merge_join"]}
{"id": "C22", "title": "dbscan_clustering returns the DBSCAN* clustering", "statement": "Cutting at a distance c gives two samples the same non-negative label exactly when they are connected by spanning-tree edges shorter than c and their component has at least min_cluster_size samples; other samples get -1; labels are 0..k-1 without gaps.", "quantifier": "every spanning tree, cut distance and minimum size", "why_tests_cant": "All cuts of all trees.", "anchors": ["fast_hdbscan/cluster_trees.py:get_cluster_labelling_at_cut", "fast_hdbscan/hdbscan.py:HDBSCAN.dbscan_clustering"]}
{"id": "C23", "title": "Condensed tree contains every sample exactly once", "statement": "For min_cluster_size >= 2 every sample is the child in exactly one row of the condensed tree.", "quantifier": "every single linkage tree and every min_cluster_size >= 2", "why_tests_cant": "Five-way case analysis in a breadth-first loop over arbitrary trees.", "anchors": ["fast_hdbscan/cluster_trees.py:condense_tree", "fast_hdbscan/cluster_trees.py:eliminate_branch", "fast_hdbscan/cluster_trees.py:bfs_from_hierarchy"]}
{"id": "C24", "title": "Condensed tree is a well-formed cluster hierarchy", "statement": "Cluster ids are n, n+1, ... without gaps; each except the root is the child of exactly one row, which comes before any row in which it is the parent; clusters split in pairs; each cluster has at least min_cluster_size samples and its size is the number of samples below it; lambda never decreases going down.", "quantifier": "every single linkage tree with non-decreasing heights, every min_cluster_size >= 2", "why_tests_cant": "Same as C23.", "anchors": ["fast_hdbscan/cluster_trees.py:condense_tree"]}
{"id": "C25", "title": "Excess-of-mass selection is an optimal flat clustering", "statement": "The clusters selected by 'eom' are pairwise disjoint (none is an ancestor of another) and their total stability is the maximum over all disjoint choices of eligible clusters; no cluster larger than max_cluster_size is selected; the root is selected only with allow_single_cluster.", "quantifier": "every condensed tree", "why_tests_cant": "Optimality compares with every antichain.", "anchors": ["fast_hdbscan/cluster_trees.py:extract_eom_clusters", "fast_hdbscan/cluster_trees.py:eom_recursion", "fast_hdbscan/cluster_trees.py:score_condensed_tree_nodes"]}
{"id": "C26", "title": "Leaf selection returns exactly the leaves", "statement": "The clusters selected by 'leaf' are exactly those that never split; they are pairwise disjoint.", "quantifier": "every condensed tree", "why_tests_cant": "All trees.", "anchors": ["fast_hdbscan/cluster_trees.py:extract_leaves", "fast_hdbscan/cluster_trees.py:cluster_tree_leaves"]}
{"id": "C27", "title": "Labels follow the hierarchy", "statement": "Every label is -1 or in 0..k-1 for k selected clusters; a sample gets label c exactly when the c-th selected cluster (by id) is its nearest selected ancestor and it did not leave at density zero; the root's special rule applies only when it is the sole selected cluster; no label look-up fails.", "quantifier": "every condensed tree and selection", "why_tests_cant": "Representatives returned by union-find must coincide with cluster ids for all trees.", "anchors": ["fast_hdbscan/cluster_trees.py:get_cluster_label_vector"]}
{"id": "C28", "title": "Reported clusters have at least min_cluster_size members", "statement": "When all merge heights are finite, every non-noise label that is reported is carried by at least min_cluster_size samples and every selected cluster is reported.", "quantifier": "every spanning tree with finite weights, min_cluster_size >= 2, 'eom' or 'leaf'", "why_tests_cant": "End-to-end over all trees.", "anchors": ["fast_hdbscan/hdbscan.py:clusters_from_spanning_tree", "fast_hdbscan/cluster_trees.py:get_cluster_label_vector"]}
{"id": "C29", "title": "Membership strengths", "statement": "Every membership strength is in [0,1]; it is 0 for noise; every reported cluster has a member of strength 1; the strength of a labelled sample is its density over the highest density at which a sample leaves its cluster, capped at 1.", "quantifier": "every condensed tree, selection and label vector", "why_tests_cant": "All values including infinite densities.", "anchors": ["fast_hdbscan/cluster_trees.py:get_point_membership_strength_vector", "fast_hdbscan/cluster_trees.py:max_lambdas"]}
{"id": "C30", "title": "cluster_selection_epsilon merges only upwards, to the lowest cluster born above epsilon", "statement": "Epsilon selection never fails. Every cluster it returns is a selected cluster that was not born below epsilon, or the lowest cluster above a selected one that was not born below epsilon (or the root). The result is duplicate free and pairwise disjoint, selected clusters not born below epsilon are kept, and from a covering selection of two or more clusters it never returns a single cluster other than the root.", "quantifier": "every condensed tree, disjoint selection, monotone threshold test, and every order of rows with equal parent", "why_tests_cant": "Depends on id order and tree shape.", "anchors": ["fast_hdbscan/cluster_trees.py:cluster_epsilon_search", "fast_hdbscan/cluster_trees.py:segments_in_branch", "fast_hdbscan/cluster_trees.py:traverse_upwards"]}
{"id": "C31", "title": "cluster_selection_persistence removes exactly the short-lived splits", "statement": "Applied to a condensed tree with at least one split, the persistence threshold yields a condensed tree again: every sample once, consecutive cluster ids with parents before children, sizes and samples of the remaining clusters unchanged. A split remains exactly when both sides last at least the threshold, every remaining cluster contains a sample whose density exceeds the cluster's birth by the threshold, a higher threshold never keeps more clusters, and nothing changes when every cluster is persistent.", "quantifier": "every condensed tree with a split, every threshold", "why_tests_cant": "Merging and relabelling over all tree shapes; merges cascade.", "anchors": ["fast_hdbscan/cluster_trees.py:simplify_hierarchy"]}
{"id": "C32", "title": "Samples with non-finite features do not change the others", "statement": "fit on data with NaN/inf rows gives those rows label -1 and probability 0, and all other rows the result of fitting the finite rows alone; the reported trees cover all rows and are well formed.", "quantifier": "every pattern of non-finite rows", "why_tests_cant": "All patterns, including very few finite rows.", "anchors": ["fast_hdbscan/hdbscan.py:remap_condensed_tree", "fast_hdbscan/hdbscan.py:remap_single_linkage_tree", "fast_hdbscan/hdbscan.py:HDBSCAN.fit"]}
{"id": "C33", "title": "Parameter validation", "statement": "A call is rejected with an error exactly when a documented parameter rule is broken; in particular constraints are never silently ignored.", "quantifier": "every combination of parameters, metrics, dimensions and sample weights", "why_tests_cant": "Combinatorial dispatch.", "anchors": ["fast_hdbscan/hdbscan.py:fast_hdbscan", "fast_hdbscan/hdbscan.py:compute_minimum_spanning_tree"]}
{"id": "C34", "title": "PLSCAN layers are disjoint clusterings", "statement": "At every minimum cluster size the clusters alive at that size are pairwise disjoint, and are either the root alone or at least two clusters.", "quantifier": "every leaf tree and every size", "why_tests_cant": "All trees and sizes.", "anchors": ["fast_hdbscan/layer_clusters.py:min_cluster_size_barcode", "fast_hdbscan/layer_clusters.py:build_cluster_layers"]}
{"id": "C35", "title": "Peak finding", "statement": "The reported peaks are exactly the midpoints of the flat local maxima of the persistence curve.", "quantifier": "every finite sequence", "why_tests_cant": "Plateaus at arbitrary places.", "anchors": ["fast_hdbscan/layer_clusters.py:find_peaks"]}
{"id": "C36", "title": "Diverse peaks are diverse", "statement": "The selected layers are pairwise at most as similar as the threshold, contain the most persistent peak, and number at most max_layers; similarity is in [0,1].", "quantifier": "every list of peaks and similarity function", "why_tests_cant": "All inputs.", "anchors": ["fast_hdbscan/layer_clusters.py:select_diverse_peaks", "fast_hdbscan/layer_clusters.py:jaccard_similarity"]}
{"id": "C37", "title": "Layer cluster tree gives each cluster one parent", "statement": "In the layer cluster tree every cluster of every layer is the child of exactly one parent, which lies in a higher layer and shares a sample with it, or is the root.", "quantifier": "every stack of label vectors without gaps", "why_tests_cant": "All stacks.", "anchors": ["fast_hdbscan/layer_clusters.py:_build_cluster_tree", "fast_hdbscan/layer_clusters.py:build_layer_cluster_tree"]}
{"id": "C38", "title": "Sub-clusters refine clusters", "statement": "Two samples get the same final label only if they have the same parent cluster and the same sub-cluster label; noise stays noise; probabilities stay in [0,1].", "quantifier": "every clustering and sub-clustering", "why_tests_cant": "Running offsets over all label patterns.", "anchors": ["fast_hdbscan/sub_clusters.py:update_labels", "fast_hdbscan/branches.py:apply_branch_threshold"]}
{"id": "C39", "title": "Label propagation terminates and relabels only noise", "statement": "Propagation terminates, labels every noise sample of a cluster whose graph is connected, never changes a non-noise label, and keeps different clusters apart.", "quantifier": "every connected cluster graph and sub-labelling", "why_tests_cant": "Termination and all graphs.", "anchors": ["fast_hdbscan/sub_clusters.py:propagate_labels_per_cluster", "fast_hdbscan/sub_clusters.py:propagate_sub_cluster_labels"]}
{"id": "C40", "title": "Semi-supervised selection is disjoint and optimal", "statement": "Selection with labelled samples terminates without look-up failures or divisions by zero and returns pairwise disjoint clusters. Among all disjoint choices it has the largest total BCubed F-measure and then the largest total stability; ties go to the larger cluster. Without labels it makes the same choice as the unsupervised method.", "quantifier": "every condensed tree and partial labelling", "why_tests_cant": "All trees and labellings.", "anchors": ["fast_hdbscan/cluster_trees.py:extract_clusters_bcubed", "fast_hdbscan/cluster_trees.py:eom_recursion_bcubed"]}
{"id": "C41", "title": "cluster_selection_epsilon loses no cluster", "statement": "Every selected cluster is, after the epsilon selection, itself selected or below a selected cluster, so no sample of a selected cluster becomes noise.", "quantifier": "every condensed tree, selection and epsilon", "why_tests_cant": "Depends on the order of cluster ids and on which clusters split; small examples rarely show a loss.", "anchors": ["fast_hdbscan/cluster_trees.py:cluster_epsilon_search", "fast_hdbscan/cluster_trees.py:segments_in_branch"]}
{"id": "C42", "title": "cluster_selection_persistence works when no cluster splits", "statement": "With a positive persistence threshold, clustering data whose hierarchy contains no split still returns labels.", "quantifier": "every data set whose condensed tree has no cluster rows", "why_tests_cant": "An out-of-bounds read in compiled code returns whatever is in memory; a test may pass by luck.", "anchors": ["fast_hdbscan/cluster_trees.py:simplify_hierarchy", "fast_hdbscan/hdbscan.py:clusters_from_spanning_tree"]}
{"id": "C43", "title": "Clustering a spanning tree always completes", "statement": "From any spanning tree of at least two samples the clustering step ends with one label and one strength per sample: labels are -1 or non-negative, strengths lie in [0, 1], noise has strength 0 and every cluster has a sample of strength 1. The only failure is a persistence threshold on a hierarchy that never splits.", "quantifier": "every spanning tree, finite or not, every 'eom'/'leaf' setting with min_cluster_size > 1, epsilon, persistence, with and without sample weights below min_cluster_size", "why_tests_cant": "Seven stages index each other's tables; whether an index or key is missing depends on the shape of the tree and on ties.", "anchors": ["fast_hdbscan/hdbscan.py:clusters_from_spanning_tree"]}
{"id": "C44", "title": "Cannot-link constraints survive a persistence threshold", "statement": "Two samples that must not be linked never receive the same non-noise label when cluster_selection_persistence is positive.", "quantifier": "every data set, constraint set and positive cluster_selection_persistence", "why_tests_cant": "Simplification merges clusters across infinite bridges only for particular birth and death densities.", "anchors": ["fast_hdbscan/cluster_trees.py:simplify_hierarchy", "fast_hdbscan/hdbscan.py:clusters_from_spanning_tree"]}
{"id": "C45", "title": "A clustering is what its stages promise", "statement": "Labels and strengths of a run are those of single linkage of the spanning tree, condensed at min_cluster_size, simplified by the persistence threshold if positive, with the clusters of the chosen method ('leaf': the clusters that do not split; 'eom': a disjoint covering choice, of largest total stability in exact arithmetic), merged by the epsilon search if epsilon is positive, each sample labelled by its nearest selected cluster and given its relative density as strength.", "quantifier": "every spanning tree, every combination of settings with min_cluster_size > 1, with and without sample weights", "why_tests_cant": "Composition of seven stages over all trees and settings.", "anchors": ["fast_hdbscan/hdbscan.py:clusters_from_spanning_tree"]}
{"id": "C46", "title": "A requested number of clusters is met as closely as possible", "statement": "The number of leaf clusters of a hierarchy never grows with the minimum cluster size, and the search for a requested number of clusters returns the leaf clusters of a minimum size, at most half the samples, whose number of clusters is closest to the request.", "quantifier": "every linkage tree of at least four samples, every requested number", "why_tests_cant": "Monotonicity of the number of leaves and optimality of the bisection hold for all hierarchies or not at all; tests see a few data sets.", "anchors": ["fast_hdbscan/layer_clusters.py:_binary_search_for_n_clusters", "fast_hdbscan/layer_clusters.py:build_cluster_layers"]}
{"id": "C47", "title": "A sub-clustering run is sound end to end", "statement": "For every clustering whose clusters have at least two samples, whose samples have a neighbour in their cluster and whose lens values have positive density, detecting sub-clusters ends; the final labels split each cluster by its sub-labels; the sub-labels of a cluster are the connected components of its lens graph or the clusters of a spanning tree of it; propagated labels and branch labels keep clusters apart, and the probabilities stay between zero and one.", "quantifier": "every clustering, neighbour table, spanning tree, lens function and selection setting without a persistence threshold", "why_tests_cant": "Composition of graph building, Boruvka, condensing, selection, labelling and joining over all graphs and lens functions, including termination.", "anchors": ["fast_hdbscan/sub_clusters.py:find_sub_clusters", "fast_hdbscan/sub_clusters.py:SubClusterDetector", "fast_hdbscan/core_graph.py:core_graph_clusters", "fast_hdbscan/branches.py:BranchDetector"]}
{"id": "C48", "title": "Clustering with labelled samples is sound end to end", "statement": "For every partial labelling of the samples, clustering a spanning tree ends with a clustering: strengths between zero and one, noise with strength zero, clusters of at least the minimum size numbered 0, 1, ..., and labels that follow the clusters selected with the help of the given labels. When no sample is labelled, labels and strengths are those of the unsupervised run. (Cannot-link constraints are not respected with labelled samples: see the refutation.)", "quantifier": "every spanning tree, partial labelling, selection method, minimum size, epsilon and arithmetic of scores with the stated sign rules", "why_tests_cant": "Composition of condensing, semi-supervised selection, epsilon merging and labelling over all trees and all labellings; tests see a few labelled data sets.", "anchors": ["fast_hdbscan/hdbscan.py:clusters_from_spanning_tree", "fast_hdbscan/cluster_trees.py:extract_clusters_bcubed", "fast_hdbscan/cluster_trees.py:get_cluster_label_vector"]}
{"id": "C49", "title": "The clusters depend only on the distances, not on the order of samples, the algorithm or the threads", "statement": "If no two edges of the spanning tree have the same length, then shuffling the rows of the data, using another search tree, another schedule or number of threads, or the exhaustive algorithm instead of tree search leaves noise, clusters and strengths the same; only the numbers of the clusters may change. More generally any two spanning trees that connect the same samples at every threshold give the same clusters. (With ties it is false: see the refutation.)", "quantifier": "every number of samples, distance function, order of the samples, search tree, thread schedule, minimum size and both selection methods; without epsilon and persistence thresholds", "why_tests_cant": "All orders of the samples and all schedules would have to be tried on all data sets; tests compare a handful of shuffles and ties make the outcome depend on the order.", "anchors": ["fast_hdbscan/hdbscan.py:clusters_from_spanning_tree", "fast_hdbscan/hdbscan.py:compute_minimum_spanning_tree", "fast_hdbscan/boruvka.py:parallel_boruvka", "fast_hdbscan/kruskal.py:kruskal_mst", "fast_hdbscan/cluster_trees.py:condense_tree", "fast_hdbscan/cluster_trees.py:mst_to_linkage_tree"]}
{"id": "C50", "title": "Approximate neighbours still give a spanning tree, and all neighbours give the exact one", "statement": "For a metric served by pynndescent (and for Kruskal with knn_k) the result is a spanning tree over all samples whatever neighbours are reported: the lightest forest over the reported pairs at their mutual reachability distances, completed by infinite edges; core distances and reported neighbours are the corresponding places of the rows; rows too short for min_samples are an error. If every row lists all samples, nearest first and the sample itself before the others, core distances and hierarchy are those of the exhaustive algorithm, and without ties so are the clusters. (Identical samples: false, see the refutation.)", "quantifier": "every number of samples, reported neighbour table (right, wrong or incomplete), min_samples and knn_k; for the exactness part every distance function without identical samples", "why_tests_cant": "The neighbour graph of an approximate search is random; tests see one answer per data set and cannot try wrong or incomplete ones.", "anchors": ["fast_hdbscan/nndescent.py:compute_mst_from_knn_graph", "fast_hdbscan/nndescent.py:build_knn_graph", "fast_hdbscan/nndescent.py:_kruskal_mst_from_knn", "fast_hdbscan/kruskal.py:_kruskal_mst_knn", "fast_hdbscan/kruskal.py:_build_mrd_edges_knn"]}
{"id": "C51", "title": "Sample weights shape core distances as copies of samples would", "statement": "With sample_weight, the core distance of a sample is the least distance within which samples of total weight min_samples lie (whole-number weights act as copies; weights of one give the min_samples-th smallest distance, the sample itself counted), provided the neighbours the run looks at weigh that much, which holds for Kruskal whenever no sample weighs less than half the average and all weigh at least min_samples together. Kruskal then gives the lightest forest over the listed pairs that respects the constraints, completed by infinite edges; Boruvka gives a spanning tree for every schedule and number of threads. Both runs end with labels and strengths for every sample. (False in the code: that Boruvka reports mutual reachability distances, that both algorithms agree, that light neighbours do no harm, that weights of one change nothing; see the refutations.)", "quantifier": "every number of samples, search tree, distances, non-negative weights, min_samples, knn_k, constraints, schedule and number of threads", "why_tests_cant": "Weights are real numbers and interact with the rounding of the neighbour count and with the schedule; tests use a handful of weight vectors and never compare with an independent definition.", "anchors": ["fast_hdbscan/boruvka.py:sample_weight_core_distance", "fast_hdbscan/boruvka.py:parallel_boruvka", "fast_hdbscan/boruvka.py:initialize_boruvka_from_knn", "fast_hdbscan/kruskal.py:_kruskal_mst_knn", "fast_hdbscan/hdbscan.py:HDBSCAN.fit"]}
{"id": "C52", "title": "Rows with missing values do not disturb the detection of sub-clusters", "statement": "After fitting data with missing values, SubClusterDetector and BranchDetector give the finite rows the labels, sub-labels, strengths, lens values, points, trees and graphs they would get had the other rows been left out from the start (or fail in the same way); the other rows are noise of strength zero. Labels, strengths and lens values may be given by the user. Data without such rows is used as it is. (Needs finite spanning tree edges: samples split off by cannot-link constraints are mistaken for missing rows, and then detection always fails; see the refutation.)", "quantifier": "every data set with at least three finite rows, every place of the missing rows, spanning tree, setting, lens (values or callback), sub-cluster selection and propagation", "why_tests_cant": "The missing rows are recognised by searching the hierarchy for density zero; tests cover a few data sets, all without constraints.", "anchors": ["fast_hdbscan/sub_clusters.py:find_sub_clusters", "fast_hdbscan/sub_clusters.py:remap_results", "fast_hdbscan/sub_clusters.py:SubClusterDetector.fit", "fast_hdbscan/hdbscan.py:remap_condensed_tree"]}
{"id": "C53", "title": "Labels propagated later are the labels propagated while fitting", "statement": "Calling propagated_labels() on a detector fitted without propagation returns the labels and sub-labels that fitting with propagate_labels=True gives, and everything else that is fitted is the same; for BranchDetector this holds for either choice of label_sides_as_branches at fit and call.", "quantifier": "every data set with or without missing values, every clustering or override labels, lens, settings", "why_tests_cant": "The two code paths number the samples differently (before and after the missing rows are put back) and would have to be compared on all inputs.", "anchors": ["fast_hdbscan/sub_clusters.py:SubClusterDetector.propagated_labels", "fast_hdbscan/sub_clusters.py:find_sub_clusters", "fast_hdbscan/branches.py:BranchDetector.fit", "fast_hdbscan/branches.py:BranchDetector.propagated_labels"]}
{"id": "C54", "title": "The result is determined by the spanning tree and the settings", "statement": "For the same spanning tree and settings every run gives the same labels, strengths and tree, or the same failure: neither the previous contents of the arrays the code allocates without clearing, nor the order in which its unstable sort leaves rows with equal keys, can be seen in the result.", "quantifier": "every spanning tree, arithmetic, combination of settings, sample weights below the minimum cluster size, partial labelling, memory contents and tie order", "why_tests_cant": "Freshly allocated memory is usually zero in tests, and one build of numpy always orders ties the same way.", "anchors": ["fast_hdbscan/cluster_trees.py:simplify_hierarchy", "fast_hdbscan/cluster_trees.py:cluster_epsilon_search", "fast_hdbscan/hdbscan.py:clusters_from_spanning_tree"]}
{"id": "C55", "title": "The unit of the distances does not matter", "statement": "Multiplying all distances and cluster_selection_epsilon by a positive number and dividing cluster_selection_persistence by it gives the same labels and membership strengths and the same tree with densities divided by that number; a run that fails, fails in the same way. This holds from the spanning tree on (with or without sample weights), from all pairwise distances with cannot-link constraints, and for the labels at a fixed distance (DBSCAN).", "quantifier": "every positive rational factor, data set, setting, constraint matrix, sample weights below the minimum cluster size", "why_tests_cant": "A constant with a dimension hidden anywhere (a tolerance, a default threshold) shows only for data in the unit that meets it.", "anchors": ["fast_hdbscan/hdbscan.py:clusters_from_spanning_tree", "fast_hdbscan/cluster_trees.py:condense_tree", "fast_hdbscan/cluster_trees.py:get_point_membership_strength_vector", "fast_hdbscan/hdbscan.py:HDBSCAN.dbscan_clustering"]}
{"id": "C56", "title": "Leaf clusters depend only on the order of the distances", "statement": "With cluster_selection_method='leaf' and no persistence threshold, replacing every distance d by f(d) for a strictly increasing f that keeps 0 and infinity (and epsilon by f(epsilon)) gives the same labels, and the same tree except for its densities; allow_single_cluster does not matter. For 'eom' this is not so.", "quantifier": "every strictly increasing change of the distances, data set, min_cluster_size, epsilon, min_samples, constraints", "why_tests_cant": "There are infinitely many changes of the distances and a comparison of distances with a constant would break only some.", "anchors": ["fast_hdbscan/cluster_trees.py:extract_leaves", "fast_hdbscan/cluster_trees.py:cluster_epsilon_search", "fast_hdbscan/cluster_trees.py:get_cluster_label_vector"]}
{"id": "C57", "title": "PLSCAN ends with layers of one hierarchy and reports the most persistent", "statement": "For finite distances of at least two samples, min_samples below the number of samples and base_min_cluster_size of at least 2, PLSCAN.fit ends. Its spanning tree is a minimum one of the mutual reachability distances; cluster_layers_ are the leaf clusters of the linkage tree of that spanning tree at the base size and at peaks of the persistence curve; cluster_tree_ contains every cluster of every layer once; labels_ and probabilities_ are those of a layer with the highest persistence. With cannot-link pairs the layers are those of the constrained spanning tree, and with base_n_clusters the base layer has the closest number of clusters any size gives. A base_min_cluster_size of 1 and a single sample are exceptions.", "quantifier": "every finite distance matrix, min_samples, base size, number of clusters, similarity threshold, number of layers, tie order of the sorts and content of uninitialised memory", "why_tests_cant": "The path from data to labels runs through normalisation, three unstable sorts and a search; tests fix one data set and one tie order.", "anchors": ["fast_hdbscan/hdbscan.py:PLSCAN.fit_predict", "fast_hdbscan/layer_clusters.py:build_cluster_layers", "fast_hdbscan/layer_clusters.py:build_layer_cluster_tree"]}
{"id": "C58", "title": "PLSCAN does not depend on the unit of the distances", "statement": "If two samples have different finite core distances, multiplying all distances by a positive number changes nothing: layers, strengths, persistences, tree and labels are identical. Distances are rescaled so that the least finite core distance is 0 and their mean 1; infinite distances stay infinite, the order is kept, and if all finite core distances are equal nothing is rescaled.", "quantifier": "every positive rational factor, data set, min_samples, cannot-link matrix and setting", "why_tests_cant": "The exponential weighting makes the persistence depend on the scale unless the rescaling is exact for every data set; a test sees one scale.", "anchors": ["fast_hdbscan/layer_clusters.py:build_cluster_layers"]}
{"id": "C59", "title": "PLSCAN accepts exactly the documented parameters", "statement": "PLSCAN is accepted if and only if min_samples, max_layers, base_min_cluster_size and base_n_clusters (if given) are positive integers, a precomputed input is a square sparse matrix whose stored numbers are finite and not negative, other input is dense, and algorithm, constraints, weights, metric and installed packages fit together as for HDBSCAN.", "quantifier": "every combination of parameters, kinds of input and stored numbers", "why_tests_cant": "The combinations are too many to list, and a check in the wrong branch is missed unless that combination is tried.", "anchors": ["fast_hdbscan/hdbscan.py:PLSCAN._validate_params", "fast_hdbscan/hdbscan.py:PLSCAN.fit_predict", "fast_hdbscan/precomputed.py:validate_precomputed_sparse_graph", "fast_hdbscan/hdbscan.py:compute_minimum_spanning_tree"]}
{"id": "C60", "title": "Reported graphs of a detector hold every link of a cluster once, at its distance; reported trees span them", "statement": "A detector that ends stores one graph per cluster, the graph it clustered. The reported approximation graph lists for every cluster, once each, the neighbours within it and the spanning tree edges inside it, named by rows of the data given (also when rows are missing), with the greater of the two lens values and the mutual reachability distance of the two samples (for min_samples of at least two). The reported spanning trees are in the order of the clusters; each is a spanning forest of the links inside its cluster.", "quantifier": "every data set, also with missing rows, every lens, every neighbour table, every order of equal lens values, every spanning tree", "why_tests_cant": "A wrong row number or a wrong distance shows only for some clusters and some links; the graph holds one link per pair only if the tree edges that are also neighbours are left out, for every data set.", "anchors": ["fast_hdbscan/core_graph.py:knn_mst_union", "fast_hdbscan/core_graph.py:flatten_to_csr", "fast_hdbscan/core_graph.py:sort_by_lens", "fast_hdbscan/core_graph.py:core_graph_to_edge_list", "fast_hdbscan/sub_clusters.py:_make_approximation_graph", "fast_hdbscan/sub_clusters.py:SubClusterDetector.spanning_trees_"]}
{"id": "C61", "title": "Sample weights are taken exactly if there is one finite number per row", "statement": "HDBSCAN.fit accepts sample weights if and only if they are a number or a one-dimensional array with one number for every row of the data, all finite, and some row without missing values has a weight other than zero; the clustering then gets the weights of the rows without missing values, in order. PLSCAN follows the same rules, except that a single number need not be finite. (Negative weights are accepted.)", "quantifier": "every data set, with and without missing rows, every scalar or array of weights of every shape", "why_tests_cant": "Which weights reach which row after rows are dropped, and whether the check of zero weights comes before or after dropping, depends on where the missing rows are.", "anchors": ["fast_hdbscan/hdbscan.py:HDBSCAN.fit", "fast_hdbscan/hdbscan.py:PLSCAN.fit_predict"]}
{"id": "C62", "title": "A detector accepts exactly usable clusterers and parameters", "statement": "A sub-cluster detector passes its checks if and only if the clusterer was fitted to data rather than distances, the labels (given, or the clusterer's) are one per row and not all noise, the minimum size is an integer of at least two and the maximum size a positive number, the selection method is known, epsilon and persistence are floats that are not negative, and the weights fit the data. Sizes, method and labels that are not given are those of the clusterer.", "quantifier": "every clusterer, every combination of parameters and of their types", "why_tests_cant": "The combinations are too many to list, and values may come from the clusterer or from the call.", "anchors": ["fast_hdbscan/sub_clusters.py:find_sub_clusters", "fast_hdbscan/sub_clusters.py:SubClusterDetector.fit"]}
{"id": "C63", "title": "Branches follow the shape of the data, not its position", "statement": "The lens of BranchDetector is the inverse distance to the point around which the samples of the cluster balance by strength; it can always be computed for the clusters that a fit reports, and fails exactly if the strengths of a cluster sum to zero. Turning, mirroring or shifting the data (in exact arithmetic) changes neither labels, strengths and trees of HDBSCAN nor anything that BranchDetector reports, with or without missing values. The lens values reported for the samples of a cluster are each sample's own value, also with missing rows.", "quantifier": "every data set of every dimension, every distance preserving affine map, every parameter", "why_tests_cant": "A test compares two positions of one data set; the claim is about all maps and all data, and a division by a sum of strengths may fail only for some clusterings.", "anchors": ["fast_hdbscan/branches.py:compute_centrality", "fast_hdbscan/branches.py:BranchDetector.fit", "fast_hdbscan/hdbscan.py:HDBSCAN.fit"]}
{"id": "C64", "title": "The guarantees survive machine arithmetic", "statement": "On a finite float32 matrix, squared distances never become NaN. Unless a squared distance overflows, the space tree finds the exact nearest neighbours at the computed (rounded) distances, the reported tree is a minimum spanning tree of the computed mutual reachability distances, and the run from matrix to labels ends with a clustering: labels from -1, strengths between 0 and 1 with a sample of strength one in each cluster, clusters of at least min_cluster_size samples, numbered without gaps. Every value of epsilon and persistence is handled consistently in spite of rounding. Cannot-link constraints still separate what they name, and clusters of stored distances are still density-connected groups, with stabilities summed in float32.", "quantifier": "every finite float32 matrix without overflowing squared distances, every schedule and number of threads, every min_samples, min_cluster_size, epsilon and persistence, both selection methods; for constraints and stored distances every graph of non-NaN float64 distances", "why_tests_cant": "Rounding errors that break a bound, a comparison or a division occur for rare combinations of values; tests see a few matrices.", "anchors": ["fast_hdbscan/numba_kdtree.py:rdist", "fast_hdbscan/numba_kdtree.py:build_kdtree", "fast_hdbscan/boruvka.py:parallel_boruvka", "fast_hdbscan/cluster_trees.py:hdbscan_lambda_value", "fast_hdbscan/cluster_trees.py:get_point_membership_strength_vector", "fast_hdbscan/cluster_trees.py:cluster_epsilon_search", "fast_hdbscan/cluster_trees.py:simplify_hierarchy", "fast_hdbscan/hdbscan.py:clusters_from_spanning_tree"]}
{"id": "C65", "title": "The reported neighbours are the nearest other samples", "statement": "Together with the spanning tree a run reports, for every sample, its min_samples nearest samples (at least one, at most all others), nearest first and each once: no sample left out is nearer than one listed, except one skipped sample, which is the sample itself unless another one is at exactly the same place. This holds for the exhaustive search, for the search in a space tree under every schedule, and for Kruskal's algorithm on the nearest neighbour graph.", "quantifier": "every distance matrix or space tree, every schedule, every number of samples and neighbours", "why_tests_cant": "Detectors build their graphs from these rows; a row that is wrong for one sample or for tied distances goes unnoticed unless a test has that very arrangement.", "anchors": ["fast_hdbscan/kruskal.py:_kruskal_mst_brute", "fast_hdbscan/kruskal.py:_kruskal_mst_knn", "fast_hdbscan/boruvka.py:parallel_boruvka", "fast_hdbscan/numba_kdtree.py:parallel_tree_query"]}
{"id": "C66", "title": "dbscan_clustering returns the density-based clusters at a distance", "statement": "After a successful fit, dbscan_clustering(eps) with the min_samples of the fit never fails and returns the clusters of DBSCAN*: two samples have the same non-noise label exactly if a chain of core samples joins them, each nearer than eps to the next, where a core sample has at least min_samples others nearer than eps; chains with fewer than min_samples members are noise, and labels count from 0 without gaps. Rows with missing values behave like samples infinitely far away, so with min_samples of at least 2 they are noise. Clusters at a greater eps contain those at a smaller one, and constrained samples share no cluster at any eps. The same clusters result from the parallel search in a space tree under every schedule.", "quantifier": "every data set with or without missing rows, every symmetric distance, all settings of the fit, every eps, every schedule, every valid set of constraints", "why_tests_cant": "The definition speaks about all pairs of samples while the code only sees a spanning tree; that both agree for every data set, with ties and at distances equal to eps, is a theorem about minimum spanning trees and cannot be sampled.", "anchors": ["fast_hdbscan/hdbscan.py:HDBSCAN.dbscan_clustering", "fast_hdbscan/cluster_trees.py:get_cluster_labelling_at_cut", "fast_hdbscan/cluster_trees.py:mst_to_linkage_tree"]}
{"id": "C67", "title": "every reported cluster is one density-connected group at some distance", "statement": "For every cluster that fit reports there is a finite distance d such that at every distance beyond d all its members are density-connected (dbscan_clustering gives them one label), and at every distance up to d no member is density-connected to a sample outside the cluster (dbscan_clustering never puts a member in a cluster with such a sample). So no cluster is a union of separate groups, and no noise sample or member of another cluster is closer to a cluster than the cluster's own parts are to each other. This holds for both selection methods, with a persistence threshold, with an epsilon, with missing rows, for the parallel search under every schedule, and with sample weights, except for a root cluster that was itself selected and then cut by epsilon.", "quantifier": "every data set with or without missing rows, every symmetric distance, every setting outside the exception, every reported cluster, every distance, every schedule", "why_tests_cant": "It relates the final labels, after condensation, selection, merging and cutting, to all pairs of samples at all distances; a counterexample needs a particular arrangement of nearly equal distances, as the refuted exception shows.", "anchors": ["fast_hdbscan/hdbscan.py:HDBSCAN.fit", "fast_hdbscan/hdbscan.py:clusters_from_spanning_tree", "fast_hdbscan/cluster_trees.py:condense_tree", "fast_hdbscan/cluster_trees.py:get_cluster_label_vector"]}
{"id": "C68", "title": "the density at which a sample leaves is that of the smallest large enough group around it", "statement": "After fit, every sample without missing values has exactly one lambda in the condensed tree. It is the density of the distance d such that at least min_cluster_size samples are density-connected to the sample at a distance exactly if that distance exceeds d. So it is determined by the samples alone: tie-breaking, selection method and thread schedule have no influence on it. The strength of a labelled sample is the ratio of its own leaving density to one density of its cluster, capped at one; with 'leaf' selection that is the highest leaving density among the members. With sample weights the group must weigh at least min_cluster_size.", "quantifier": "every data set with or without missing rows, every symmetric distance, every min_samples and min_cluster_size up to the number of samples, every spanning tree, every schedule", "why_tests_cant": "It equates a number read from the end of a long pipeline with a property of all chains of samples at all distances; tests can only compare a few data sets with a reference implementation that shares the construction.", "anchors": ["fast_hdbscan/hdbscan.py:HDBSCAN.fit", "fast_hdbscan/hdbscan.py:clusters_from_spanning_tree", "fast_hdbscan/cluster_trees.py:condense_tree", "fast_hdbscan/cluster_trees.py:get_point_membership_strength_vector"]}
{"id": "C69", "title": "identical samples are treated alike, except at ties", "statement": "Two samples with identical values get the same label from dbscan_clustering at every distance (beyond the self-distance if min_samples is below two) and leave the condensed tree at the same density. In the labels of fit they can differ only at a tie: if one is labelled and the other is not in its cluster, then the first is no core sample at the distance up to which its cluster stays apart, so it joins the cluster only at the very distance at which the cluster merges with others. Such a case exists, so identical samples do not always get the same label.", "quantifier": "every data set with duplicated rows, with or without missing rows, every symmetric distance, every setting, every cut distance", "why_tests_cant": "Random data have no ties among the distances that matter; the failing case needs a duplicated sample whose core distance equals the distance between two clusters.", "anchors": ["fast_hdbscan/hdbscan.py:HDBSCAN.fit", "fast_hdbscan/hdbscan.py:clusters_from_spanning_tree", "fast_hdbscan/cluster_trees.py:condense_tree", "fast_hdbscan/hdbscan.py:HDBSCAN.dbscan_clustering"]}
{"id": "C70", "title": "densities and cuts respond to changes of the data without jumps", "statement": "Adding samples, bringing samples nearer to each other, and lowering min_samples or min_cluster_size never lowers the density at which a sample leaves the condensed tree, and samples in one cluster of dbscan_clustering at a distance stay in one cluster at that distance or a larger one. If no distance between samples changes by more than delta, no sample's leaving distance changes by more than delta, however the reported clusters change.", "quantifier": "every two data sets with or without missing rows of which the first is placed in the second, every two symmetric distances, every pair of settings, every sample, every pair of cut distances", "why_tests_cant": "It compares the results of two complete runs over all pairs of related inputs; the condensed trees of the two runs can differ arbitrarily.", "anchors": ["fast_hdbscan/hdbscan.py:HDBSCAN.fit", "fast_hdbscan/hdbscan.py:HDBSCAN.dbscan_clustering", "fast_hdbscan/cluster_trees.py:condense_tree"]}
{"id": "C71", "title": "sparse precomputed distances are clustered by what they store", "statement": "With metric='precomputed' and a sparse matrix, pairs that are not stored count as infinitely far apart and a pair stored twice counts with its smaller entry. Cutting the hierarchy at any distance gives the DBSCAN* clusters of these distances, every sample leaves the hierarchy at the density of the distance at which min_cluster_size samples are density-connected to it (zero for samples of too small components), and every reported cluster is one density-connected group at some finite distance. Both the single-threaded and the parallel back end do this, for connected and disconnected matrices.", "quantifier": "every sparse matrix with non-negative entries of any pattern, symmetry and tie structure, every min_samples and cut distance, every selection setting without persistence, every sample", "why_tests_cant": "The number of sparsity patterns, components and ties is unbounded; the claim relates reported clusters to chains of core samples of the whole matrix.", "anchors": ["fast_hdbscan/precomputed.py:compute_mst_from_precomputed_sparse", "fast_hdbscan/precomputed.py:compute_mst_from_precomputed_sparse_kruskal", "fast_hdbscan/hdbscan.py:clusters_from_spanning_tree", "fast_hdbscan/hdbscan.py:HDBSCAN.dbscan_clustering"]}
{"id": "C72", "title": "detectors report every row's cluster, strength, sub-cluster, lens value and combined strength", "statement": "SubClusterDetector.fit on rows without missing values succeeds, and each of its outputs is right for every row: cluster labels and strengths are the given ones, the samples of each cluster are listed in ascending order, sub-labels and sub-strengths are the components of the cluster's lens graph or the clusters of its spanning tree, numbered without gaps, lens values are the given ones, labels combine cluster and sub-label, and strengths are averaged; noise keeps its strength and has no sub-strength or lens value. BranchDetector.fit then changes labels and strengths only: connected clusters with few branches get one label and their own strengths back.", "quantifier": "every clustering with at least one cluster, every neighbour list, spanning tree and lens (callback or values) with positive densities, every row, both values of label_sides_as_branches", "why_tests_cant": "Tests compare a few label counts; mixing up two of the nine per-row outputs is only visible when every row of every clustering is compared with its independent definition.", "anchors": ["fast_hdbscan/sub_clusters.py:find_sub_clusters", "fast_hdbscan/sub_clusters.py:SubClusterDetector.fit", "fast_hdbscan/branches.py:BranchDetector.fit", "fast_hdbscan/branches.py:apply_branch_threshold"]}
{"id": "C73", "title": "cannot-link constraints and rows with missing values", "statement": "HDBSCAN(algorithm='kruskal').fit with cannot-link pairs or groups that number the rows without missing values succeeds, and two constrained rows never share a cluster, wherever the missing rows are. Constraints that number all rows are rejected with ValueError as soon as one row is missing. With validate_cannot_link=False such constraints should still keep the constrained rows apart, which the code violates.", "quantifier": "every data set, every position and number of missing rows (at least two complete rows, three if some are missing), every valid constraint matrix or group list, every selection method and setting without persistence, both the exact and the nearest neighbour spanning tree", "why_tests_cant": "Tests of constraints use complete data and tests of missing values use no constraints; the interaction depends on the positions of the missing rows.", "anchors": ["fast_hdbscan/hdbscan.py:HDBSCAN.fit", "fast_hdbscan/hdbscan.py:compute_minimum_spanning_tree", "fast_hdbscan/kruskal.py:_resolve_cl_params", "fast_hdbscan/kruskal.py:kruskal_mst_from_feature_matrix"]}
{"id": "C74", "title": "labels and rows with missing values", "statement": "HDBSCAN(semi_supervised=True).fit uses every label for the row it was given with: the result is the semi-supervised clustering of the complete rows with their own labels, copied to the places of those rows, and the other rows are noise. The labels of rows with missing values, the names of the labels and which negative number marks an unlabelled row have no effect. A fit without any label other than -1, or with a wrong number of labels, raises ValueError; labels on incomplete rows only give the unsupervised result. Labels that are all below -1 should be refused too, which the code violates.", "quantifier": "every data set, every position and number of missing rows, every label vector including non-finite labels, every way to compute the spanning tree, every arithmetic of stabilities and scores, all settings (the report theorem without persistence; the comparison with the unsupervised fit in exact arithmetic without epsilon and persistence)", "why_tests_cant": "Tests label a few complete data sets; a label attached to the wrong row shows only for particular positions of missing rows, and a dependence on label names only for particular labels.", "anchors": ["fast_hdbscan/hdbscan.py:HDBSCAN.fit", "fast_hdbscan/hdbscan.py:fast_hdbscan", "fast_hdbscan/cluster_trees.py:extract_clusters_bcubed"]}
{"id": "C75", "title": "which data have clusters, and how many at least", "statement": "If at some distance two groups of min_cluster_size samples hold together but are not density-connected to each other, fit with allow_single_cluster=False (or 'leaf') and no epsilon reports at least two clusters. If there are no two such groups, and no two edges of the spanning tree have the same length, every row is noise under all settings without persistence, and a persistence threshold raises an error. Without epsilon and with allow_single_cluster=False the number of clusters is never one. That allow_single_cluster reports a single group, that allow_single_cluster=False prevents one, and that the order of rows does not matter when distances tie, are violated by the code.", "quantifier": "every data set, every symmetric distance, every position and number of missing rows, every min_samples and min_cluster_size, both selection methods, every arithmetic of stabilities; dense Kruskal or any schedule of the parallel Bor\u016fvka search; sample weights at the level of the spanning tree", "why_tests_cant": "Tests look at cluster counts of a few generated blobs; which data have no cluster at all is a statement about every pair of groups at every distance.", "anchors": ["fast_hdbscan/hdbscan.py:HDBSCAN.fit", "fast_hdbscan/hdbscan.py:clusters_from_spanning_tree", "fast_hdbscan/cluster_trees.py:condense_tree", "fast_hdbscan/cluster_trees.py:extract_eom_clusters", "fast_hdbscan/cluster_trees.py:traverse_upwards"]}
{"id": "C76", "title": "a maximum cluster size", "statement": "With cluster_selection_method='eom' and no cluster_selection_epsilon, no cluster that fit reports has more than max_cluster_size samples (with sample weights, more weight), except that allow_single_cluster may report all samples when they are one more than the maximum. With a maximum, fit either raises KeyError or reports a proper clustering whose clusters are clusters of the unrestricted hierarchy within the maximum, and every such cluster meets a reported one. If none is within the maximum all samples are noise; if those that are form a chain, fit raises; if two of them lie in no common one, fit succeeds and separates them. That fit never fails, that the root obeys the maximum, and that epsilon and 'leaf' respect it, are violated by the code.", "quantifier": "every data set, every spanning tree, every position and number of missing rows (size bound), every maximum, min_cluster_size and persistence threshold (size bound), every arithmetic of stabilities; sample weights at the level of the spanning tree", "why_tests_cant": "Whether fit fails depends on how many clusters of the hierarchy happen to be within the maximum; a test sees one data set, and the size bound must hold for all of them.", "anchors": ["fast_hdbscan/hdbscan.py:HDBSCAN.fit", "fast_hdbscan/hdbscan.py:clusters_from_spanning_tree", "fast_hdbscan/cluster_trees.py:extract_eom_clusters", "fast_hdbscan/cluster_trees.py:cluster_epsilon_search", "fast_hdbscan/cluster_trees.py:get_cluster_label_vector"]}
{"id": "C77", "title": "fits of the same data with other settings", "statement": "Two fits of the same data with the same min_samples, whatever their min_cluster_size, selection method, epsilon and persistence: a cluster of one and a cluster of the other are nested or have no sample in common (not with allow_single_cluster, 'eom' and an epsilon or persistence threshold). Raising min_cluster_size keeps in the hierarchy exactly the clusters that have, like their siblings, the new size; raising min_cluster_size and the persistence threshold together leaves only clusters that the hierarchy had before; with 'leaf' every cluster then contains one of the clusters the smaller values give, so there are at most as many. With 'eom' a larger min_cluster_size can give more clusters, and when min_samples is left to default to min_cluster_size the clusters can partly overlap.", "quantifier": "every data set, every position and number of missing rows, every pair of settings, every minimum spanning tree, every arithmetic of stabilities; sample weights at the level of the spanning tree", "why_tests_cant": "It relates two runs with any two settings on any data; a test compares a few settings on a few data sets, and partial overlaps are rare.", "anchors": ["fast_hdbscan/hdbscan.py:HDBSCAN.fit", "fast_hdbscan/hdbscan.py:clusters_from_spanning_tree", "fast_hdbscan/cluster_trees.py:condense_tree", "fast_hdbscan/cluster_trees.py:extract_leaves", "fast_hdbscan/cluster_trees.py:get_cluster_label_vector"]}
{"id": "C78", "title": "the layers of PLSCAN are HDBSCAN clusterings", "statement": "Every layer that PLSCAN reports, the selected one among them, groups the samples exactly as HDBSCAN with cluster_selection_method='leaf' and some min_cluster_size (at least base_min_cluster_size) does: the same clusters and the same noise, only the numbers may differ. This holds when no two edges of the spanning tree have the same length, or when both programs sort them alike. Data whose hierarchy never splits are the exception: PLSCAN reports one cluster, HDBSCAN noise. With edges of equal length PLSCAN can report clusters that HDBSCAN reports for no min_cluster_size.", "quantifier": "every data set without missing values, every spanning tree, every base_min_cluster_size or base_n_clusters, persistence rule, similarity threshold and number of layers, every layer", "why_tests_cant": "It relates two programs with different density units and different algorithms on every data set; a test compares them on a few data sets for a few sizes.", "anchors": ["fast_hdbscan/hdbscan.py:PLSCAN.fit", "fast_hdbscan/hdbscan.py:HDBSCAN.fit", "fast_hdbscan/layer_clusters.py:build_cluster_layers", "fast_hdbscan/cluster_trees.py:extract_leaves", "fast_hdbscan/cluster_trees.py:get_cluster_label_vector"]}
{"id": "C79", "title": "estimator objects keep the results of their last successful fit", "statement": "After any sequence of set_params and fit calls, failing ones included, labels_, probabilities_, the trees and the DBSCAN clusterings of an HDBSCAN object are those of the last fit that succeeded, under the parameters in force when it was called; before the first success every question is refused. A fit succeeds or fails exactly as the same fit of a new object does, and a success leaves nothing of the past. Three exceptions: a failing fit on data with missing values in all rows but one replaces the results with labels for one row only; after a failing fit minimum_spanning_tree_ shows the old tree with the new data; PLSCAN accepts through set_params values that its constructor refuses.", "quantifier": "every history of calls, every data set and parameters in each, every point at which fit raises", "why_tests_cant": "There are infinitely many histories; state left behind by a failing call shows only in particular ones.", "anchors": ["fast_hdbscan/hdbscan.py:HDBSCAN.fit", "fast_hdbscan/hdbscan.py:HDBSCAN.dbscan_clustering", "fast_hdbscan/hdbscan.py:HDBSCAN.condensed_tree_", "fast_hdbscan/hdbscan.py:HDBSCAN.minimum_spanning_tree_", "fast_hdbscan/hdbscan.py:PLSCAN.__init__"]}
{"id": "C80", "title": "scores of PLSCAN's layers", "statement": "Of the layers PLSCAN reports, the one for the smallest size has score zero; every other layer has a positive score and at least two clusters. Therefore, as soon as there is a second layer, labels_ are the labels of one of the others, never those of the finest one, and contain at least two clusters. Denser clusters do not raise the score: with the same sizes at birth and death they lower it.", "quantifier": "every spanning tree with finite distances, every base_min_cluster_size or base_n_clusters, similarity threshold and number of layers; every way to sort ties", "why_tests_cant": "The tests check score >= 0 on one data set. That no layer but the base layer can have score zero needs an argument over all peaks of all curves.", "anchors": ["fast_hdbscan/layer_clusters.py:compute_total_persistence", "fast_hdbscan/layer_clusters.py:min_cluster_size_barcode", "fast_hdbscan/layer_clusters.py:build_cluster_layers", "fast_hdbscan/hdbscan.py:PLSCAN.fit_predict"]}
{"id": "C81", "title": "cluster_selection_epsilon only merges clusters", "statement": "Fit the same data twice with the same settings, once without and once with cluster_selection_epsilon. The hierarchy is the same. Samples that shared a cluster still share one, or all became noise; each cluster of the second fit contains a whole cluster of the first; there are not more clusters; and when the hierarchy has at most two levels of splits no sample of a cluster becomes noise.", "quantifier": "every spanning tree, every data set (also with missing rows), all settings (without allow_single_cluster, or with 'leaf'), every epsilon, sample weights below min_cluster_size, every way to sort ties", "why_tests_cant": "Tests compare one or two values of epsilon on one data set. The promise relates two runs for all data; in deeper hierarchies it fails only for rare shapes that random data do not hit.", "anchors": ["fast_hdbscan/cluster_trees.py:cluster_epsilon_search", "fast_hdbscan/cluster_trees.py:traverse_upwards", "fast_hdbscan/cluster_trees.py:segments_in_branch", "fast_hdbscan/hdbscan.py:clusters_from_spanning_tree"]}
{"id": "C82", "title": "'leaf' clusters are the smallest groups that part from another group", "statement": "Call a group of rows a part if, at some distance, it is all the rows density-connected to one row, it has at least min_cluster_size rows, and there is a second such group that is not density-connected to it at that distance but is at every larger one. With cluster_selection_method='leaf', no cluster_selection_epsilon, no persistence threshold and no ties among the edges of the spanning tree, the clusters fit reports are exactly the parts that contain no smaller part. With 'eom' (without allow_single_cluster) every reported cluster is a part.", "quantifier": "every data set (also with missing rows), every symmetric distance, every min_samples and min_cluster_size, every spanning tree without ties, sample weights, every schedule of the parallel search", "why_tests_cant": "The statement names the clustering of every data set without mentioning any tree; a test can only compare labels with a reference implementation on some data.", "anchors": ["fast_hdbscan/hdbscan.py:HDBSCAN.fit", "fast_hdbscan/hdbscan.py:clusters_from_spanning_tree", "fast_hdbscan/cluster_trees.py:condense_tree", "fast_hdbscan/cluster_trees.py:get_cluster_label_vector", "fast_hdbscan/cluster_trees.py:extract_leaves"]}
{"id": "C83", "title": "Data sets far from each other are clustered independently", "statement": "Let each of two data sets be density-connected at some distance g and let rows of different sets be at least g apart. With cluster_selection_method='leaf', no cluster_selection_epsilon, no persistence threshold and no ties, fitting both together puts no rows of different sets in one cluster and clusters each set as fitting it alone does; a set in which that finds no clusters becomes one cluster.", "quantifier": "every two data sets of at least min_cluster_size and more than min_samples rows, every symmetric distance, every gap, all settings otherwise", "why_tests_cant": "It relates three fits for all data; tests with well-separated blobs show it for some.", "anchors": ["fast_hdbscan/hdbscan.py:HDBSCAN.fit", "fast_hdbscan/hdbscan.py:clusters_from_spanning_tree", "fast_hdbscan/cluster_trees.py:condense_tree", "fast_hdbscan/cluster_trees.py:extract_leaves"]}
{"id": "C84", "title": "A sparse graph of neighbours loses and invents nothing", "statement": "Turning a table of neighbours into a sparse graph stores a distance for two samples exactly if one lists the other, in both directions and with the smallest listed distance; with the same core distances the spanning tree over that graph connects the same samples at every threshold, and has the same weights, as the one over the table. A table with another number of rows, or one that names a sample that does not exist, is an error. The attempt to connect a graph in several parts answers truly about the graph it returns and passes on no failure.", "quantifier": "every table of neighbours, with missing places, repeated, one-sided and zero-distance neighbours; every core distances; every behaviour of the package that connects", "why_tests_cant": "One-sided neighbours, explicit zeros and repeated entries interact in ways that only some tables show.", "anchors": ["fast_hdbscan/nndescent.py:_knn_graph_to_sparse", "fast_hdbscan/nndescent.py:try_connect_knn_graph", "fast_hdbscan/nndescent.py:_kruskal_mst_from_knn", "fast_hdbscan/precomputed.py:_symmetrize_min_csr"]}
{"id": "C85", "title": "The unit of sample weights does not matter", "statement": "Multiplying all sample weights and min_samples by the same whole number gives the same spanning tree, neighbours and core distances (or the same failure) with both algorithms; multiplying all sample weights and min_cluster_size by the same positive number gives, with cluster_selection_method='leaf', the same labels and strengths and the same hierarchy with heavier clusters. Weights of one give the clusters of a spanning tree that are found without weights, for every method. (With 'eom' the unit does matter.)", "quantifier": "every spanning tree, number of samples, weights below min_cluster_size, factor, epsilon, persistence; every answer of the neighbour search and schedule", "why_tests_cant": "Weights enter in four places (number of neighbours, core distances, sizes, stabilities); a wrong unit in one of them shows only for some data.", "anchors": ["fast_hdbscan/cluster_trees.py:condense_tree", "fast_hdbscan/cluster_trees.py:score_condensed_tree_nodes", "fast_hdbscan/cluster_trees.py:mst_to_linkage_tree_w_sample_weights", "fast_hdbscan/hdbscan.py:clusters_from_spanning_tree", "fast_hdbscan/boruvka.py:sample_weight_core_distance", "fast_hdbscan/kruskal.py:_kruskal_mst_knn"]}
{"id": "C86", "title": "objects may be fitted to features, labelled features and graphs in any order", "statement": "After any sequence of set_params and fit calls that mix feature data, feature data with labels (semi_supervised=True) and sparse distance graphs (metric='precomputed', with or without labels), failing calls included, labels_, probabilities_, the hierarchy trees and the DBSCAN clusterings are those of the last fit that succeeded, one label and strength per row or node; a fit succeeds or fails, with the same exception, exactly as it would on a new object. A success leaves nothing of the past that can be observed. The exception, besides those of C79: minimum_spanning_tree_ shows the tree with whatever data the last call remembered that passed validation, so a failing fit to a graph hides the tree of earlier features, and a failing fit to features attaches them to the tree of an earlier graph. With semi_supervised=True a fit is refused for its labels, and then changes no result, exactly when none of them differs from -1; one such label, 0 included, is enough.", "quantifier": "every history of calls of all three kinds, every data set, labels, weights and parameters in each, every point at which fit raises", "why_tests_cant": "There are infinitely many histories; the attributes are assigned at different points on three paths, and what a failing call on one path leaves behind shows only after particular calls on another.", "anchors": ["fast_hdbscan/hdbscan.py:HDBSCAN.fit", "fast_hdbscan/hdbscan.py:HDBSCAN.dbscan_clustering", "fast_hdbscan/hdbscan.py:HDBSCAN.condensed_tree_", "fast_hdbscan/hdbscan.py:HDBSCAN.single_linkage_tree_", "fast_hdbscan/hdbscan.py:HDBSCAN.minimum_spanning_tree_", "fast_hdbscan/precomputed.py:validate_precomputed_sparse_graph"]}
{"id": "C87", "title": "PLSCAN objects always show the last fit that succeeded", "statement": "After any sequence of set_params, fit and fit_predict calls on a PLSCAN object, failing calls included, cluster_layers_, membership_strength_layers_, layer_persistence_scores_, min_cluster_sizes_, total_persistence_, cluster_tree_, labels_ and membership_strengths_ are all those of the last fit that succeeded, or all absent if none did. In particular no call leaves new layers beside an old tree or old labels: once the layers exist, the tree over them and the reported layer can always be computed. fit_predict returns what labels_ then holds, which is one of the layers; every layer has one label per sample. A fit succeeds or fails, with the same exception, exactly as on a new object.", "quantifier": "every history of calls, every data set, weights and parameters in each, every point at which a call raises, every spanning tree algorithm and order of ties", "why_tests_cant": "There are infinitely many histories and points of failure; that the steps between the first and the last assignment never raise is a statement about all layers that any data can give.", "anchors": ["fast_hdbscan/hdbscan.py:PLSCAN.fit_predict", "fast_hdbscan/hdbscan.py:PLSCAN.fit", "fast_hdbscan/layer_clusters.py:build_cluster_layers", "fast_hdbscan/layer_clusters.py:build_layer_cluster_tree", "fast_hdbscan/layer_clusters.py:_build_cluster_tree"]}
{"id": "C88", "title": "Detectors always show the last fit that succeeded", "statement": "After any sequence of set_params and fit calls on a SubClusterDetector or BranchDetector, with any clusterers in any state, with or without labels and probabilities passed in, all attributes (labels_, probabilities_, cluster and sub-cluster labels and probabilities, lens_values_, cluster_points_, branch_labels_, branch_probabilities_, centralities_) belong to the last fit that succeeded, or are all absent. A fit that raises changes nothing; a BranchDetector raises exactly when a SubClusterDetector with the same lens does. propagated_labels() answers for the last success, or raises ValueError if there is none; the answer is what fitting again with propagate_labels=True would give. Labels passed in act like labels of the clusterer, with probabilities 1 unless given. A detector fitted right after a successful HDBSCAN.fit sees the data, labels and trees of that fit. (Not so after a failing one: the data are then those of the failed fit. This is a defect of the code.)", "quantifier": "every history of detector calls, every state of every clusterer passed, every lens function, every labels and probabilities passed, every point at which a call raises; every history of the clusterer before", "why_tests_cant": "There are infinitely many histories and points of failure; that the threshold on branches never raises after the first attributes are set is a statement about everything that can be found.", "anchors": ["fast_hdbscan/sub_clusters.py:SubClusterDetector.fit", "fast_hdbscan/sub_clusters.py:find_sub_clusters", "fast_hdbscan/sub_clusters.py:SubClusterDetector.propagated_labels", "fast_hdbscan/branches.py:BranchDetector.fit", "fast_hdbscan/branches.py:apply_branch_threshold", "fast_hdbscan/branches.py:BranchDetector.propagated_labels"]}
{"id": "C89", "title": "The hierarchies a detector reports belong to its clusters and to its spanning trees", "statement": "A detector that ends reports one linkage tree and one condensed tree per cluster, in the order of the clusters. Where the links inside a cluster join all of it, the linkage tree is the dendrogram of the spanning tree reported for that cluster, and the condensed tree is a well-formed condensed tree of the samples of that cluster for the minimum cluster size. Where they do not, both are None. For data with missing rows, the trees are those of the finite rows. A branch detector reports the trees of the detector it extends.", "quantifier": "every data set, also with missing rows, every labelling, every lens, every neighbour table, every spanning tree, every order of equal lens values, all settings", "why_tests_cant": "A tree stored for the wrong cluster, or built from edges other than the ones reported, shows only when several clusters differ in their shape or one of them falls apart; the claim is about every cluster of every data set.", "anchors": ["fast_hdbscan/sub_clusters.py:SubClusterDetector.condensed_trees_", "fast_hdbscan/sub_clusters.py:SubClusterDetector.linkage_trees_", "fast_hdbscan/sub_clusters.py:SubClusterDetector.fit", "fast_hdbscan/core_graph.py:core_graph_clusters"]}
