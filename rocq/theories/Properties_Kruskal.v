(** C03-C07: minimum spanning forests with and without cannot-link constraints
    (kruskal.py). *)
From Coq Require Import List Arith ZArith Bool Permutation.
From Verif Require Import Prelude Order Graph M_Kruskal M_Precomputed M_KruskalEntry
  S_Kruskal S_Precomputed P_KruskalRun P_KruskalEntry P_PrecomputedTop.
Import ListNotations.

(** C03.  For every weight type, edge list and order of processing that sorts
    the weights (ties in any order): the result is a subset of the edges,
    without cycles, with the components of the input at every threshold. *)
Theorem C03_kruskal_min_spanning_forest :
  forall (W : WOrd) n (edges : list (edge W)) order,
  0 < n -> in_range n edges -> sorts edges order ->
  exists M p, run_kruskal_core n edges order CLNone = Ok (M, p) /\ min_spanning_forest edges M.
Proof. exact @c03_msf. Qed.
Print Assumptions C03_kruskal_min_spanning_forest.

(** C03.  Compared with any other forest of the input that connects the same
    samples, the sorted weights are pointwise at most as large; hence so is the
    total under every monotone cost. *)
Theorem C03_kruskal_total_weight_minimal :
  forall (W : WOrd) n (edges : list (edge W)) order M p,
  0 < n -> in_range n edges -> sorts edges order ->
  run_kruskal_core n edges order CLNone = Ok (M, p) ->
  forall F, incl F edges -> acyclic F -> (forall x y, connected F x y <-> connected edges x y) ->
  Forall2 (fun x y => wle x y = true) (sorted_weights M) (sorted_weights F) /\
  forall cost : W -> Z, (forall x y, wle x y = true -> (cost x <= cost y)%Z) ->
    (total cost (map ewt M) <= total cost (map ewt F))%Z.
Proof. exact @c03_total. Qed.
Print Assumptions C03_kruskal_total_weight_minimal.

(** C03.  The stable argsort used by the entry points is such an order. *)
Theorem C03_argsort_sorts :
  forall (W : WOrd) (edges : list (edge W)), sorts edges (argsort edges).
Proof. exact @argsort_sorts. Qed.
Print Assumptions C03_argsort_sorts.

(** C03.  Full pairwise distances: a spanning tree that is a minimum spanning
    forest of all mutual reachability edges. *)
Theorem C03_brute_force_minimum_spanning_tree :
  forall (W : WOrd) (zero : W) (D : nat -> nat -> W) n min_samples, 0 < n ->
  exists T nbrs core, kruskal_mst_brute zero D n min_samples CLNone = Ok (T, nbrs, core) /\
    spanning_tree n T /\ min_spanning_forest (brute_edges zero D n min_samples) T.
Proof. exact @c03_brute. Qed.
Print Assumptions C03_brute_force_minimum_spanning_tree.

(** C04.  Labels and edge count describe the returned forest, for every kind of
    constraint. *)
Theorem C04_component_labels :
  forall (W : WOrd) n (edges : list (edge W)) order X g,
  0 < n -> in_range n edges -> sorts edges order -> valid_constraints n X g ->
  exists cl M p labels, resolve_cl_params n X true g = Ok cl /\
    run_kruskal_core n edges order cl = Ok (M, p) /\ get_component_labels n p = Ok labels /\
    labels_classes n labels (connected M) /\ length M + distinct labels = n.
Proof. exact @c04_labels. Qed.
Print Assumptions C04_component_labels.

(** C05, C06.  Pairwise or group constraints: the forest obeys them, and every
    rejected edge is either heavier than a path already there or would join a
    constrained pair at its own level. *)
Theorem C05_constrained_forest :
  forall (W : WOrd) n (edges : list (edge W)) order X g,
  0 < n -> in_range n edges -> sorts edges order -> valid_constraints n X g ->
  exists cl M p, resolve_cl_params n X true g = Ok cl /\
    run_kruskal_core n edges order cl = Ok (M, p) /\
    constrained_forest (user_constraints (option_map sp_entries X) g) edges M.
Proof. exact @c05_constrained. Qed.
Print Assumptions C05_constrained_forest.

(** C05.  The same without validation, for a matrix with symmetric pattern. *)
Theorem C05_constrained_forest_unvalidated :
  forall (W : WOrd) n (edges : list (edge W)) order X,
  0 < n -> in_range n edges -> sorts edges order ->
  sp_rows X = n -> sp_cols X = n -> in_range n (sp_entries X) ->
  (forall e, In e (sp_entries X) -> ewt e <> 0%Z) ->
  (forall i j v, In (i, j, v) (sp_entries X) -> exists v', In (j, i, v') (sp_entries X)) ->
  exists cl M p, resolve_cl_params n (Some X) false None = Ok cl /\
    run_kruskal_core n edges order cl = Ok (M, p) /\
    constrained_forest (linked_pairs (sp_entries X)) edges M.
Proof. exact @c05_unvalidated. Qed.
Print Assumptions C05_constrained_forest_unvalidated.

(** C05.  An input edge between two final components joins components holding a
    constrained pair. *)
Theorem C05_rejected_edges_are_forbidden :
  forall (W : WOrd) CL (edges M : list (edge W)) e,
  constrained_forest CL edges M -> In e edges -> ~ connected M (esrc e) (edst e) ->
  forbidden CL M (esrc e) (edst e).
Proof. exact @constrained_final. Qed.
Print Assumptions C05_rejected_edges_are_forbidden.

(** C06.  Groups and the matrix of all same-group pairs give the same edges in
    the same order. *)
Theorem C06_groups_equal_pairwise :
  forall (W : WOrd) n (edges : list (edge W)) order g X,
  0 < n -> in_range n edges -> sorts edges order ->
  valid_constraints n None (Some g) -> valid_constraints n (Some X) None ->
  (forall x y, linked_pairs (sp_entries X) x y <-> same_group g x y) ->
  exists cl1 cl2 M p1 p2,
    resolve_cl_params n None true (Some g) = Ok cl1 /\ resolve_cl_params n (Some X) true None = Ok cl2 /\
    run_kruskal_core n edges order cl1 = Ok (M, p1) /\ run_kruskal_core n edges order cl2 = Ok (M, p2).
Proof. exact @c06_same_as_pairs. Qed.
Print Assumptions C06_groups_equal_pairwise.

(** C07.  Constraint arguments that forbid nothing do not change the result. *)
Theorem C07_vacuous_constraints :
  forall (W : WOrd) n (edges : list (edge W)) order X g,
  0 < n -> in_range n edges -> sorts edges order -> valid_constraints n X g ->
  (forall x y, ~ user_constraints (option_map sp_entries X) g x y) ->
  exists cl M p p', resolve_cl_params n X true g = Ok cl /\
    run_kruskal_core n edges order cl = Ok (M, p) /\
    run_kruskal_core n edges order CLNone = Ok (M, p').
Proof. exact @c07_resolved. Qed.
Print Assumptions C07_vacuous_constraints.

(** C07.  The three kernels themselves agree when there is nothing to enforce. *)
Theorem C07_kernels_agree :
  forall (W : WOrd) n (edges : list (edge W)) order labels k,
  0 < n -> in_range n edges -> sorts edges order ->
  length labels = n -> (forall x, In x labels -> (x < 0)%Z) ->
  exists M p1 p2 p3, kruskal_core n edges order = Ok (M, p1) /\
    kruskal_core_constrained n edges order (empty_pattern n) = Ok (M, p2) /\
    kruskal_core_group n edges order labels k = Ok (M, p3).
Proof. exact @c07_kernels. Qed.
Print Assumptions C07_kernels_agree.

(** ** Non-vacuity *)

(** Six samples, ties, a self loop, a duplicate edge, an isolated sample. *)
Definition ex_edges : list (edge ZInf) :=
  [(0, 1, Some 2%Z); (1, 2, Some 2%Z); (2, 0, Some 1%Z); (3, 3, Some 0%Z); (3, 4, Some 4%Z);
   (4, 2, Some 3%Z); (0, 4, Some 7%Z); (1, 0, Some 2%Z); (5, 5, None)].

Example C03_example_range : in_range 6 ex_edges.
Proof. intros e H. simpl in H. repeat destruct H as [<-|H]; try tauto; unfold esrc, edst; simpl; repeat constructor. Qed.

Example C03_example_run :
  (let* (M, p) := run_kruskal_core 6 ex_edges (argsort ex_edges) CLNone in
   let* l := get_component_labels 6 p in Ok (M, l))
  = Ok ([(2, 0, Some 1%Z); (0, 1, Some 2%Z); (4, 2, Some 3%Z); (3, 4, Some 4%Z)], [2; 2; 2; 2; 2; 5]).
Proof. vm_compute. reflexivity. Qed.

(** Samples 1 and 4 may not be connected; nor 0 and 3, transitively. *)
Definition ex_cl : sparse :=
  {| sp_rows := 6; sp_cols := 6; sp_entries := [(1, 4, 1%Z); (3, 0, 2%Z); (2, 2, 1%Z)] |}.

Example C05_example_valid : valid_constraints 6 (Some ex_cl) None.
Proof.
  split; [reflexivity|split; [reflexivity|split]].
  - intros e H. simpl in H. repeat destruct H as [<-|H]; try tauto; unfold esrc, edst; simpl; repeat constructor.
  - intros e H. simpl in H. repeat destruct H as [<-|H]; try tauto; unfold ewt; simpl; discriminate.
Qed.

Example C05_example_run :
  (let* cl := resolve_cl_params 6 (Some ex_cl) true None in
   let* (M, p) := run_kruskal_core 6 ex_edges (argsort ex_edges) cl in
   let* l := get_component_labels 6 p in Ok (M, l))
  = Ok ([(2, 0, Some 1%Z); (0, 1, Some 2%Z); (3, 4, Some 4%Z)], [2; 2; 2; 3; 3; 5]).
Proof. vm_compute. reflexivity. Qed.

(** Groups beyond one machine word: samples 1 and 4 share group 70. *)
Definition ex_groups : list Z := [3; 70; -1; 64; 70; 6]%Z.

Example C06_example_valid : valid_constraints 6 None (Some ex_groups).
Proof.
  split; [reflexivity|]. intros x H. simpl in H.
  repeat destruct H as [<-|H]; try tauto; discriminate.
Qed.

Example C06_example_run :
  (let* cl := resolve_cl_params 6 None true (Some ex_groups) in
   let* (M, p) := run_kruskal_core 6 ex_edges (argsort ex_edges) cl in Ok M)
  = Ok [(2, 0, Some 1%Z); (0, 1, Some 2%Z); (3, 4, Some 4%Z)].
Proof. vm_compute. reflexivity. Qed.

(** ** What does not hold *)

(** A matrix whose entries cancel under [cl + cl.T] loses its constraint, so the
    condition on signs in [valid_constraints] cannot be dropped. *)
Definition signed_cl : sparse :=
  {| sp_rows := 2; sp_cols := 2; sp_entries := [(0, 1, 1%Z); (1, 0, (-1)%Z)] |}.
Theorem C05_signed_matrix_refuted :
  exists n X (edges : list (edge ZInf)) cl M p,
    sp_rows X = n /\ sp_cols X = n /\ linked_pairs (sp_entries X) 0 1 /\
    resolve_cl_params n (Some X) true None = Ok cl /\
    run_kruskal_core n edges (argsort edges) cl = Ok (M, p) /\ connected M 0 1.
Proof.
  exists 2, signed_cl, [(0, 1, Some 5%Z)].
  eexists _, _, _. repeat split; try (vm_compute; reflexivity).
  - discriminate.
  - exists 1%Z. split; [discriminate|]. left. simpl. auto.
  - apply (connected_edge [(0, 1, Some 5%Z)] (0, 1, Some 5%Z)). simpl. auto.
Qed.
Print Assumptions C05_signed_matrix_refuted.

(** With [validate_cannot_link=False] a constraint stored in one triangle only
    is not enforced. *)
Theorem C05_one_triangle_unvalidated_refuted :
  exists n X (edges : list (edge ZInf)) cl M p,
    valid_constraints n (Some X) None /\ linked_pairs (sp_entries X) 0 1 /\
    resolve_cl_params n (Some X) false None = Ok cl /\
    run_kruskal_core n edges (argsort edges) cl = Ok (M, p) /\ connected M 0 1.
Proof.
  exists 2, {| sp_rows := 2; sp_cols := 2; sp_entries := [(0, 1, 1%Z)] |}, [(0, 1, Some 5%Z)].
  eexists _, _, _. split; [|split; [|split; [|split]]]; try (vm_compute; reflexivity).
  - split; [reflexivity|split; [reflexivity|split]]; intros e [<-|[]];
      unfold esrc, edst, ewt; simpl; [repeat constructor|discriminate].
  - split; [discriminate|]. exists 1%Z. split; [discriminate|]. left. simpl. auto.
  - apply (connected_edge [(0, 1, Some 5%Z)] (0, 1, Some 5%Z)). simpl. auto.
Qed.
Print Assumptions C05_one_triangle_unvalidated_refuted.
