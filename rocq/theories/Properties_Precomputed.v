(** C09-C13: precomputed sparse graphs, bridging, core distances
    (precomputed.py and the entry points of kruskal.py). *)
From Coq Require Import List Arith ZArith Bool Permutation.
From Verif Require Import Prelude Order Graph M_Kruskal M_Precomputed M_KruskalEntry
  S_Kruskal S_Precomputed P_Precomputed P_Precomputed2 P_KruskalRun P_KruskalEntry P_PrecomputedTop.
Import ListNotations.

(** C09.  Bridging any forest that comes with a correct labelling. *)
Theorem C09_bridge_spanning_tree :
  forall (W : WOrd) n (M : list (edge W)) labels,
  0 < n -> acyclic M -> in_range n M -> labels_classes n labels (connected M) ->
  exists B, bridge_forest_with_inf M labels = Ok (M ++ B) /\ spanning_tree n (M ++ B) /\
    length B + 1 = distinct labels /\
    Forall (fun e => ewt e = winf /\ smallest_of_component M (esrc e) /\
                     smallest_of_component M (edst e)) B.
Proof. exact @c09_bridge. Qed.
Print Assumptions C09_bridge_spanning_tree.

(** C09.  No finite threshold sees the added edges. *)
Theorem C09_bridges_invisible_below_infinity :
  forall (W : WOrd) (M B : list (edge W)) t,
  wlt t winf = true -> Forall (fun e => ewt e = winf) B ->
  passing (fun w => wle w t) (M ++ B) = passing (fun w => wle w t) M.
Proof. exact @c09_thresholds. Qed.
Print Assumptions C09_bridges_invisible_below_infinity.

(** C09.  The three entry points return such a tree, for every kind of
    constraint: n-1 edges, first a constrained forest of the mutual reachability
    graph, then infinite bridges. *)
Theorem C09_precomputed_returns_bridged_tree :
  forall (W : WOrd) (zero : W) entries n min_samples X g,
  0 < n -> in_range n entries -> valid_constraints n X g ->
  exists cl T nbrs core, resolve_cl_params n X true g = Ok cl /\
    precomputed_kruskal zero entries n min_samples cl = Ok (T, nbrs, core) /\
    (nbrs, core) = core_distances_csr zero (symmetrize_min entries n) min_samples /\
    bridged_result n (user_constraints (option_map sp_entries X) g)
      (mrd_entries core (symmetrize_min entries n)) T.
Proof. exact @c09_precomputed. Qed.
Print Assumptions C09_precomputed_returns_bridged_tree.

Theorem C09_brute_force_returns_bridged_tree :
  forall (W : WOrd) (zero : W) (D : nat -> nat -> W) n min_samples X g,
  0 < n -> valid_constraints n X g ->
  exists cl T nbrs core, resolve_cl_params n X true g = Ok cl /\
    kruskal_mst_brute zero D n min_samples cl = Ok (T, nbrs, core) /\
    bridged_result n (user_constraints (option_map sp_entries X) g)
      (brute_edges zero D n min_samples) T.
Proof. exact @c09_brute. Qed.
Print Assumptions C09_brute_force_returns_bridged_tree.

Theorem C09_knn_returns_bridged_tree :
  forall (W : WOrd) (zero : W) query min_samples knn_k X g n,
  let k := if 1 <? min_samples then Nat.max knn_k min_samples + 1 else knn_k + 1 in
  0 < n -> length (query k) = n ->
  (forall row j d, In row (query k) -> In (Some j, d) row -> j < n) ->
  valid_constraints n X g ->
  exists cl T nbrs core, resolve_cl_params n X true g = Ok cl /\
    kruskal_mst_knn zero query min_samples knn_k cl = Ok (T, nbrs, core) /\
    bridged_result n (user_constraints (option_map sp_entries X) g)
      (filter (fun e => negb (esrc e =? edst e) && wfinite (ewt e))
              (knn_edges (map (skipn 1) (query k)) core)) T.
Proof. exact @c09_knn. Qed.
Print Assumptions C09_knn_returns_bridged_tree.

(** C09 with C05/C06.  No constrained pair is together at any finite level of
    the tree that is handed to the hierarchy. *)
Theorem C09_constraints_hold_below_infinity :
  forall (W : WOrd) n CL (E T : list (edge W)) t,
  wlt t winf = true -> bridged_result n CL E T ->
  respects CL (passing (fun w => wle w t) T).
Proof. exact @bridged_respects. Qed.
Print Assumptions C09_constraints_hold_below_infinity.

(** C10. *)
Theorem C10_unbridge :
  forall (W : WOrd) n (E : list (edge W)),
  in_range n E -> S (length E) = n ->
  exists labels, unbridge_mst E = Ok (filter (fun e => wfinite (ewt e)) E, labels) /\
    labels_classes n labels (connected (filter (fun e => wfinite (ewt e)) E)) /\
    (forall c, In c labels <-> c < distinct labels).
Proof. exact @c10_unbridge. Qed.
Print Assumptions C10_unbridge.

Theorem C10_unbridge_after_bridge :
  forall (W : WOrd) n (M : list (edge W)) labels,
  0 < n -> acyclic M -> in_range n M -> labels_classes n labels (connected M) ->
  (forall e, In e M -> wfinite (ewt e) = true) ->
  exists T labels', bridge_forest_with_inf M labels = Ok T /\ unbridge_mst T = Ok (M, labels') /\
    labels_classes n labels' (connected M).
Proof. exact @c10_round_trip. Qed.
Print Assumptions C10_unbridge_after_bridge.

(** The documentation also says that components are numbered in the order of
    their smallest sample.  They are not: here the component of sample 0 gets
    number 1 and sample 1 gets number 0. *)
Theorem C10_numbered_by_smallest_sample_refuted :
  exists (E F : list (edge ZInf)) labels, unbridge_mst E = Ok (F, labels) /\
    spanning_tree 3 E /\ nth 0 labels 0 = 1 /\ nth 1 labels 0 = 0.
Proof.
  exists [(2, 0, Some 1%Z); (0, 1, None)]. eexists _, _.
  split; [vm_compute; reflexivity|]. split; [|split; vm_compute; reflexivity].
  assert (C1 : connected (W := ZInf) [(2, 0, Some 1%Z); (0, 1, None)] 2 0)
    by (apply (connected_edge _ (2, 0, Some 1%Z)); simpl; auto).
  assert (C2 : connected (W := ZInf) [(2, 0, Some 1%Z); (0, 1, None)] 0 1)
    by (apply (connected_edge _ (0, 1, None)); simpl; auto).
  split.
  - intros e [<-|[<-|[]]]; unfold esrc, edst; simpl; auto.
  - apply acyclic_cons; [apply acyclic_cons; [apply acyclic_nil|]|].
    + rewrite connected_nil. discriminate.
    + rewrite connected_cons, !connected_nil. unfold esrc, edst; simpl.
      intros [H|[[H1 H2]|[H1 H2]]]; discriminate.
  - assert (H : forall x, x < 3 -> connected (W := ZInf) [(2, 0, Some 1%Z); (0, 1, None)] x 0).
    { intros x Hx. destruct x as [|[|[|x]]]; auto using connected_refl, connected_sym.
      exfalso. do 3 apply le_S_n in Hx. inversion Hx. }
    intros x y Hx Hy. eapply connected_trans; [apply H; auto|apply connected_sym, H; auto].
  - reflexivity.
Qed.
Print Assumptions C10_numbered_by_smallest_sample_refuted.

(** C11. *)
Theorem C11_symmetrise_keeps_lighter_direction :
  forall (W : WOrd) (entries : list (edge W)) n,
  in_range n entries ->
  let g := symmetrize_min entries n in
  csr_n g = n /\
  NoDup (map (fun e => (esrc e, edst e)) (csr_entries g)) /\
  in_range n (csr_entries g) /\
  (forall i j w, In (i, j, w) (csr_entries g) -> i <> j /\ lightest_between entries i j w) /\
  (forall i j w, i <> j -> In (i, j, w) entries \/ In (j, i, w) entries ->
     exists m, In (i, j, m) (csr_entries g)) /\
  (forall i j w, In (i, j, w) (csr_entries g) -> In (j, i, w) (csr_entries g)).
Proof. exact @symmetrize_min_ok. Qed.
Print Assumptions C11_symmetrise_keeps_lighter_direction.

(** C12. *)
Theorem C12_core_distances :
  forall (W : WOrd) (zero : W) (g : csr W) min_samples,
  let core := snd (core_distances_csr zero g min_samples) in
  length core = csr_n g /\
  forall i, i < csr_n g ->
    let row := map snd (csr_row g i) in
    let d := nth i core winf in
    (min_samples <= 1 -> d = zero) /\
    (1 < min_samples -> min_samples <= length row -> kth_smallest min_samples row d) /\
    (1 < min_samples -> length row < min_samples -> d = winf).
Proof. exact @core_distances_ok. Qed.
Print Assumptions C12_core_distances.

(** C12.  The reported neighbours are the nearest stored ones, nearest first,
    padded with -1. *)
Theorem C12_neighbors :
  forall (W : WOrd) (zero : W) (g : csr W) min_samples i,
  i < csr_n g ->
  let nbrs := nth i (fst (core_distances_csr zero g min_samples)) [] in
  let row := csr_row g i in
  let k := Nat.max 1 min_samples in
  length nbrs = k /\
  exists order, Permutation row order /\ sorted_by snd order /\
    nbrs = map (fun cw => Some (fst cw)) (firstn k order) ++ repeat None (k - length row).
Proof. exact @neighbors_ok. Qed.
Print Assumptions C12_neighbors.

(** C12 for feature data: the row includes the sample itself, hence [S ms]. *)
Theorem C12_core_distances_brute_force :
  forall (W : WOrd) (zero : W) (D : nat -> nat -> W) n ms i,
  (ms <= 1 -> brute_core zero D n ms i = zero) /\
  (1 < ms -> ms < n -> kth_smallest (S ms) (map (D i) (seq 0 n)) (brute_core zero D n ms i)) /\
  (1 < ms -> n <= ms -> brute_core zero D n ms i = winf).
Proof. exact @brute_core_ok. Qed.
Print Assumptions C12_core_distances_brute_force.

(** C13.  Weights are the greatest of the distance and the two core distances;
    every stored pair gets an edge and no other pair does. *)
Theorem C13_mutual_reachability_csr :
  forall (W : WOrd) core (g : csr W),
  (forall i j w, In (i, j, w) (mrd_entries core g) ->
     exists d, In (i, j, d) (csr_entries g) /\
               greatest_of_three (nth i core winf) (nth j core winf) d w) /\
  (forall i j d, In (i, j, d) (csr_entries g) ->
     exists w, In (i, j, w) (mrd_entries core g) /\
               greatest_of_three (nth i core winf) (nth j core winf) d w).
Proof. exact @c13_csr_ok. Qed.
Print Assumptions C13_mutual_reachability_csr.

Theorem C13_mutual_reachability_brute_force :
  forall (W : WOrd) (zero : W) (D : nat -> nat -> W) n ms,
  (forall i j w, In (i, j, w) (brute_edges zero D n ms) ->
     i < j < n /\ greatest_of_three (brute_core zero D n ms i) (brute_core zero D n ms j) (D i j) w) /\
  (forall i j, i < j < n -> exists w, In (i, j, w) (brute_edges zero D n ms) /\
     greatest_of_three (brute_core zero D n ms i) (brute_core zero D n ms j) (D i j) w).
Proof. exact @c13_brute. Qed.
Print Assumptions C13_mutual_reachability_brute_force.

Theorem C13_mutual_reachability_knn :
  forall (W : WOrd) (knn : list (list (option nat * W))) core,
  (forall i j w, i <> j -> In (i, j, w) (knn_edges knn core) ->
     exists d, In (Some j, d) (nth i knn []) /\
               greatest_of_three (nth i core winf) (nth j core winf) d w) /\
  (forall i j d, i < length knn -> i <> j -> In (Some j, d) (nth i knn []) ->
     exists w, In (i, j, w) (knn_edges knn core) /\
               greatest_of_three (nth i core winf) (nth j core winf) d w).
Proof. exact @c13_knn. Qed.
Print Assumptions C13_mutual_reachability_knn.

(** C13.  Swapping the two samples gives an equal weight. *)
Theorem C13_symmetric :
  forall (W : WOrd) (a b c : W),
  wle (mrd3 a b c) (mrd3 b a c) = true /\ wle (mrd3 b a c) (mrd3 a b c) = true.
Proof. exact @c13_symmetric. Qed.
Print Assumptions C13_symmetric.

(** ** Non-vacuity *)

(** Directed entries, both directions with different weights, duplicates, a
    diagonal entry, an explicit zero; samples 4 and 5 are apart from the rest. *)
Definition ex_graph : list (edge ZInf) :=
  [(0, 1, Some 5%Z); (1, 0, Some 3%Z); (1, 2, Some 0%Z); (3, 2, Some 7%Z); (3, 3, Some 1%Z);
   (0, 2, Some 9%Z); (0, 2, Some 8%Z); (5, 4, Some 2%Z)].

Example C11_example_range : in_range 6 ex_graph.
Proof. intros e H. simpl in H. repeat destruct H as [<-|H]; try tauto; unfold esrc, edst; simpl; repeat constructor. Qed.

Example C11_example :
  csr_entries (symmetrize_min ex_graph 6)
  = [(0, 1, Some 3%Z); (0, 2, Some 8%Z); (1, 2, Some 0%Z); (1, 0, Some 3%Z); (2, 3, Some 7%Z);
     (2, 0, Some 8%Z); (2, 1, Some 0%Z); (3, 2, Some 7%Z); (4, 5, Some 2%Z); (5, 4, Some 2%Z)].
Proof. vm_compute. reflexivity. Qed.

Example C12_example :
  core_distances_csr (W := ZInf) (Some 0%Z) (symmetrize_min ex_graph 6) 2
  = ([[Some 1; Some 2]; [Some 2; Some 0]; [Some 1; Some 3]; [Some 2; None]; [Some 5; None]; [Some 4; None]],
     [Some 8%Z; Some 3%Z; Some 7%Z; None; None; None]).
Proof. vm_compute. reflexivity. Qed.

(** min_samples = 1: two components, one bridge from 0 to 4. *)
Example C09_example :
  (let* (r, core) := precomputed_kruskal (W := ZInf) (Some 0%Z) ex_graph 6 1 CLNone in Ok (fst r))
  = Ok [(1, 2, Some 0%Z); (4, 5, Some 2%Z); (0, 1, Some 3%Z); (2, 3, Some 7%Z); (0, 4, None)].
Proof. vm_compute. reflexivity. Qed.

Example C10_example :
  unbridge_mst (W := ZInf)
    [(1, 2, Some 0%Z); (4, 5, Some 2%Z); (0, 1, Some 3%Z); (2, 3, Some 7%Z); (0, 4, None)]
  = Ok ([(1, 2, Some 0%Z); (4, 5, Some 2%Z); (0, 1, Some 3%Z); (2, 3, Some 7%Z)], [0; 0; 0; 0; 1; 1]).
Proof. vm_compute. reflexivity. Qed.

(** Five points on a line, min_samples = 2. *)
Definition ex_pos (i : nat) : Z := nth i [0; 1; 3; 10; 12]%Z 0%Z.
Definition ex_dist (i j : nat) : ZInf := Some (Z.abs (ex_pos i - ex_pos j)).
Example C03_brute_force_example :
  (let* (r, core) := kruskal_mst_brute (W := ZInf) (Some 0%Z) ex_dist 5 2 CLNone in Ok (fst r, core))
  = Ok ([(0, 1, Some 3%Z); (0, 2, Some 3%Z); (2, 3, Some 7%Z); (2, 4, Some 9%Z)],
        [Some 3%Z; Some 2%Z; Some 3%Z; Some 7%Z; Some 9%Z]).
Proof. vm_compute. reflexivity. Qed.
