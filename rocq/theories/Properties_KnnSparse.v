(** C84: neighbour tables as sparse graphs. *)
From Coq Require Import List Arith Lia Bool ZArith.
From Verif Require Import Prelude Order Graph M_Kruskal S_Kruskal M_Precomputed S_Precomputed M_KruskalEntry M_Linkage M_NNDescent S_NNDescent S_CoreGraph P_BackendsAgree
  M_KnnSparse P_KnnSparse.
Import ListNotations.

(** C84.  The sparse graph of a neighbour table has an entry for two samples
    exactly if one lists the other, in both directions, with the smallest of the
    listed distances. *)
Theorem C84_sparse_graph_of_neighbours :
  forall (W : WOrd) (knn : list (list (option nat * W))) k n, neighbour_table n k knn ->
  exists g, knn_graph_to_sparse knn k n = Ok g /\ csr_n g = n /\
    NoDup (map (fun e => (esrc e, edst e)) (csr_entries g)) /\
    (forall i j, i < n -> j < n -> i <> j ->
       (exists w, In (i, j, w) (csr_entries g)) <->
       (exists w, In (Some j, w) (nth i knn []) \/ In (Some i, w) (nth j knn []))) /\
    (forall i j w, In (i, j, w) (csr_entries g) ->
       i < n /\ j < n /\ i <> j /\ In (j, i, w) (csr_entries g) /\
       (In (Some j, w) (nth i knn []) \/ In (Some i, w) (nth j knn [])) /\
       (forall d, In (Some j, d) (nth i knn []) \/ In (Some i, d) (nth j knn []) -> wle w d = true)).
Proof. exact @c84_sparse. Qed.
Print Assumptions C84_sparse_graph_of_neighbours.

(** C84.  Going through the sparse graph changes nothing: with the same core
    distances the bridged spanning trees connect the same samples at every
    threshold and have the same weights. *)
Theorem C84_sparse_graph_same_tree :
  forall (W : WOrd) (knn : list (list (option nat * W))) k n core, 0 < n -> neighbour_table n k knn ->
  exists g c1 l1 M1 T1 c2 l2 M2 T2, knn_graph_to_sparse knn k n = Ok g /\
    kruskal_mst_from_csr g core CLNone = Ok (c1, l1, M1) /\
    (if 1 <? c1 then bridge_forest_with_inf M1 l1 else Ok M1) = Ok T1 /\
    kruskal_mst_from_knn knn core n = Ok (M2, c2, l2) /\
    (if 1 <? c2 then bridge_forest_with_inf M2 l2 else Ok M2) = Ok T2 /\
    spanning_tree n T1 /\ spanning_tree n T2 /\
    same_components_at_every_threshold T1 T2 /\ same_weights (sorted_weights T1) (sorted_weights T2).
Proof. exact @c84_same. Qed.
Print Assumptions C84_sparse_graph_same_tree.

(** C84.  A table with another number of rows than there are samples is an error. *)
Theorem C84_wrong_number_of_rows :
  forall (W : WOrd) (knn : list (list (option nat * W))) k n, length (concat knn) <> n * k ->
  knn_graph_to_sparse knn k n = Err IndexError.
Proof. exact @c84_wrong_size. Qed.
Print Assumptions C84_wrong_number_of_rows.

(** C84.  So is a table that names a sample that does not exist. *)
Theorem C84_unknown_sample :
  forall (W : WOrd) (knn : list (list (option nat * W))) k n j d row,
  length knn = n -> (forall row, In row knn -> length row = k) -> In row knn -> In (Some j, d) row -> n <= j ->
  knn_graph_to_sparse knn k n = Err ValueError.
Proof. exact @c84_unknown. Qed.
Print Assumptions C84_unknown_sample.

(** C84.  The answer of the attempt to connect a graph is the truth about the graph
    returned with it; a connected graph is returned as it is, and a failure of the
    other package is not passed on. *)
Theorem C84_connecting_answers_truly :
  forall (W : WOrd) n (adj : list (edge W)) connect,
  ((forall x y, x < n -> y < n -> connected adj x y) -> try_connect_knn_graph n adj connect = (true, Some adj)) /\
  (forall r, try_connect_knn_graph n adj connect = (true, r) ->
     exists adj', r = Some adj' /\ forall x y, x < n -> y < n -> connected adj' x y) /\
  (forall r, try_connect_knn_graph n adj connect = (false, r) ->
     ~ (forall x y, x < n -> y < n -> connected adj x y) /\
     match connect adj with
     | Ok adj' => r = Some adj' /\ ~ (forall x y, x < n -> y < n -> connected adj' x y)
     | Err _ => r = None
     end).
Proof. exact @c84_connect. Qed.
Print Assumptions C84_connecting_answers_truly.

(** C84.  If the other package answers with a new graph and leaves its argument
    alone, a graph in several parts is never connected: its answer is not used. *)
Theorem C84_answer_of_connect_graph_not_used :
  forall (W : WOrd) n (adj : list (edge W)) x y, x < n -> y < n -> ~ connected adj x y ->
  try_connect_knn_graph n adj (@Ok _) = (false, Some adj).
Proof. exact @c84_no_effect. Qed.
Print Assumptions C84_answer_of_connect_graph_not_used.

(** ** Examples *)

(** Five samples: 0 and 1 list each other at different distances, 2 lists 1 but not
    the other way, 3 and 4 list only each other, at distance zero. *)
Definition ex_neighbours : list (list (option nat * ZInf)) :=
  [[(Some 1, Some 2%Z); (None, None)]; [(Some 0, Some 3%Z); (Some 1, Some 0%Z)]; [(Some 1, Some 1%Z); (Some 0, Some 9%Z)];
   [(Some 4, Some 0%Z); (None, None)]; [(Some 3, Some 0%Z); (Some 3, Some 5%Z)]].

Example C84_example_table : neighbour_table 5 2 ex_neighbours.
Proof.
  split; [reflexivity| |].
  - intros row H. simpl in H. decompose [or] H; subst; try reflexivity. contradiction.
  - intros row j d H. simpl in H. decompose [or] H; subst; clear H; intro H; simpl in H; decompose [or] H; try contradiction;
      match goal with E : _ = _ |- _ => inversion E; subst; repeat constructor end.
Qed.

Example C84_example_sparse :
  exists g, knn_graph_to_sparse ex_neighbours 2 5 = Ok g /\
    csr_entries g = [(0, 1, Some 2%Z); (0, 2, Some 9%Z); (1, 2, Some 1%Z); (1, 0, Some 2%Z);
                     (2, 0, Some 9%Z); (2, 1, Some 1%Z); (3, 4, Some 0%Z); (4, 3, Some 0%Z)].
Proof. eexists. split; vm_compute; reflexivity. Qed.

(** Both ways give the same weights. *)
Example C84_example_trees :
  exists g c l M, knn_graph_to_sparse ex_neighbours 2 5 = Ok g /\
    kruskal_mst_from_csr g (repeat (Some 1%Z : ZInf) 5) CLNone = Ok (c, l, M) /\ map ewt M = [Some 1%Z; Some 1%Z; Some 2%Z] /\
    exists M' c' l', kruskal_mst_from_knn ex_neighbours (repeat (Some 1%Z : ZInf) 5) 5 = Ok (M', c', l') /\
      map ewt M' = [Some 1%Z; Some 1%Z; Some 2%Z] /\ c = 2 /\ c' = 2.
Proof.
  do 4 eexists. split; [vm_compute; reflexivity|]. split; [vm_compute; reflexivity|]. split; [vm_compute; reflexivity|].
  do 3 eexists. split; [vm_compute; reflexivity|]. split; [vm_compute; reflexivity|]. split; reflexivity.
Qed.

Example C84_example_wrong_rows : length (concat ex_neighbours) <> 4 * 2 /\ knn_graph_to_sparse ex_neighbours 2 4 = Err IndexError.
Proof. split; [vm_compute; discriminate|reflexivity]. Qed.

(** A graph in two parts: joined by an edge, left alone, or with a failing package. *)
Definition ex_parts : list (edge ZInf) := [(0, 1, Some 2%Z); (2, 1, Some 1%Z); (3, 4, Some 0%Z)].
Example C84_example_connecting :
  try_connect_knn_graph 5 ex_parts (fun adj => Ok ((1, 4, Some 7%Z) :: adj)) = (true, Some ((1, 4, Some 7%Z) :: ex_parts)) /\
  try_connect_knn_graph 5 ex_parts (@Ok _) = (false, Some ex_parts) /\
  try_connect_knn_graph 5 ex_parts (fun _ => Err ValueError) = (false, None) /\
  try_connect_knn_graph 3 (firstn 2 ex_parts) (fun _ => Err ValueError) = (true, Some (firstn 2 ex_parts)).
Proof. repeat split; vm_compute; reflexivity. Qed.

Example C84_example_parts : ~ connected ex_parts 0 3.
Proof. intro H. apply (connected_const ex_parts (fun x => if x <? 3 then 0 else 1)) in H; [discriminate|reflexivity]. Qed.

Example C84_example_unknown : knn_graph_to_sparse [[(Some 1, Some 2%Z : ZInf)]; [(Some 2, Some 1%Z)]] 1 2 = Err ValueError.
Proof. reflexivity. Qed.
