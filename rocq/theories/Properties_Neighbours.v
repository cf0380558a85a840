(** C65: the neighbours that are reported are the nearest other samples. *)
From Coq Require Import List Arith Lia ZArith Permutation.
From Verif Require Import Prelude Order Graph S_Kruskal M_Kruskal M_Precomputed M_KruskalEntry M_TreeQuery M_Boruvka S_SpaceTree S_Boruvka S_Neighbours P_Neighbours Properties_SpaceTree.
Import ListNotations.

(** The exhaustive search: every sample gets a row of [min_samples] entries (at
    least one, at most all others), each a different sample, nearest first, and
    nobody left out is nearer than somebody listed, apart from the one sample
    [c] that the row skips.  [c] is the sample itself unless another sample is
    at the same place. *)
Theorem C65_exhaustive_neighbours :
  forall (W : WOrd) (zero : W) (D : nat -> nat -> W) n min_samples cl T nbrs core,
  2 <= n -> kruskal_mst_brute zero D n min_samples cl = Ok (T, nbrs, core) ->
  length nbrs = n /\ forall i, i < n ->
    exists c, nearest_except (D i) n (Nat.min (Nat.max 1 min_samples) (n - 1)) c (nth i nbrs []) /\
              (alone (D i) n i -> c = i).
Proof. exact @brute_reported. Qed.
Print Assumptions C65_exhaustive_neighbours.

(** The search with a tree: the same, under every schedule. *)
Theorem C65_boruvka_neighbours :
  forall (W : WOrd) t n (rd lb : nat -> nat -> W) zero root mode min_samples,
  tree_shape t n -> lower_bounds t rd lb ->
  (forall i j, i < n -> j < n -> rd i j = rd j i) ->
  (forall i j, i < n -> j < n -> wfinite (rd i j) = true) ->
  wfinite zero = true -> (forall i, i < n -> wle (rd i i) zero = true) ->
  (forall x y, wle x y = true -> wle (root x) (root y) = true) ->
  2 <= n -> min_samples < n -> threads_available mode ->
  exists T nbrs core,
    parallel_boruvka t n rd lb zero root mode min_samples = Ok (T, nbrs, core) /\
    length nbrs = n /\ forall i, i < n ->
      exists c others, nth i nbrs [] = map Some others /\
        nearest_except (rd i) n (Nat.max 1 min_samples) c others /\
        (alone (rd i) n i -> c = i).
Proof. exact tree_boruvka_neighbours. Qed.
Print Assumptions C65_boruvka_neighbours.

(** Kruskal's algorithm on the graph of the nearest neighbours: the same, for
    every number of neighbours in the graph. *)
Theorem C65_graph_neighbours :
  forall (W : WOrd) (zero : W) query out (rd : nat -> nat -> W) n min_samples knn_k cl T nbrs core,
  (forall x y, wle x y = true -> wle (out x) (out y) = true) ->
  2 <= n -> min_samples < n -> 0 < knn_k ->
  (forall k, Forall2 (fun i row => nearest out (rd i) n k (map (fun p => (snd p, fst p)) row)) (seq 0 n) (query k)) ->
  kruskal_mst_knn zero query min_samples knn_k cl = Ok (T, nbrs, core) ->
  length nbrs = n /\ forall i, i < n ->
    exists c others, nth i nbrs [] = map Some others /\
      nearest_except (fun q => out (rd i q)) n (Nat.max 1 min_samples) c others /\
      (alone (fun q => out (rd i q)) n i -> c = i).
Proof. exact @knn_reported. Qed.
Print Assumptions C65_graph_neighbours.

(** Four samples at 0, 1, 5 and 7. *)
Definition nbr_at (i : nat) : Z := nth i [0; 1; 5; 7]%Z 0%Z.
Definition nbr_D (i j : nat) : ZInf := Some (Z.abs (nbr_at i - nbr_at j)).
Example C65_exhaustive_neighbours_example :
  exists T core, kruskal_mst_brute (W := ZInf) (Some 0%Z) nbr_D 4 2 CLNone = Ok (T, [[1; 2]; [0; 2]; [3; 1]; [2; 1]], core) /\
    alone (nbr_D 2) 4 2.
Proof.
  eexists _, _. split; [vm_compute; reflexivity|]. intros j Hj Hne.
  destruct j as [|[|[|[|j]]]]; try lia; vm_compute; reflexivity.
Qed.
Definition nbr_query (k : nat) : list (list (option nat * ZInf)) :=
  map (fun i => map (fun j => (Some j, nbr_D i j)) (firstn k (isort (nbr_D i) (seq 0 4))) ++ repeat (None, None) (k - 4)) (seq 0 4).
Example C65_graph_neighbours_example :
  (exists T core, kruskal_mst_knn (W := ZInf) (Some 0%Z) nbr_query 1 2 CLNone = Ok (T, map (map Some) [[1]; [0]; [3]; [2]], core)) /\
  nearest (fun x => x) (nbr_D 2) 4 3 (map (fun p => (snd p, fst p)) (nth 2 (nbr_query 3) [])).
Proof.
  split; [eexists _, _; vm_compute; reflexivity|]. exists [2; 3; 1], [0]. split; [vm_compute; reflexivity|].
  split; [reflexivity|]. split; [|split].
  - transitivity (0 :: [2; 3; 1]); [apply (Permutation_app_comm [2; 3; 1] [0])|]. apply perm_skip. transitivity [1; 2; 3]; [apply (Permutation_app_comm [2; 3] [1])|reflexivity].
  - repeat constructor.
  - intros q r [<-|[<-|[<-|[]]]] [<-|[]]; vm_compute; reflexivity.
Qed.

(** Finding: of two samples at the same place, both rows skip the same one, so
    one of them is listed as its own neighbour. *)
Theorem C65_own_neighbour_refuted :
  exists (x : nat -> Z) n min_samples T nbrs core,
    kruskal_mst_brute (W := ZInf) (Some 0%Z) (fun i j => Some (Z.abs (x i - x j))) n min_samples CLNone = Ok (T, nbrs, core) /\
    exists i, i < n /\ In i (nth i nbrs []).
Proof.
  exists (fun i => nth i [0; 0; 5]%Z 0%Z), 3, 1. eexists _, _, _. split; [vm_compute; reflexivity|].
  exists 1. split; [lia|]. vm_compute. auto.
Qed.
Print Assumptions C65_own_neighbour_refuted.

(** Six samples on a line in a tree with two leaves (see Properties_SpaceTree);
    samples 2 and 5 are at the same place, and sample 5 is listed as its own
    neighbour. *)
Example C65_boruvka_neighbours_example :
  exists T nbrs core,
    parallel_boruvka ex_tree 6 ex_rd ex_lb (z 0) (fun w => w) (Plain (fun _ => turns 6 40)) 2 = Ok (T, nbrs, core) /\
    nth 0 nbrs [] = [Some 4; Some 5] /\ nth 2 nbrs [] = [Some 5; Some 3] /\ nth 5 nbrs [] = [Some 5; Some 3] /\
    alone (ex_rd 0) 6 0.
Proof.
  eexists _, _, _. split; [exact C18_example_run|]. repeat (split; [reflexivity|]).
  intros j Hj Hne. do 6 (destruct j as [|j]; [first [lia|vm_compute; reflexivity]|]). lia.
Qed.
