(** C15 - C18, C20: space-tree queries and parallel Boruvka. *)
From Coq Require Import List Arith Bool ZArith Lia Sorted Permutation.
From Verif Require Import Prelude Order Graph M_Kruskal M_Precomputed M_CoreGraph M_KruskalEntry M_TreeQuery M_Boruvka
  S_Kruskal S_Precomputed S_CoreGraph S_SpaceTree S_Boruvka P_TreeQuery P_BoruvkaQuery P_BoruvkaRound P_BoruvkaAgree P_BoruvkaLinks.
Import ListNotations.

(** C20.  On every well formed tree with valid lower bounds, for every number of
    neighbours and every monotone conversion of the reported distances, the query
    terminates and each row lists the k nearest samples, nearest first. *)
Theorem C20_nearest_neighbours_exact :
  forall (W : WOrd) t n m k (rd lb : nat -> nat -> W) out,
  tree_shape t n -> lower_bounds t rd lb -> 0 < k ->
  (forall i q, i < m -> q < n -> wfinite (rd i q) = true) ->
  (forall x y, wle x y = true -> wle (out x) (out y) = true) ->
  (forall x, wfinite x = true -> wlt (out x) (out winf) = true) ->
  exists rows, parallel_tree_query t rd lb out m k = Ok rows /\
    Forall2 (fun i row => nearest out (rd i) n k row) (seq 0 m) rows.
Proof. exact @parallel_tree_query_ok. Qed.
Print Assumptions C20_nearest_neighbours_exact.

(** C16.  In a round of the plain query, under every schedule of the threads, each
    component ends with a candidate as light as any edge that leaves it, and every
    candidate is such an edge. *)
Theorem C16_round_finds_lightest_edges :
  forall (W : WOrd) t n (rd lb : nat -> nat -> W) core comp node_comp,
  tree_shape t n -> lower_bounds t rd lb ->
  (forall node c q, node < t_nodes t -> node_comp node = Some c -> below t node q -> comp q = c) ->
  forall schedule, exists cands,
    boruvka_tree_query t n rd lb core comp node_comp schedule = Ok cands /\
    lightest_found n core rd comp cands.
Proof. exact @tree_query_round. Qed.
Print Assumptions C16_round_finds_lightest_edges.

(** C16.  The same for the variant that works through blocks of samples, for
    every block size and every schedule of every block. *)
Theorem C16_blocks_find_lightest_edges :
  forall (W : WOrd) t n (rd lb : nat -> nat -> W) core comp node_comp,
  tree_shape t n -> lower_bounds t rd lb ->
  (forall node c q, node < t_nodes t -> node_comp node = Some c -> below t node q -> comp q = c) ->
  forall schedules block_size, 0 < block_size -> exists cands,
    boruvka_tree_query_reproducible t n rd lb core comp node_comp schedules block_size = Ok cands /\
    lightest_found n core rd comp cands.
Proof. exact @reproducible_round. Qed.
Print Assumptions C16_blocks_find_lightest_edges.

(** C16.  Interleavings are not needed: it is enough that every value a thread
    reads was written to that cell by some thread, or is the initial one. *)
Theorem C16_stale_reads_are_harmless :
  forall (W : WOrd) t n (rd lb : nat -> nat -> W) core comp node_comp,
  tree_shape t n -> lower_bounds t rd lb ->
  (forall node c q, node < t_nodes t -> node_comp node = Some c -> below t node q -> comp q = c) ->
  forall reads writes result,
  relaxed comp (seq 0 n) (fun _ => winf) (query_thread t rd lb core comp node_comp) reads writes result ->
  lightest_found n core rd comp (map result (seq 0 n)).
Proof. exact @relaxed_round. Qed.
Print Assumptions C16_stale_reads_are_harmless.

(** C18.  For at least two samples at finite distances and [min_samples < n],
    under every schedule of every round, parallel Boruvka terminates and returns
    a minimum spanning tree of the complete mutual reachability graph on the
    reported distances, the core distances and the neighbours. *)
Theorem C18_boruvka_minimum_spanning_tree :
  forall (W : WOrd) t n (rd lb : nat -> nat -> W) zero root mode min_samples,
  tree_shape t n -> lower_bounds t rd lb ->
  (forall i j, i < n -> j < n -> rd i j = rd j i) ->
  (forall i j, i < n -> j < n -> wfinite (rd i j) = true) ->
  wfinite zero = true -> (forall i, i < n -> wle (rd i i) zero = true) ->
  (forall x y, wle x y = true -> wle (root x) (root y) = true) ->
  2 <= n -> min_samples < n -> threads_available mode ->
  let D i j := root (rd i j) in
  exists T nbrs core,
    parallel_boruvka t n rd lb zero root mode min_samples = Ok (T, nbrs, core) /\
    core_distances n D (root zero) min_samples core /\
    spanning_tree n T /\
    (let w := mutual (fun i => nth i core winf) D in
     min_spanning_forest (complete_graph n w) (map (at_weight w) T) /\
     (forall e, In e T -> equiv (ewt e) (w (esrc e) (edst e)))) /\
    Forall2 (fun i nb => exists row,
               nearest (fun x => x) (rd i) n (if 1 <? min_samples then min_samples + 1 else 2) row /\
               nb = map snd (tl row)) (seq 0 n) nbrs.
Proof. exact @tree_boruvka_reported. Qed.
Print Assumptions C18_boruvka_minimum_spanning_tree.

(** C15.  Under every schedule, the tree has the same components at every
    threshold, the same sorted weights and the same core distances as the one
    found by Kruskal's algorithm on all pairs. *)
Theorem C15_space_tree_agrees_with_kruskal :
  forall (W : WOrd) t n (rd lb : nat -> nat -> W) zero root mode min_samples,
  tree_shape t n -> lower_bounds t rd lb ->
  (forall i j, i < n -> j < n -> rd i j = rd j i) ->
  (forall i j, i < n -> j < n -> wfinite (rd i j) = true) ->
  wfinite zero = true -> (forall i, i < n -> wle (rd i i) zero = true) ->
  (forall x y, wle x y = true -> wle (root x) (root y) = true) ->
  2 <= n -> min_samples < n -> threads_available mode ->
  equiv (root zero) zero ->
  exists T1 nbrs1 core1 T2 nbrs2 core2,
    parallel_boruvka t n rd lb zero root mode min_samples = Ok (T1, nbrs1, core1) /\
    kruskal_mst_brute zero (fun i j => root (rd i j)) n min_samples CLNone = Ok (T2, nbrs2, core2) /\
    Forall2 equiv core1 core2 /\
    same_components_at_every_threshold T1 T2 /\
    same_weights (sorted_weights T1) (sorted_weights T2).
Proof. exact @tree_boruvka_agrees. Qed.
Print Assumptions C15_space_tree_agrees_with_kruskal.

(** C17, the part that holds: for any two trees over the samples, variants,
    numbers of threads and schedules, the components at every threshold and the
    sorted weights are the same. *)
Theorem C17_schedules_agree_partial :
  forall (W : WOrd) t1 t2 n (rd lb1 lb2 : nat -> nat -> W) zero root mode1 mode2 min_samples,
  tree_shape t1 n -> lower_bounds t1 rd lb1 -> tree_shape t2 n -> lower_bounds t2 rd lb2 ->
  (forall i j, i < n -> j < n -> rd i j = rd j i) ->
  (forall i j, i < n -> j < n -> wfinite (rd i j) = true) ->
  wfinite zero = true -> (forall i, i < n -> wle (rd i i) zero = true) ->
  (forall x y, wle x y = true -> wle (root x) (root y) = true) ->
  2 <= n -> min_samples < n -> threads_available mode1 -> threads_available mode2 ->
  equiv (root zero) zero ->
  exists T1 nbrs1 core1 T2 nbrs2 core2,
    parallel_boruvka t1 n rd lb1 zero root mode1 min_samples = Ok (T1, nbrs1, core1) /\
    parallel_boruvka t2 n rd lb2 zero root mode2 min_samples = Ok (T2, nbrs2, core2) /\
    Forall2 equiv core1 core2 /\
    same_components_at_every_threshold T1 T2 /\
    same_weights (sorted_weights T1) (sorted_weights T2).
Proof. exact @tree_boruvka_schedules. Qed.
Print Assumptions C17_schedules_agree_partial.

(** C17 in full, if no two pairs of samples have the same mutual reachability
    distance: the same samples are joined, whatever the tree over the samples, the
    variant, the number of threads and the schedule. *)
Theorem C17_same_edges_without_ties :
  forall (W : WOrd) t1 t2 n (rd lb1 lb2 : nat -> nat -> W) zero root mode1 mode2 min_samples,
  tree_shape t1 n -> lower_bounds t1 rd lb1 -> tree_shape t2 n -> lower_bounds t2 rd lb2 ->
  (forall i j, i < n -> j < n -> rd i j = rd j i) ->
  (forall i j, i < n -> j < n -> wfinite (rd i j) = true) ->
  wfinite zero = true -> (forall i, i < n -> wle (rd i i) zero = true) ->
  (forall x y, wle x y = true -> wle (root x) (root y) = true) ->
  2 <= n -> min_samples < n -> threads_available mode1 -> threads_available mode2 ->
  equiv (root zero) zero ->
  (forall core, core_distances n (fun i j => root (rd i j)) (root zero) min_samples core ->
     no_ties n (mutual (fun i => nth i core winf) (fun i j => root (rd i j)))) ->
  exists T1 nbrs1 core1 T2 nbrs2 core2,
    parallel_boruvka t1 n rd lb1 zero root mode1 min_samples = Ok (T1, nbrs1, core1) /\
    parallel_boruvka t2 n rd lb2 zero root mode2 min_samples = Ok (T2, nbrs2, core2) /\
    forall i j, joined_by T1 i j <-> joined_by T2 i j.
Proof. exact @tree_boruvka_links. Qed.
Print Assumptions C17_same_edges_without_ties.

(** ** Examples *)

Definition z (x : Z) : ZInf := Some x.

(** Samples on a line, squared distances, and boxes [lo, hi]. *)
Definition on_line (xs : list Z) (i j : nat) : ZInf := z ((nth i xs 0 - nth j xs 0) ^ 2)%Z.
Definition box_bound (xs : list Z) (boxes : list (Z * Z)) (p node : nat) : ZInf :=
  let x := nth p xs 0%Z in
  let (lo, hi) := nth node boxes (0, 0)%Z in
  z (if (x <? lo)%Z then (lo - x) ^ 2 else if (hi <? x)%Z then (x - hi) ^ 2 else 0)%Z.

Definition ex_xs : list Z := [9; 0; 4; 1; 7; 4]%Z.
Definition ex_tree : space_tree :=
  {| t_nodes := 3; t_idx := fun k => nth k [1; 3; 2; 5; 4; 0] 0;
     t_start := fun node => nth node [0; 0; 3] 0; t_end := fun node => nth node [6; 3; 6] 0;
     t_leaf := fun node => negb (node =? 0) |}.
Definition ex_boxes : list (Z * Z) := [(0, 9); (0, 4); (4, 9)]%Z.
Definition ex_rd := on_line ex_xs.
Definition ex_lb := box_bound ex_xs ex_boxes.

Example C20_example_tree : tree_shape ex_tree 6.
Proof.
  split.
  - vm_compute. lia.
  - split; reflexivity.
  - intros [|[|[|k]]] H; vm_compute in *; lia.
  - intros [|[|[|k]]] H; vm_compute in *; lia.
  - intros [|[|[|k]]] H L; try discriminate. vm_compute. repeat split; lia.
  - apply NoDup_Permutation; [vm_compute; repeat constructor; simpl; intuition lia|apply seq_NoDup|].
    intro x. vm_compute. intuition lia.
Qed.

Lemma line_bound xs boxes p node q :
  (let (lo, hi) := nth node boxes (0, 0)%Z in lo <= nth q xs 0 <= hi)%Z ->
  wle (box_bound xs boxes p node) (on_line xs p q) = true.
Proof.
  unfold box_bound, on_line. destruct (nth node boxes (0, 0)%Z) as [lo hi]. intros H.
  apply Z.leb_le. set (x := nth p xs 0%Z) in *. set (y := nth q xs 0%Z) in *.
  destruct (Z.ltb_spec x lo); [nia|]. destruct (Z.ltb_spec hi x); nia.
Qed.

Example C20_example_bounds : lower_bounds ex_tree ex_rd ex_lb.
Proof.
  intros p node q Hn (k & Hk & <-). apply line_bound.
  destruct node as [|[|[|node]]]; cbn in Hn; [| | |lia]; cbn in Hk;
    do 6 (destruct k as [|k]; [first [lia | vm_compute; split; discriminate]|]); lia.
Qed.

Example C20_example_run : exists rows, parallel_tree_query ex_tree ex_rd ex_lb (fun w => w) 6 3 = Ok rows /\
  nth 0 rows [] = [(z 0, Some 0); (z 4, Some 4); (z 25, Some 5)] /\
  nth 5 rows [] = [(z 0, Some 2); (z 0, Some 5); (z 9, Some 3)].
Proof. vm_compute. eexists. split; [reflexivity|]. split; reflexivity. Qed.

(** More places than samples: the rest stay empty. *)
Example C20_example_short : exists rows, parallel_tree_query ex_tree ex_rd ex_lb (fun w => w) 1 8 = Ok rows /\
  map fst (nth 0 rows []) = [z 0; z 4; z 25; z 25; z 64; z 81; None; None].
Proof. vm_compute. eexists. split; reflexivity. Qed.

Example C18_example_hypotheses :
  (forall i j, i < 6 -> j < 6 -> ex_rd i j = ex_rd j i) /\
  (forall i j, i < 6 -> j < 6 -> wfinite (ex_rd i j) = true) /\
  wfinite (z 0) = true /\ (forall i, i < 6 -> wle (ex_rd i i) (z 0) = true).
Proof.
  split; [|split; [|split]]; auto.
  - intros i j _ _. unfold ex_rd, on_line, z. f_equal. ring.
  - intros i _. unfold ex_rd, on_line. rewrite Z.sub_diag. reflexivity.
Qed.

(** Threads taking turns in every round. *)
Definition turns (n k : nat) : list nat := concat (repeat (seq 0 n) k).

Example C16_example_run : exists cands,
  boruvka_tree_query ex_tree 6 ex_rd ex_lb (fun _ => z 0) (fun i => nth i [4; 1; 2; 1; 4; 2] 0)
    (fun _ => None) (turns 6 40) = Ok cands /\
  lightest_found 6 (fun _ => z 0) ex_rd (fun i => nth i [4; 1; 2; 1; 4; 2] 0) cands /\
  map fst cands <> repeat winf 6.
Proof.
  destruct (C16_round_finds_lightest_edges ZInf ex_tree 6 ex_rd ex_lb (fun _ => z 0)
              (fun i => nth i [4; 1; 2; 1; 4; 2] 0) (fun _ => None) C20_example_tree C20_example_bounds)
    with (schedule := turns 6 40) as (cands & E & L).
  { intros node c q _ [=]. }
  exists cands. split; [exact E|]. split; [exact L|]. vm_compute in E. injection E as <-. discriminate.
Qed.

Example C18_example_run :
  parallel_boruvka ex_tree 6 ex_rd ex_lb (z 0) (fun w => w) (Plain (fun _ => turns 6 40)) 2 =
  Ok ([(0, 4, z 25); (1, 3, z 16); (2, 5, z 9); (3, 2, z 9); (4, 5, z 9)],
      [[Some 4; Some 5]; [Some 3; Some 2]; [Some 5; Some 3]; [Some 1; Some 2]; [Some 0; Some 5]; [Some 5; Some 3]],
      [z 25; z 16; z 9; z 9; z 9; z 9]).
Proof. vm_compute. reflexivity. Qed.

(** A line where the neighbours do not suffice: the queries supply the last edges. *)
Definition far_xs : list Z := [0; 1; 10; 11; 30; 31]%Z.
Definition leaf_tree (n : nat) : space_tree :=
  {| t_nodes := 1; t_idx := fun k => k; t_start := fun _ => 0; t_end := fun _ => n; t_leaf := fun _ => true |}.
Example C18_example_rounds :
  parallel_boruvka (leaf_tree 6) 6 (on_line far_xs) (fun _ _ => z 0) (z 0) (fun w => w)
    (Reproducible 3 (fun _ b => turns 6 (7 * b))) 1 =
  Ok ([(0, 1, z 1); (2, 3, z 1); (4, 5, z 1); (1, 2, z 81); (4, 3, z 361)],
      [[Some 1]; [Some 0]; [Some 3]; [Some 2]; [Some 5]; [Some 4]], repeat (z 0) 6).
Proof. vm_compute. reflexivity. Qed.

(** Samples at 0, 1, 3, 7: all distances differ. *)
Definition spread_xs : list Z := [3; 0; 7; 1]%Z.
Example C17_example_no_ties : forall core,
  core_distances 4 (on_line spread_xs) (z 0) 1 core ->
  no_ties 4 (mutual (fun i => nth i core winf) (on_line spread_xs)).
Proof.
  intros core (_ & H & _). specialize (H (le_n 1)).
  intros i j k l Hi Hj Hk Hl N1 N2. unfold mutual. rewrite !H by assumption.
  destruct i as [|[|[|[|i]]]]; try lia; destruct j as [|[|[|[|j]]]]; try lia;
  destruct k as [|[|[|[|k]]]]; try lia; destruct l as [|[|[|[|l]]]]; try lia; clear;
  intros [A B]; try (exfalso; vm_compute in A; discriminate); try (exfalso; vm_compute in B; discriminate); lia.
Qed.

Example C15_example_space_tree : exists T1 nbrs1 core T2 nbrs2,
  parallel_boruvka ex_tree 6 ex_rd ex_lb (z 0) (fun w => w) (Plain (fun _ => turns 6 40)) 2 = Ok (T1, nbrs1, core) /\
  kruskal_mst_brute (z 0) ex_rd 6 2 CLNone = Ok (T2, nbrs2, core) /\
  T1 <> T2 /\ sorted_weights T1 = [z 9; z 9; z 9; z 16; z 25] /\ sorted_weights T2 = sorted_weights T1.
Proof.
  vm_compute. do 5 eexists. split; [reflexivity|]. split; [reflexivity|].
  split; [discriminate|]. split; reflexivity.
Qed.

(** ** Refutations *)

Definition pair_xs : list Z := [1; 1; 4; 4]%Z.
Definition pair_run (min_samples first : nat) :=
  parallel_boruvka (leaf_tree 4) 4 (on_line pair_xs) (fun _ _ => z 0) (z 0) (fun w => w)
    (Reproducible 2 (fun _ _ => repeat first 50)) min_samples.

(** C17 fails: with two pairs of duplicated samples, the reproducible variant
    returns other edges when the second thread of each block runs first. *)
Theorem C17_reproducible_refuted :
  exists T1 T2 nbrs core,
    pair_run 2 0 = Ok (T1, nbrs, core) /\ pair_run 2 1 = Ok (T2, nbrs, core) /\
    In (0, 2, z 9) T1 /\ ~ In (0, 2, z 9) T2 /\ In (1, 2, z 9) T2 /\ ~ In (1, 2, z 9) T1.
Proof.
  vm_compute. do 4 eexists. split; [reflexivity|]. split; [reflexivity|].
  repeat split; simpl; intuition discriminate.
Qed.
Print Assumptions C17_reproducible_refuted.

(** C18 needs [min_samples < n]: otherwise all core distances are infinite, no
    query finds a candidate and the code uses index -1. *)
Theorem C18_min_samples_refuted : pair_run 4 0 = Err IndexError.
Proof. vm_compute. reflexivity. Qed.
Print Assumptions C18_min_samples_refuted.

(** C18: the reported neighbours drop the first column, which is not the sample
    itself when it has duplicates: sample 1 is reported as its own neighbour. *)
Theorem C18_own_neighbour_refuted :
  exists T nbrs core, pair_run 2 0 = Ok (T, nbrs, core) /\ In (Some 1) (nth 1 nbrs []).
Proof. vm_compute. do 3 eexists. split; [reflexivity|]. simpl. auto. Qed.
Print Assumptions C18_own_neighbour_refuted.
