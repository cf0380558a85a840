(** C14, C15: Boruvka on stored graphs and its agreement with Kruskal. *)
From Coq Require Import List Arith Bool ZArith Lia Sorted.
From Verif Require Import Prelude Order Graph M_Kruskal M_Precomputed M_CoreGraph S_Kruskal S_Precomputed
  S_CoreGraph P_BackendsAgree P_PrecomputedBoruvka.
Import ListNotations.

(** C14.  On every stored graph whose rows are sorted (any tie pattern), without
    self loops and with empty rows only at the end, Boruvka terminates and
    returns a spanning forest, the labels of the components and their number.
    If each edge is stored from both ends the forest is minimal. *)
Theorem C14_boruvka_spanning_forest :
  forall (W : WOrd) (g : csr W),
  stored_graph g -> rows_sorted g -> no_gap g -> no_loops (csr_entries g) ->
  exists labels M, boruvka_mst g = Ok (distinct labels, labels, M) /\
    spanning_forest (csr_entries g) M /\
    labels_classes (csr_n g) labels (connected (csr_entries g)) /\
    length M + distinct labels = csr_n g /\
    (symmetric (csr_entries g) -> min_spanning_forest (csr_entries g) M).
Proof. exact @c14_forest. Qed.
Print Assumptions C14_boruvka_spanning_forest.

(** C14.  The graph Boruvka is run on for precomputed distances satisfies these
    conditions for every input whose isolated samples come last: it stores, from
    both ends, each mutual reachability distance converted by [round]. *)
Theorem C14_precomputed_graph_is_suitable :
  forall (W : WOrd) (round : W -> W) core (entries : list (edge W)) n,
  in_range n entries -> isolated_last n entries ->
  (forall x y, wle x y = true -> wle (round x) (round y) = true) ->
  let b := build_core_graph round core (symmetrize_min entries n) in
  csr_n b = n /\ stored_graph b /\ rows_sorted b /\ no_gap b /\ no_loops (csr_entries b) /\
  symmetric (csr_entries b) /\
  forall i j w, In (i, j, w) (csr_entries b) <->
    exists m, In (i, j, m) (mrd_entries core (symmetrize_min entries n)) /\ w = round m.
Proof. exact @c14_suitable. Qed.
Print Assumptions C14_precomputed_graph_is_suitable.

(** C14.  The whole entry point: a spanning tree made of a forest [M] of mutual
    reachability edges with their exact weights, minimal for the converted
    weights, and infinite bridges between the components of [M].  Converted
    weights must stay below [huge] (1e200), except those that conversion does
    not change (infinity). *)
Theorem C14_precomputed_boruvka :
  forall (W : WOrd) (zero huge : W) round entries n min_samples,
  0 < n -> in_range n entries -> isolated_last n entries ->
  wlt huge winf = true ->
  (forall x y, wle x y = true -> wle (round x) (round y) = true) ->
  let core := snd (core_distances_csr zero (symmetrize_min entries n) min_samples) in
  let X := mrd_entries core (symmetrize_min entries n) in
  (forall e, In e X -> wle (round (ewt e)) huge = true \/ round (ewt e) = ewt e) ->
  exists T nbrs M B, precomputed_boruvka zero huge round entries n min_samples = Ok (T, nbrs, core) /\
    (nbrs, core) = core_distances_csr zero (symmetrize_min entries n) min_samples /\
    T = M ++ B /\ spanning_tree n T /\
    incl M X /\ acyclic M /\
    min_spanning_forest (map (reweigh round) X) (map (reweigh round) M) /\
    Forall (fun e => ewt e = winf /\ smallest_of_component M (esrc e) /\
                     smallest_of_component M (edst e)) B.
Proof. exact @precomputed_boruvka_run. Qed.
Print Assumptions C14_precomputed_boruvka.

(** C15.  When the conversion keeps distinct weights of the graph distinct, the
    Boruvka and the Kruskal entry points return trees with the same components
    at every threshold and the same sorted weights, together with the same
    neighbours and core distances. *)
Theorem C15_backends_agree :
  forall (W : WOrd) (zero huge : W) round entries n min_samples,
  0 < n -> in_range n entries -> isolated_last n entries ->
  wlt huge winf = true ->
  (forall x y, wle x y = true -> wle (round x) (round y) = true) ->
  let core := snd (core_distances_csr zero (symmetrize_min entries n) min_samples) in
  let X := mrd_entries core (symmetrize_min entries n) in
  (forall e, In e X -> wle (round (ewt e)) huge = true \/ round (ewt e) = ewt e) ->
  (forall e f, In e X -> In f X -> wle (round (ewt e)) (round (ewt f)) = true ->
     wle (ewt e) (ewt f) = true) ->
  exists T1 T2 nbrs, precomputed_boruvka zero huge round entries n min_samples = Ok (T1, nbrs, core) /\
    precomputed_kruskal zero entries n min_samples CLNone = Ok (T2, nbrs, core) /\
    same_components_at_every_threshold T1 T2 /\
    same_weights (sorted_weights T1) (sorted_weights T2).
Proof. exact @c15_agree. Qed.
Print Assumptions C15_backends_agree.

(** C15.  Any two algorithms that meet the specification shared by all entry
    points agree in this sense. *)
Theorem C15_bridged_results_agree :
  forall (W : WOrd) n (E T1 T2 : list (edge W)),
  bridged_result n no_constraint E T1 -> bridged_result n no_constraint E T2 ->
  same_components_at_every_threshold T1 T2 /\ same_weights (sorted_weights T1) (sorted_weights T2).
Proof. exact @c15_bridged. Qed.
Print Assumptions C15_bridged_results_agree.

(** ** Examples *)

Definition z (x : Z) : ZInf := Some x.

(** A square with tied weights and a separate pair at the end; sample 6 has no
    neighbours. *)
Definition ex_entries : list (edge ZInf) :=
  [(0, 1, z 2); (1, 2, z 2); (2, 3, z 2); (3, 0, z 2); (0, 2, z 3); (5, 4, z 1)].
Definition ex_graph : csr ZInf :=
  build_core_graph (fun w => w) (repeat (z 0) 7) (symmetrize_min ex_entries 7).

Example C14_example_hypotheses : in_range 7 ex_entries /\ isolated_last 7 ex_entries.
Proof.
  split.
  - intros e He. simpl in He. repeat (destruct He as [<-|He]; [unfold esrc, edst; simpl; lia|]). destruct He.
  - intros i j Hij Hj Hi. exfalso.
    assert (K : forall e, In e ex_entries -> esrc e <> edst e -> i <> esrc e /\ i <> edst e).
    { intros e He Hne. destruct (Hi e He Hne). auto. }
    assert (K1 := K _ (or_introl eq_refl)). assert (K2 := K (2, 3, z 2)). assert (K3 := K (5, 4, z 1)).
    unfold esrc, edst in *. simpl in *.
    destruct K1 as [? ?]; [lia|]. destruct K2 as [? ?]; [tauto|lia|]. destruct K3 as [? ?]; [tauto|lia|]. lia.
Qed.

Example C14_example_run : exists labels M, boruvka_mst ex_graph = Ok (3, labels, M) /\ length M = 4 /\
  labels_classes 7 labels (connected (csr_entries ex_graph)).
Proof.
  destruct C14_example_hypotheses as [H1 H2].
  destruct (C14_precomputed_graph_is_suitable ZInf (fun w => w) (repeat (z 0) 7) ex_entries 7 H1 H2)
    as (B1 & B2 & B3 & B4 & B5 & B6 & _); auto.
  fold ex_graph in *.
  destruct (C14_boruvka_spanning_forest ZInf ex_graph B2 B3 B4 B5) as (labels & M & R1 & R2 & R3 & R4 & R5).
  rewrite B1 in R3. pose proof R1 as R1'. vm_compute in R1'.
  injection R1' as E1 E2 E3. exists labels, M.
  split; [rewrite R1; do 3 f_equal; rewrite <- E2; reflexivity|]. split; [now rewrite <- E3|auto].
Qed.

(** A conversion that is not the identity but keeps the weights of this graph
    apart: it drops everything after the hundreds. *)
Example C15_example_hypotheses :
  let round (w : ZInf) : ZInf := match w with Some x => z (x / 100 * 100) | None => None end in
  let entries := [(0, 1, z 110); (1, 2, z 240); (2, 0, z 350); (3, 4, z 110)] in
  let core := snd (core_distances_csr (z 0) (symmetrize_min entries 6) 2) in
  let X := mrd_entries core (symmetrize_min entries 6) in
  wlt (z 1000) (winf : ZInf) = true /\
  (forall x y, wle x y = true -> wle (round x) (round y) = true) /\
  (forall e, In e X -> wle (round (ewt e)) (z 1000) = true \/ round (ewt e) = ewt e) /\
  (forall e f, In e X -> In f X -> wle (round (ewt e)) (round (ewt f)) = true ->
     wle (ewt e) (ewt f) = true).
Proof.
  intros round entries core X. split; [reflexivity|]. split; [|split].
  - intros [x|] [y|]; simpl; auto. rewrite !Z.leb_le. intro H.
    pose proof (Z.div_le_mono x y 100 ltac:(lia) H). nia.
  - intros e He. vm_compute in He.
    repeat (destruct He as [<-|He]; [vm_compute; auto|]). destruct He.
  - intros e f He Hf. vm_compute in He, Hf.
    repeat (destruct He as [<-|He]; [repeat (destruct Hf as [<-|Hf]; [vm_compute; auto|]); destruct Hf|]).
    destruct He.
Qed.

Example C15_example_run : exists T1 T2 nbrs core,
  precomputed_boruvka (z 0) (z 1000) (fun w => w) ex_entries 7 1 = Ok (T1, nbrs, core) /\
  precomputed_kruskal (z 0) ex_entries 7 1 CLNone = Ok (T2, nbrs, core) /\
  length T1 = 6 /\ T1 <> T2 /\ sorted_weights T1 = [z 1; z 2; z 2; z 2; None; None].
Proof. vm_compute. do 4 eexists. repeat split. discriminate. Qed.

(** ** Refutations *)

(** C14, C15 fail when a sample without neighbours precedes others: its empty row
    is read as if it were the next one.  Sample 0 is joined to sample 2 at
    distance 0, although no distance is stored for it. *)
Theorem C14_isolated_sample_refuted :
  exists (entries : list (edge ZInf)) n T1 T2 nbrs core,
    in_range n entries /\ isolated entries 0 /\
    precomputed_boruvka (z 0) (z 1000) (fun w => w) entries n 1 = Ok (T1, nbrs, core) /\
    precomputed_kruskal (z 0) entries n 1 CLNone = Ok (T2, nbrs, core) /\
    In (0, 2, z 0) T1 /\ ~ same_components_at_every_threshold T2 T1.
Proof.
  exists [(1, 2, z 1); (2, 3, z 2)], 4. do 4 eexists.
  split; [|split; [|split; [vm_compute; reflexivity|split; [vm_compute; reflexivity|]]]].
  - intros e [<-|[<-|[]]]; unfold esrc, edst; simpl; lia.
  - intros e [<-|[<-|[]]] _; unfold esrc, edst; simpl; lia.
  - split; [simpl; tauto|]. eapply (levels_differ _ _ (z 0) (fun i => i) (0, 2, z 0));
      [vm_compute; tauto|reflexivity|vm_compute; reflexivity|vm_compute; discriminate].
Qed.
Print Assumptions C14_isolated_sample_refuted.

(** C14 fails without symmetry: the returned spanning tree is not minimal even
    though all other conditions hold. *)
Theorem C14_directed_graph_refuted :
  exists (g : csr ZInf) labels M,
    stored_graph g /\ rows_sorted g /\ no_gap g /\ no_loops (csr_entries g) /\
    boruvka_mst g = Ok (1, labels, M) /\ ~ min_spanning_forest (csr_entries g) M.
Proof.
  exists {| c_data := [z 5; z 5; z 1; z 2; z 1]; c_indices := [1; 2; 3; 0; 2]; c_indptr := [0; 1; 2; 4; 5] |}.
  do 2 eexists. split; [|split; [|split; [|split; [|split; [vm_compute; reflexivity|]]]]].
  - split; try reflexivity.
    + intros i Hi. unfold csr_n in Hi. simpl in Hi. do 4 (destruct i as [|i]; [simpl; lia|]). lia.
    + intros c Hc. unfold csr_n. simpl in *. lia.
  - intros i Hi. unfold csr_n in Hi. simpl in Hi.
    do 4 (destruct i as [|i]; [vm_compute; repeat constructor|]). lia.
  - intros i j Hij Hj. unfold csr_n in Hj. simpl in Hj.
    do 4 (destruct i as [|i]; [vm_compute; discriminate|]). lia.
  - intros e He. vm_compute in He. repeat (destruct He as [<-|He]; [vm_compute; discriminate|]). destruct He.
  - intros [_ _ H]. revert H. eapply (levels_differ _ _ (z 2) (fun i => if i =? 3 then 2 else i) (2, 0, z 2));
      [vm_compute; tauto|reflexivity|vm_compute; reflexivity|vm_compute; discriminate].
Qed.
Print Assumptions C14_directed_graph_refuted.

(** C14 fails with self loops: they are the first entries of every row, nothing
    is merged in the first round, and the search stops although the graph is
    connected. *)
Theorem C14_self_loops_refuted :
  exists (g : csr ZInf), 
    stored_graph g /\ rows_sorted g /\ no_gap g /\ symmetric (csr_entries g) /\
    connected (csr_entries g) 0 1 /\ boruvka_mst g = Ok (2, [0; 1], []).
Proof.
  exists {| c_data := [z 0; z 1; z 0; z 1]; c_indices := [0; 1; 1; 0]; c_indptr := [0; 2; 4] |}.
  split; [|split; [|split; [|split; [|split; [|vm_compute; reflexivity]]]]].
  - split; try reflexivity.
    + intros i Hi. unfold csr_n in Hi. simpl in Hi. do 2 (destruct i as [|i]; [simpl; lia|]). lia.
    + intros c Hc. unfold csr_n. simpl in *. lia.
  - intros i Hi. unfold csr_n in Hi. simpl in Hi.
    do 2 (destruct i as [|i]; [vm_compute; repeat constructor|]). lia.
  - intros i j Hij Hj. unfold csr_n in Hj. simpl in Hj.
    do 2 (destruct i as [|i]; [vm_compute; discriminate|]). lia.
  - intros a b w H. exists w. split; [|apply wle_refl]. vm_compute in H. vm_compute.
    repeat (destruct H as [[= <- <- <-]|H]; [tauto|]). destruct H.
  - apply (connected_edge _ (0, 1, z 1)). vm_compute. tauto.
Qed.
Print Assumptions C14_self_loops_refuted.

(** C15 fails when the conversion to single precision merges two distances: the
    back ends return trees with different clusters below some distance.  Here
    the conversion drops the last decimal digit. *)
Theorem C15_rounding_refuted :
  exists (round : ZInf -> ZInf) (entries : list (edge ZInf)) n T1 T2 nbrs core,
    (forall x y, wle x y = true -> wle (round x) (round y) = true) /\
    in_range n entries /\ isolated_last n entries /\
    precomputed_boruvka (z 0) (z 1000) round entries n 1 = Ok (T1, nbrs, core) /\
    precomputed_kruskal (z 0) entries n 1 CLNone = Ok (T2, nbrs, core) /\
    ~ same_components_at_every_threshold T1 T2.
Proof.
  exists (fun w => match w with Some x => z (x / 10) | None => None end),
    [(0, 1, z 10); (1, 2, z 11); (0, 2, z 12)], 3. do 4 eexists.
  split; [|split; [|split; [|split; [vm_compute; reflexivity|split; [vm_compute; reflexivity|]]]]].
  - intros [x|] [y|]; simpl; auto. rewrite !Z.leb_le. apply Z.div_le_mono. lia.
  - intros e [<-|[<-|[<-|[]]]]; unfold esrc, edst; simpl; lia.
  - intros i j Hij Hj Hi. exfalso. assert (i = 0 \/ i = 1) as [->| ->] by lia;
      (destruct (Hi _ (or_introl eq_refl)) as [K1 K2]; [discriminate|]; unfold esrc, edst in *; simpl in *; lia).
  - eapply (levels_differ _ _ (z 11) (fun i => if i =? 1 then 0 else i) (1, 2, z 11));
      [vm_compute; tauto|reflexivity|vm_compute; reflexivity|vm_compute; discriminate].
Qed.
Print Assumptions C15_rounding_refuted.
