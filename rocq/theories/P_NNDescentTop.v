(** Whole runs over neighbour tables, and what complete tables give. *)
From Coq Require Import List Arith Lia Bool ZArith QArith Qcanon Permutation Sorted.
From Verif Require Import Prelude Order Size Num Graph M_Kruskal S_Kruskal P_Kruskal M_Precomputed S_Precomputed P_Precomputed M_KruskalEntry P_KruskalEntry P_KruskalRun P_PrecomputedTop P_Precomputed2
  M_TreeQuery S_SpaceTree P_TreeQuery M_Linkage S_Linkage M_NNDescent S_NNDescent P_NNDescent S_Unique P_Relabel P_Sort
  M_Condense S_Condense M_Select M_Labels M_Pipeline S_Pipeline P_Pipeline P_PipelineEx P_UniqueTop P_UniqueRuns P_EpsilonTop P_UniqueEx.
Import ListNotations.
Local Open Scope nat_scope.

Section Top.
  Context {W : WOrd}.

  Lemma knn_full (zero : W) rows ms knn_k n (query : nat -> list (list (option nat * W))) :
    query (if 1 <? ms then Nat.max knn_k ms + 1 else knn_k + 1) = rows ->
    0 < n -> length rows = n -> (forall row j d, In row rows -> In (Some j, d) row -> j < n) ->
    exists T, kruskal_mst_knn zero query ms knn_k CLNone =
        Ok (T, map (fun row => map fst (firstn (Nat.max 1 ms) (skipn 1 row))) rows, table_core zero ms rows) /\
      bridged_result n no_constraint (table_edges ms zero rows) T.
  Proof.
    intros Hq Hn HL Hr. unfold kruskal_mst_knn. rewrite Hq, HL. fold (table_core zero ms rows). fold (table_edges ms zero rows).
    destruct (finish_ok n (table_edges ms zero rows) (argsort (table_edges ms zero rows)) CLNone no_constraint) as (M & p & T & H1 & H2 & H3);
      [assumption|now apply table_edges_range|apply argsort_sorts|intros ? ? []|].
    rewrite H1. cbn [bind]. rewrite H2. cbn [bind]. exists T. auto.
  Qed.

  Lemma nth_table_core (zero : W) ms rows i : i < length rows ->
    nth i (table_core zero ms rows) winf = if ms <=? 1 then zero else snd (nth ms (nth i rows []) (None, winf)).
  Proof.
    intro Hi. unfold table_core. rewrite (nth_indep _ winf ((fun row : list (option nat * W) => if 1 <? ms then snd (nth ms row (None, winf)) else zero) [])) by (rewrite map_length; lia).
    rewrite (map_nth (fun row : list (option nat * W) => if 1 <? ms then snd (nth ms row (None, winf)) else zero)).
    destruct (Nat.ltb_spec 1 ms), (Nat.leb_spec ms 1); auto; lia.
  Qed.

  Lemma c50_tree (zero : W) graph n ms knn_k :
    let k := Nat.max (match knn_k with None => Nat.max (3 * ms) 15 | Some k => k end) ms in
    let rows := graph (k + 1) in
    0 < n -> neighbour_table n (k + 1) rows ->
    exists E T nbrs core, compute_mst_from_knn_graph zero graph n ms knn_k = Ok (T, nbrs, core) /\
      length core = n /\ length nbrs = n /\
      (forall i, i < n -> nth i core winf = (if ms <=? 1 then zero else snd (nth ms (nth i rows []) (None, winf))) /\
                          nth i nbrs [] = map fst (firstn (Nat.max 1 ms) (tl (nth i rows [])))) /\
      (forall i j w, In (i, j, w) E <-> i < n /\ i <> j /\ wfinite w = true /\
         exists c d, nth_error (nth i rows []) (S c) = Some (Some j, d) /\ greatest_of_three (nth i core winf) (nth j core winf) d w /\
                     w = mrd3 (nth i core winf) (nth j core winf) d) /\
      spanning_tree n T /\ bridged_result n no_constraint E T.
  Proof.
    intros k rows Hn HT. change k with (knn_columns ms knn_k) in *. set (kk := knn_columns ms knn_k) in *.
    assert (Ek : (if 1 <? ms then Nat.max kk ms + 1 else kk + 1) = kk + 1).
    { assert (ms <= kk) by (unfold kk, knn_columns; lia). destruct (1 <? ms); lia. }
    destruct (knn_full zero rows ms kk n graph) as (T & E & HB); [now rewrite Ek|assumption|apply HT|apply HT|].
    exists (table_edges ms zero rows), T, (map (fun row => map fst (firstn (Nat.max 1 ms) (skipn 1 row))) rows), (table_core zero ms rows).
    split; [now rewrite (nndescent_is_knn zero graph n ms knn_k HT)|].
    pose proof (nt_rows _ _ _ HT) as HL.
    split; [unfold table_core; now rewrite map_length|]. split; [now rewrite map_length|]. split.
    { intros i Hi. split; [apply nth_table_core; lia|].
      rewrite (nth_indep _ [] ((fun row : list (option nat * W) => map fst (firstn (Nat.max 1 ms) (skipn 1 row))) [])) by (rewrite map_length; lia).
      rewrite (map_nth (fun row : list (option nat * W) => map fst (firstn (Nat.max 1 ms) (skipn 1 row)))). reflexivity. }
    split.
    { intros i j w. rewrite (table_edges_in ms zero rows n HL). split; intros (Hi & Hne & Hf & c & d & Hc & Hw); (split; [assumption|]; split; [assumption|]; split; [assumption|]; exists c, d).
      - split; auto. split; auto. rewrite Hw. apply mrd3_ok.
      - split; auto. tauto. }
    split; auto. now destruct HB as (M & B & _ & _ & ST & _).
  Qed.

  Lemma c50_short (zero : W) graph n ms knn_k :
    let k := Nat.max (match knn_k with None => Nat.max (3 * ms) 15 | Some k => k end) ms in
    let rows := graph (k + 1) in
    rows <> [] -> 1 < ms -> (forall row, In row rows -> length row <= ms) ->
    compute_mst_from_knn_graph zero graph n ms knn_k = Err IndexError.
  Proof.
    intros k rows Hne Hms Hw. unfold compute_mst_from_knn_graph. change k with (knn_columns ms knn_k) in *. set (kk := knn_columns ms knn_k) in *.
    assert (ms <= kk) by (unfold kk, knn_columns; lia).
    destruct (Nat.leb_spec ms 1); [lia|]. destruct (Nat.leb_spec ms kk); [|lia]. unfold build_knn_graph. fold rows.
    rewrite column_short; [reflexivity| |].
    - destruct rows; [congruence|discriminate].
    - intros row Hr. apply in_map_iff in Hr as (r & <- & Hr). rewrite skipn_length. specialize (Hw r Hr). lia.
  Qed.

  Lemma Forall2_len {A B} (P : A -> B -> Prop) l l' : Forall2 P l l' -> length l = length l'.
  Proof. induction 1; simpl; congruence. Qed.

  (** ** Tree search with as many neighbours as samples *)

  Lemma nearest_all out (rd : nat -> W) n k row i : nearest out rd n k row -> n <= k -> i < n ->
    (forall j, j < n -> j <> i -> wlt (out (rd i)) (out (rd j)) = true) ->
    exists others pad, swap_row row = map (fun q => (Some q, out (rd q))) (i :: others) ++ pad /\
      (forall x, In x pad -> fst x = None) /\ Permutation (i :: others) (seq 0 n) /\ sorted_by (fun q => out (rd q)) (i :: others).
  Proof.
    intros (near & far & -> & HL & HP & HS & _) Hk Hi Hself.
    assert (far = []).
    { apply Permutation_length in HP. rewrite app_length, seq_length, HL in HP. destruct far; auto. simpl in HP. lia. }
    subst far. rewrite app_nil_r in HP.
    assert (Hin : In i near) by (eapply Permutation_in; [apply Permutation_sym; exact HP|apply in_seq; lia]).
    destruct near as [|h others]; [destruct Hin|].
    assert (h = i).
    { destruct (Nat.eq_dec h i) as [|Hne]; auto. exfalso. destruct Hin as [->|Hin]; [congruence|].
      apply StronglySorted_inv in HS as [_ F]. rewrite Forall_forall in F. specialize (F i Hin).
      assert (Hh : h < n) by (assert (In h (seq 0 n)) by (eapply Permutation_in; [exact HP|simpl; auto]); apply in_seq in H; lia).
      specialize (Hself h Hh Hne). apply wlt_nle in Hself. congruence. }
    subst h. exists others, (repeat (None, out winf) (k - n)). split; [|split; [|split; auto]].
    - unfold swap_row. rewrite map_app, map_map. cbn [fst snd]. f_equal. clear. induction (k - n); simpl; congruence.
    - intros x Hx. apply repeat_spec in Hx. now subst x.
  Qed.

  Lemma tree_exhaustive t n (rd lb : nat -> nat -> W) out k : tree_shape t n -> lower_bounds t rd lb -> 0 < n -> n <= k ->
    (forall i j, i < n -> j < n -> wfinite (rd i j) = true) ->
    (forall x y, wle x y = true -> wle (out x) (out y) = true) -> (forall x, wfinite x = true -> wlt (out x) (out winf) = true) ->
    (forall i j, i < n -> j < n -> i <> j -> wlt (out (rd i i)) (out (rd i j)) = true) ->
    exhaustive n (fun i j => out (rd i j)) (tree_table t rd lb out n k).
  Proof.
    intros TS LB Hn Hk Fin Mono Inf Hd.
    destruct (parallel_tree_query_ok t n n k rd lb out TS LB ltac:(lia) Fin Mono Inf) as (rows & E & HF).
    unfold tree_table. rewrite E. assert (HL : length rows = n) by (apply Forall2_len in HF; now rewrite seq_length in HF).
    split; [now rewrite map_length|]. intros i Hi.
    assert (HN : nearest out (rd i) n k (nth i rows [])).
    { clear - HF Hi HL. revert HF Hi. assert (G : forall a m (rows : list (list (W * option nat))) i, Forall2 (fun i row => nearest out (rd i) n k row) (seq a m) rows -> i < m -> nearest out (rd (a + i)) n k (nth i rows [])).
      { intros a m. revert a. induction m as [|m IH]; intros a rows0 i0 HF Hi; [lia|]. cbn [seq] in HF. inversion HF; subst. destruct i0; [now rewrite Nat.add_0_r|].
        cbn [nth]. replace (a + S i0) with (S a + i0) by lia. apply IH; auto. lia. }
      intros. now apply (G 0 n). }
    rewrite (nth_indep _ [] (swap_row [])) by (rewrite map_length; lia). rewrite map_nth.
    apply (nearest_all out (rd i) n k (nth i rows []) i); auto.
  Qed.

  Lemma c50_complete_table (Hanti : forall a b : W, wle a b = true -> wle b a = true -> a = b) (zero : W) graph n ms knn_k D :
    let k := Nat.max (match knn_k with None => Nat.max (3 * ms) 15 | Some k => k end) ms in
    ms < n -> neighbour_table n (k + 1) (graph (k + 1)) -> exhaustive n D (graph (k + 1)) ->
    (forall i j, i < n -> j < n -> D i j = D j i) -> (forall i j, i < n -> j < n -> wfinite (D i j) = true) -> wfinite zero = true ->
    exists T nbrs core T2 nbrs2, compute_mst_from_knn_graph zero graph n ms knn_k = Ok (T, nbrs, core) /\
      kruskal_mst_brute zero D n ms CLNone = Ok (T2, nbrs2, core) /\ spanning_tree n T /\ spanning_tree n T2 /\ same_hierarchy n (fun x => x) T T2.
  Proof.
    intros k Hms HT HE Hs Hf Hz. change k with (knn_columns ms knn_k) in *. set (kk := knn_columns ms knn_k) in *.
    assert (Ek : (if 1 <? ms then Nat.max kk ms + 1 else kk + 1) = kk + 1).
    { assert (ms <= kk) by (unfold kk, knn_columns; lia). destruct (1 <? ms); lia. }
    destruct (knn_full zero (graph (kk + 1)) ms kk n graph) as (T & E & HB); [now rewrite Ek|lia|apply HT|apply HT|].
    destruct (exhaustive_tree Hanti n ms zero D (graph (kk + 1)) HE Hs Hf Hz Hms T HB) as (B & nb & co & EB & -> & ST & SB & HH).
    eexists T, _, _, B, nb. split; [rewrite (nndescent_is_knn zero graph n ms knn_k HT); exact E|]. auto.
  Qed.

  Lemma c50_complete_query (Hanti : forall a b : W, wle a b = true -> wle b a = true -> a = b) (zero : W) t n (rd lb : nat -> nat -> W) root ms knn_k :
    tree_shape t n -> lower_bounds t rd lb -> ms < n -> n <= knn_k + 1 ->
    (forall i j, i < n -> j < n -> rd i j = rd j i) -> (forall i j, i < n -> j < n -> wfinite (rd i j) = true /\ wfinite (root (rd i j)) = true) ->
    (forall x y, wle x y = true -> wle (root x) (root y) = true) -> (forall x, wfinite x = true -> wlt (root x) (root winf) = true) ->
    wfinite zero = true -> (forall i j, i < n -> j < n -> i <> j -> wlt (root (rd i i)) (root (rd i j)) = true) ->
    exists T nbrs core T2 nbrs2, kruskal_mst_knn zero (tree_table t rd lb root n) ms knn_k CLNone = Ok (T, nbrs, core) /\
      kruskal_mst_brute zero (fun i j => root (rd i j)) n ms CLNone = Ok (T2, nbrs2, core) /\ spanning_tree n T /\ spanning_tree n T2 /\ same_hierarchy n (fun x => x) T T2.
  Proof.
    intros TS LB Hms Hk Hs Hf Mono Inf Hz Hd. set (kk := if 1 <? ms then Nat.max knn_k ms + 1 else knn_k + 1).
    assert (HE : exhaustive n (fun i j => root (rd i j)) (tree_table t rd lb root n kk)).
    { apply tree_exhaustive; auto; [lia| |intros; now apply Hf]. unfold kk. destruct (1 <? ms); lia. }
    destruct (knn_full zero _ ms knn_k n (tree_table t rd lb root n) eq_refl) as (T & E & HB); [lia|apply HE|eapply exhaustive_range; eauto|].
    destruct (exhaustive_tree Hanti n ms zero _ _ HE) with (T := T) as (B & nb & co & EB & -> & ST & SB & HH); auto.
    - intros; f_equal; auto.
    - intros; now apply Hf.
    - eexists T, _, _, B, nb. split; [exact E|]. auto.
  Qed.
End Top.

Section Clusters.
  Variables (mcs : nat) (m : selection_method) (allow : bool) (epsilon persistence : Qc) (n : nat).
  Hypothesis He : (epsilon <= 0)%Qc.
  Hypothesis Hpe : (persistence <= 0)%Qc.
  Hypothesis Hmcs : 2 <= mcs.
  Hypothesis Hn : 2 <= n.
  Variables (garbage garbage' : nat -> QInf) (by_parent by_parent' : list (crow QInf NatSize) -> list (crow QInf NatSize)).
  Hypothesis HB : sorts_by_parent by_parent.
  Hypothesis HB' : sorts_by_parent by_parent'.
  Notation st := (exact_settings (Sz := NatSize) mcs m allow epsilon persistence).
  Notation zero := (Some 0%Qc : QInf).
  Notation positive := (fun M : list (edge QInf) => forall e, In e M -> wlt zero (ewt e) = true).

  Lemma c50_table_clusters graph ms knn_k (D : nat -> nat -> QInf) :
    let k := Nat.max (match knn_k with None => Nat.max (3 * ms) 15 | Some k => k end) ms in
    ms < n -> neighbour_table n (k + 1) (graph (k + 1)) -> exhaustive n D (graph (k + 1)) ->
    (forall i j, i < n -> j < n -> D i j = D j i) -> (forall i j, i < n -> j < n -> wfinite (D i j) = true) ->
    exists M nbrs core ls ps T M' nbrs' ls' ps' T',
      compute_mst_from_knn_graph zero graph n ms knn_k = Ok (M, nbrs, core) /\ exact_clusters garbage by_parent st M = Ok (ls, ps, T) /\
      kruskal_mst_brute zero D n ms CLNone = Ok (M', nbrs', core) /\ exact_clusters garbage' by_parent' st M' = Ok (ls', ps', T') /\
      (positive M -> distinct_weights M -> same_clustering (V := QInf) (Some 0%Qc) n (fun x => x) ls ls' ps ps').
  Proof.
    intros k Hms HT HE Hs Hf. destruct (c50_complete_table qinf_anti zero graph n ms knn_k D Hms HT HE Hs Hf eq_refl) as (M & nb & co & M' & nb' & E & E' & ST & ST' & HH).
    destruct (c49_pair mcs m allow epsilon persistence n He Hpe Hmcs Hn garbage garbage' by_parent by_parent' HB HB' (fun x => x) M M' ST ST' (id_reorders n) HH) as (ls & ps & T & ls' & ps' & T' & R & R' & X).
    exists M, nb, co, ls, ps, T, M', nb', ls', ps', T'. auto 10.
  Qed.

  Lemma c50_query_clusters t (rd lb : nat -> nat -> QInf) root ms knn_k :
    tree_shape t n -> lower_bounds t rd lb -> ms < n -> n <= knn_k + 1 ->
    (forall i j, i < n -> j < n -> rd i j = rd j i) -> (forall i j, i < n -> j < n -> wfinite (rd i j) = true /\ wfinite (root (rd i j)) = true) ->
    (forall x y, wle x y = true -> wle (root x) (root y) = true) -> (forall x, wfinite x = true -> wlt (root x) (root winf) = true) ->
    (forall i j, i < n -> j < n -> i <> j -> wlt (root (rd i i)) (root (rd i j)) = true) ->
    exists M nbrs core ls ps T M' nbrs' ls' ps' T',
      kruskal_mst_knn zero (tree_table t rd lb root n) ms knn_k CLNone = Ok (M, nbrs, core) /\ exact_clusters garbage by_parent st M = Ok (ls, ps, T) /\
      kruskal_mst_brute zero (fun i j => root (rd i j)) n ms CLNone = Ok (M', nbrs', core) /\ exact_clusters garbage' by_parent' st M' = Ok (ls', ps', T') /\
      (positive M -> distinct_weights M -> same_clustering (V := QInf) (Some 0%Qc) n (fun x => x) ls ls' ps ps').
  Proof.
    intros TS LB Hms Hk Hs Hf Mo In Hd. destruct (c50_complete_query qinf_anti zero t n rd lb root ms knn_k TS LB Hms Hk Hs Hf Mo In eq_refl Hd) as (M & nb & co & M' & nb' & E & E' & ST & ST' & HH).
    destruct (c49_pair mcs m allow epsilon persistence n He Hpe Hmcs Hn garbage garbage' by_parent by_parent' HB HB' (fun x => x) M M' ST ST' (id_reorders n) HH) as (ls & ps & T & ls' & ps' & T' & R & R' & X).
    exists M, nb, co, ls, ps, T, M', nb', ls', ps', T'. auto 10.
  Qed.

  Lemma c50_run graph ms knn_k :
    let k := Nat.max (match knn_k with None => Nat.max (3 * ms) 15 | Some k => k end) ms in
    neighbour_table n (k + 1) (graph (k + 1)) ->
    exists M nbrs core ls ps T, compute_mst_from_knn_graph zero graph n ms knn_k = Ok (M, nbrs, core) /\
      exact_clusters garbage by_parent st M = Ok (ls, ps, T) /\ clustering (V := QInf) (Some 0%Qc) (Some 1%Qc) n ls ps.
  Proof.
    intros k HT. destruct (c50_tree zero graph n ms knn_k ltac:(lia) HT) as (E & M & nb & co & R & _ & _ & _ & _ & ST & _).
    destruct (exact_run garbage by_parent mcs m allow epsilon persistence n M HB Hmcs ST Hn Hpe) as (ls & ps & T & R2 & HC).
    exists M, nb, co, ls, ps, T. auto.
  Qed.
End Clusters.

(** Two identical samples whose rows list the other one first. *)
Lemma identical_refuted : exists n ms knn_k (graph : nat -> list (list (option nat * NInf))) D T nbrs core,
  let k := Nat.max knn_k ms in
  neighbour_table n (k + 1) (graph (k + 1)) /\ complete_rows n D (graph (k + 1)) /\
  (forall i j, D i j = Some 0) /\
  compute_mst_from_knn_graph (Some 0 : NInf) graph n ms (Some knn_k) = Ok (T, nbrs, core) /\
  (forall e, In e T -> ewt e = winf) /\ length T = n - 1 /\ 2 <= n /\ forall i, i < n -> nth i nbrs [] = [Some i].
Proof.
  exists 2, 1, 1, (fun _ => [[(Some 1, Some 0); (Some 0, Some 0)]; [(Some 0, Some 0); (Some 1, Some 0)]]), (fun _ _ => Some 0), [(0, 1, None)], [[Some 0]; [Some 1]], [Some 0; Some 0].
  cbv zeta. split; [|split; [|split; [|split; [|split; [|split; [|split]]]]]].
  - split; [reflexivity| |].
    + intros row [<-|[<-|[]]]; reflexivity.
    + intros row j d [<-|[<-|[]]] [H|[H|[]]]; injection H as <- <-; lia.
  - split; [reflexivity|]. intros i Hi. destruct i as [|[|i]]; [exists [1; 0]|exists [0; 1]|lia]; (split; [reflexivity|]; split).
    + apply perm_swap.
    + repeat constructor.
    + apply Permutation_refl.
    + repeat constructor.
  - reflexivity.
  - vm_compute. reflexivity.
  - intros e [<-|[]]. reflexivity.
  - reflexivity.
  - lia.
  - intros i Hi. destruct i as [|[|i]]; [reflexivity|reflexivity|lia].
Qed.
