(** Boruvka over a space tree, reported distances, and agreement with Kruskal. *)
From Coq Require Import List Arith Lia Bool Permutation Relations Sorted.
From Verif Require Import Prelude Order Graph UF M_DisjointSet P_DisjointSet M_Kruskal M_Precomputed M_Linkage M_Select
  M_CoreGraph M_TreeQuery M_Boruvka M_KruskalEntry S_Kruskal S_Precomputed S_CoreGraph S_SpaceTree S_Boruvka
  P_Sort P_Forest P_LabelsTop P_Precomputed2 P_KruskalRun P_KruskalEntry P_Boruvka P_CoreGraph P_CoreGraphRun
  P_PrecomputedBoruvka P_BackendsAgree P_TreeQuery P_BoruvkaQuery P_BoruvkaRound P_BoruvkaTree P_ParallelBoruvka.
Import ListNotations.

Section Equiv.
  Context {W : WOrd}.

  Lemma equiv_sym (x y : W) : equiv x y -> equiv y x.
  Proof. intros [A B]. now split. Qed.

  Lemma threshold_equiv (P : W -> bool) x y : threshold P -> equiv x y -> P x = P y.
  Proof.
    intros HP [A B]. destruct (P x) eqn:E1, (P y) eqn:E2; auto.
    - rewrite <- E2. symmetry. now apply (HP y x).
    - rewrite <- E1. now apply (HP x y).
  Qed.

  Lemma wmax_equiv (a b a' b' : W) : equiv a a' -> equiv b b' -> equiv (wmax a b) (wmax a' b').
  Proof.
    intros [A1 A2] [B1 B2].
    split; apply wmax_lub; eapply wle_trans; eauto using wmax_l, wmax_r.
  Qed.

  Variable root : W -> W.
  Hypothesis Mono : forall x y, wle x y = true -> wle (root x) (root y) = true.

  Lemma root_max a b : equiv (root (wmax a b)) (wmax (root a) (root b)).
  Proof.
    split.
    - unfold wmax at 1. destruct (wlt a b); auto using wmax_l, wmax_r.
    - apply wmax_lub; apply Mono; auto using wmax_l, wmax_r.
  Qed.

  Lemma root_mutual core rd i j :
    equiv (root (mutual core rd i j)) (mutual (fun i => root (core i)) (fun i j => root (rd i j)) i j).
  Proof.
    unfold mutual. eapply equiv_trans; [apply root_max|]. apply wmax_equiv; [apply root_max|apply equiv_refl].
  Qed.

  Lemma root_kth k l d : kth_smallest k l d -> kth_smallest k (map root l) (root d).
  Proof.
    intros (A & B & C). split; [now apply in_map|]. rewrite !countp_map. split.
    - eapply Nat.le_lt_trans; [|exact B]. rewrite !countp_filter. clear -Mono.
      induction l as [|x l IH]; cbn; [auto|].
      destruct (wlt (root x) (root d)) eqn:E1, (wlt x d) eqn:E2; cbn; try lia.
      exfalso. apply wlt_false in E2. apply Mono in E2. apply wlt_nle in E1. congruence.
    - eapply Nat.le_trans; [exact C|]. rewrite !countp_filter. clear -Mono.
      induction l as [|x l IH]; cbn; [auto|].
      destruct (wle (root x) (root d)) eqn:E1, (wle x d) eqn:E2; cbn; try lia.
      apply Mono in E2. congruence.
  Qed.

  Lemma kth_equiv k (l : list W) a b : kth_smallest k l a -> kth_smallest k l b -> equiv a b.
  Proof.
    assert (K : forall a b, kth_smallest k l a -> kth_smallest k l b -> wle b a = true).
    { clear. intros a b (_ & _ & A) (_ & B & _). destruct (wle b a) eqn:E; [auto|exfalso].
      assert (countp (fun x => wle x a) l <= countp (fun x => wlt x b) l); [|lia].
      assert (L : wlt a b = true) by (unfold wlt; now rewrite E).
      rewrite !countp_filter. clear -L. induction l as [|x l IH]; cbn; [auto|].
      destruct (wle x a) eqn:E1, (wlt x b) eqn:E2; cbn; try lia.
      rewrite (wle_lt_trans _ _ _ E1 L) in E2. discriminate. }
    intros. split; apply K; auto.
  Qed.

  (** Changing weights consistently. *)
  Lemma connected_weights (h : edge W -> edge W) (P Q : W -> bool) (E : list (edge W)) :
    (forall e, In e E -> esrc (h e) = esrc e /\ edst (h e) = edst e /\ P (ewt (h e)) = Q (ewt e)) ->
    forall x y, connected (passing P (map h E)) x y <-> connected (passing Q E) x y.
  Proof.
    intros H x y. split; apply connected_mono; intros e He; apply in_passing in He; destruct He as [He Hp].
    - apply in_map_iff in He. destruct He as (f & <- & Hf). destruct (H f Hf) as (A & B & C).
      rewrite A, B. apply connected_edge. apply in_passing. rewrite <- C. auto.
    - destruct (H e He) as (A & B & C). rewrite <- A, <- B. apply connected_edge. apply in_passing.
      split; [now apply in_map|]. now rewrite C.
  Qed.

  Lemma complete_in n (w : nat -> nat -> W) e : In e (complete_graph n w) ->
    esrc e < n /\ edst e < n /\ ewt e = w (esrc e) (edst e).
  Proof.
    unfold complete_graph. rewrite in_flat_map. intros (i & Hi & H). apply in_map_iff in H.
    destruct H as (j & <- & Hj). apply filter_In in Hj. destruct Hj as [Hj _]. apply in_seq in Hi, Hj.
    unfold esrc, edst, ewt. cbn. repeat split; lia.
  Qed.

  Lemma complete_map n (w w' : nat -> nat -> W) : complete_graph n w' = map (at_weight w') (complete_graph n w).
  Proof.
    unfold complete_graph.
    assert (K : forall l, flat_map (fun i => map (fun j => (i, j, w' i j)) (filter (fun j => negb (j =? i)) (seq 0 n))) l =
      map (at_weight w') (flat_map (fun i => map (fun j => (i, j, w i j)) (filter (fun j => negb (j =? i)) (seq 0 n))) l)).
    { induction l as [|i l IH]; cbn [flat_map map]; [reflexivity|]. rewrite IH, map_app, map_map. reflexivity. }
    apply K.
  Qed.

  Lemma complete_has n (w : nat -> nat -> W) i j : i < n -> j < n -> i <> j -> In (i, j, w i j) (complete_graph n w).
  Proof.
    intros. unfold complete_graph. apply in_flat_map. exists i. split; [apply in_seq; lia|].
    apply in_map_iff. exists j. split; [auto|]. apply filter_In. split; [apply in_seq; lia|].
    apply negb_true_iff, Nat.eqb_neq. auto.
  Qed.

  Lemma msf_root n (w w' : nat -> nat -> W) (M : list (edge W)) :
    (forall i j, i < n -> j < n -> equiv (w' i j) (root (w i j))) ->
    min_spanning_forest (complete_graph n w) (map (at_weight w) M) ->
    min_spanning_forest (complete_graph n w') (map (at_weight w') M).
  Proof.
    intros H [I A L].
    assert (E : map (at_weight w') M = map (at_weight w') (map (at_weight w) M)).
    { rewrite map_map. reflexivity. }
    assert (T : forall P e, threshold P -> In e (complete_graph n w) ->
              esrc (at_weight w' e) = esrc e /\ edst (at_weight w' e) = edst e /\ P (ewt (at_weight w' e)) = P (root (ewt e))).
    { intros P e HP He. split; [auto|]. split; [auto|]. destruct (complete_in n w e He) as (B & C & ->).
      apply threshold_equiv; auto. apply H; auto. }
    split.
    - rewrite E, (complete_map n w). now apply incl_map.
    - apply acyclic_strip. apply acyclic_strip in A. unfold strip in *. rewrite map_map in *. exact A.
    - intros P HP x y. rewrite E, (complete_map n w).
      rewrite (connected_weights (at_weight w') P (fun z => P (root z))).
      2:{ intros e He. apply T; auto. }
      rewrite (connected_weights (at_weight w') P (fun z => P (root z))).
      2:{ intros e He. apply T; auto. }
      apply L. intros a b Hab. apply HP. now apply Mono.
  Qed.

  Lemma msf_close n (w : nat -> nat -> W) (T : list (edge W)) :
    min_spanning_forest (complete_graph n w) (map (at_weight w) T) ->
    (forall e, In e T -> equiv (ewt e) (w (esrc e) (edst e))) ->
    same_components_at_every_threshold T (complete_graph n w).
  Proof.
    intros [_ _ L] H P HP x y. rewrite <- (L P HP x y). symmetry.
    apply (connected_weights (at_weight w) P P). intros e He. split; [auto|]. split; [auto|].
    apply threshold_equiv; auto. apply equiv_sym. now apply H.
  Qed.
End Equiv.

Section Reported.
  Context {W : WOrd}.
  Variables (t : space_tree) (n : nat) (rd lb : nat -> nat -> W) (zero : W) (root : W -> W) (mode : query_mode) (ms : nat).
  Hypothesis TS : tree_shape t n.
  Hypothesis LB : lower_bounds t rd lb.
  Hypothesis Sym : forall i j, i < n -> j < n -> rd i j = rd j i.
  Hypothesis Fin : forall i j, i < n -> j < n -> wfinite (rd i j) = true.
  Hypothesis Zero : wfinite zero = true.
  Hypothesis Self : forall i, i < n -> wle (rd i i) zero = true.
  Hypothesis Mono : forall x y, wle x y = true -> wle (root x) (root y) = true.
  Hypothesis Hn : 2 <= n.
  Hypothesis Hms : ms < n.
  Hypothesis Hmode : threads_available mode.

  Notation D := (fun i j => root (rd i j)).

  Lemma tree_boruvka_reported : exists T nbrs core,
    parallel_boruvka t n rd lb zero root mode ms = Ok (T, nbrs, core) /\
    core_distances n D (root zero) ms core /\
    spanning_tree n T /\
    (let w := mutual (fun i => nth i core winf) D in
     min_spanning_forest (complete_graph n w) (map (at_weight w) T) /\
     (forall e, In e T -> equiv (ewt e) (w (esrc e) (edst e)))) /\
    Forall2 (fun i nb => exists row, nearest (fun x => x) (rd i) n (if 1 <? ms then ms + 1 else 2) row /\
               nb = map snd (tl row)) (seq 0 n) nbrs.
  Proof.
    destruct (tree_boruvka_run t n rd lb zero root mode ms TS LB Sym Fin Zero Self Hn Hms Hmode)
      as (rows & core & M & E & R & L & [C1 C2] & ST & MSF & EQ).
    exists (map (reweigh root) M), (map (fun row => map snd (tl row)) rows), (map root core).
    split; [exact E|].
    assert (Nth : forall i, i < n -> nth i (map root core) winf = root (nth i core winf)).
    { intros i Hi. rewrite (nth_indep _ winf (root winf)) by (rewrite map_length; lia). apply map_nth. }
    assert (WW : forall i j, i < n -> j < n ->
       equiv (mutual (fun i => nth i (map root core) winf) D i j) (root (mutual (fun i => nth i core winf) rd i j))).
    { intros i j Hi Hj. apply equiv_sym. eapply equiv_trans; [apply root_mutual; auto|].
      unfold mutual. rewrite !Nth by auto. apply equiv_refl. }
    split; [|split; [|split]].
    - split; [rewrite map_length; auto|]. split.
      + intros H i Hi. rewrite Nth by auto. now rewrite C1.
      + intros H i Hi. rewrite Nth by auto. rewrite <- (map_map (rd i) root). apply root_kth; auto.
    - destruct ST as [S1 S2 S3 S4]. split.
      + intros e He. apply in_map_iff in He. destruct He as (f & <- & Hf). apply (S1 f Hf).
      + apply acyclic_strip. apply acyclic_strip in S2. unfold strip in *. rewrite map_map. exact S2.
      + intros x y Hx Hy. apply connected_reweigh. auto.
      + now rewrite map_length.
    - intros w. split.
      + rewrite map_map. apply (msf_root root Mono n (mutual (fun i => nth i core winf) rd)); auto.
      + intros e He. apply in_map_iff in He. destruct He as (f & <- & Hf).
        unfold reweigh, esrc, edst, ewt. cbn [fst snd]. destruct (st_range _ _ ST f Hf) as [A B].
        eapply equiv_trans; [|apply equiv_sym; apply WW; auto]. destruct (EQ f Hf) as [X Y]. split; auto.
    - clear -R. induction R as [|i row l rows H R IH]; cbn [map]; constructor; auto. exists row. auto.
  Qed.

  (** Against the exhaustive Kruskal entry point on the same distances. *)
  Lemma tree_boruvka_agrees : equiv (root zero) zero ->
    exists T1 nbrs1 core1 T2 nbrs2 core2,
      parallel_boruvka t n rd lb zero root mode ms = Ok (T1, nbrs1, core1) /\
      kruskal_mst_brute zero D n ms CLNone = Ok (T2, nbrs2, core2) /\
      Forall2 equiv core1 core2 /\
      same_components_at_every_threshold T1 T2 /\
      same_weights (sorted_weights T1) (sorted_weights T2).
  Proof.
    intros RZ. destruct tree_boruvka_reported as (T1 & nbrs1 & core1 & E1 & (CL & C1 & C2) & ST & (MSF & EQ) & _).
    destruct (brute_ok zero D n ms CLNone no_constraint ltac:(lia)) as (T2 & nbrs2 & core2 & E2 & C & B).
    { intros x y. simpl. tauto. }
    destruct (bridged_connected n _ T2 (brute_connected zero D n ms) (brute_edges_range zero D n ms) B) as [MSF2 ST2].
    set (bc := brute_core zero D n ms) in *.
    assert (CE : forall i, i < n -> equiv (nth i core1 winf) (bc i)).
    { intros i Hi. destruct (brute_core_ok zero D n ms i) as (K1 & K2 & _).
      destruct (le_lt_dec ms 1) as [H|H].
      - rewrite C1 by auto. unfold bc. rewrite K1 by auto. exact RZ.
      - eapply kth_equiv; [apply C2; auto|]. apply K2; auto. }
    assert (HL : same_components_at_every_threshold T1 T2).
    { intros P HP x y. rewrite (msf_levels _ _ MSF2 P HP x y).
      rewrite (msf_close n _ T1 MSF EQ P HP x y).
      set (w := mutual (fun i => nth i core1 winf) D).
      assert (Wt : forall i j, i < n -> j < n -> P (w i j) = P (mrd3 (bc i) (bc j) (D i j))).
      { intros i j Hi Hj. apply threshold_equiv; auto. unfold w, mutual, mrd3.
        destruct (CE i Hi) as [X1 X2], (CE j Hj) as [Y1 Y2].
        split; repeat apply wmax_lub;
          first [ now apply wmax_r
                | eapply wle_trans; [|apply wmax_l]; now apply wmax_l
                | eapply wle_trans; [|apply wmax_l]; now apply wmax_r
                | eapply wle_trans; [eassumption|]; now apply wmax_r
                | eapply wle_trans; [eassumption|]; eapply wle_trans; [|apply wmax_l]; now apply wmax_l
                | eapply wle_trans; [eassumption|]; eapply wle_trans; [|apply wmax_l]; now apply wmax_r ]. }
      split; apply connected_mono; intros e He; apply in_passing in He; destruct He as [He Hp].
      - destruct (complete_in n w e He) as (A1 & A2 & A3). rewrite A3 in Hp.
        destruct (Nat.lt_trichotomy (esrc e) (edst e)) as [Q|[Q|Q]].
        + apply (connected_edge _ (esrc e, edst e, mrd3 (bc (esrc e)) (bc (edst e)) (D (esrc e) (edst e)))).
          apply in_passing. split; [apply brute_edges_in; auto|]. unfold ewt. cbn [snd]. now rewrite <- Wt.
        + rewrite Q. apply connected_refl.
        + apply connected_sym.
          apply (connected_edge _ (edst e, esrc e, mrd3 (bc (edst e)) (bc (esrc e)) (D (edst e) (esrc e)))).
          apply in_passing. split; [apply brute_edges_in; auto|]. unfold ewt. cbn [snd]. rewrite <- Wt by auto.
          rewrite <- Hp. apply threshold_equiv; auto. unfold w, mutual. rewrite (Sym (edst e)) by auto.
          split; repeat apply wmax_lub;
          first [ now apply wmax_r
                | eapply wle_trans; [|apply wmax_l]; now apply wmax_l
                | eapply wle_trans; [|apply wmax_l]; now apply wmax_r ].
      - destruct e as [[i j] w0]. apply brute_edges_in in He. destruct He as (A1 & A2 & A3).
        unfold ewt in Hp. cbn [snd] in Hp. rewrite A3 in Hp. unfold esrc, edst. cbn [fst snd].
        apply (connected_edge _ (i, j, w i j)). apply in_passing. split; [apply complete_has; lia|].
        unfold ewt. cbn [snd]. rewrite Wt by lia. exact Hp. }
    exists T1, nbrs1, core1, T2, nbrs2, core2. split; [auto|]. split; [auto|]. split; [|split; [exact HL|]].
    - rewrite C. clear -CE CL. assert (K : forall m a l, length l = m ->
         (forall i, i < m -> equiv (nth i l winf) (bc (a + i))) -> Forall2 equiv l (map bc (seq a m))).
      { induction m as [|m IH]; intros a l Hl H; destruct l as [|x l]; try discriminate; cbn [seq map]; constructor.
        - specialize (H 0 ltac:(lia)). now rewrite Nat.add_0_r in H.
        - apply IH; [now injection Hl|]. intros i Hi. specialize (H (S i) ltac:(lia)). cbn [nth] in H.
          now replace (S a + i) with (a + S i) by lia. }
      apply K; auto.
    - now apply (tree_weights n).
  Qed.
End Reported.

Lemma equiv_all_trans {W : WOrd} (a b c : list W) : Forall2 equiv a b -> Forall2 equiv c b -> Forall2 equiv a c.
Proof.
  intros H. revert c. induction H as [|x y a b H1 H2 IH]; intros c K; inversion K; subst; constructor; auto.
  eapply equiv_trans; [exact H1|]. now apply equiv_sym.
Qed.

Lemma tree_boruvka_schedules (W : WOrd) t1 t2 n (rd lb1 lb2 : nat -> nat -> W) zero root mode1 mode2 ms :
  tree_shape t1 n -> lower_bounds t1 rd lb1 -> tree_shape t2 n -> lower_bounds t2 rd lb2 ->
  (forall i j, i < n -> j < n -> rd i j = rd j i) ->
  (forall i j, i < n -> j < n -> wfinite (rd i j) = true) ->
  wfinite zero = true -> (forall i, i < n -> wle (rd i i) zero = true) ->
  (forall x y, wle x y = true -> wle (root x) (root y) = true) ->
  2 <= n -> ms < n -> threads_available mode1 -> threads_available mode2 ->
  equiv (root zero) zero ->
  exists T1 nbrs1 core1 T2 nbrs2 core2,
    parallel_boruvka t1 n rd lb1 zero root mode1 ms = Ok (T1, nbrs1, core1) /\
    parallel_boruvka t2 n rd lb2 zero root mode2 ms = Ok (T2, nbrs2, core2) /\
    Forall2 equiv core1 core2 /\
    same_components_at_every_threshold T1 T2 /\
    same_weights (sorted_weights T1) (sorted_weights T2).
Proof.
  intros A1 B1 A2 B2 Sym Fin Z Self Mono Hn Hm M1 M2 RZ.
  destruct (tree_boruvka_agrees t1 n rd lb1 zero root mode1 ms A1 B1 Sym Fin Z Self Mono Hn Hm M1 RZ)
    as (T1 & nb1 & c1 & K & nbk & ck & E1 & EK & C1 & L1 & _).
  destruct (tree_boruvka_agrees t2 n rd lb2 zero root mode2 ms A2 B2 Sym Fin Z Self Mono Hn Hm M2 RZ)
    as (T2 & nb2 & c2 & K' & nbk' & ck' & E2 & EK' & C2 & L2 & _).
  rewrite EK in EK'. injection EK' as <- <- <-.
  destruct (tree_boruvka_reported t1 n rd lb1 zero root mode1 ms A1 B1 Sym Fin Z Self Mono Hn Hm M1)
    as (T1' & nb1' & c1' & E1' & _ & ST1 & _). rewrite E1 in E1'. injection E1' as <- <- <-.
  destruct (tree_boruvka_reported t2 n rd lb2 zero root mode2 ms A2 B2 Sym Fin Z Self Mono Hn Hm M2)
    as (T2' & nb2' & c2' & E2' & _ & ST2 & _). rewrite E2 in E2'. injection E2' as <- <- <-.
  exists T1, nb1, c1, T2, nb2, c2. split; [auto|]. split; [auto|].
  assert (HL : same_components_at_every_threshold T1 T2).
  { intros P HP x y. rewrite (L1 P HP x y). symmetry. apply L2. auto. }
  split; [|split; [exact HL|]].
  - now apply (equiv_all_trans _ ck).
  - now apply (tree_weights n).
Qed.
