(** Complete query rounds, plain and in blocks, under every schedule. *)
From Coq Require Import List Arith Lia Bool.
From Verif Require Import Prelude Order Graph M_Linkage M_TreeQuery M_Boruvka S_SpaceTree S_Boruvka
  P_TreeQuery P_BoruvkaQuery.
Import ListNotations.

Section Round.
  Context {W : WOrd}.
  Variables (t : space_tree) (n : nat) (rd lb : nat -> nat -> W).
  Variables (core : nat -> W) (comp : nat -> nat) (node_comp : nat -> option nat).
  Hypothesis TS : tree_shape t n.
  Hypothesis LB : lower_bounds t rd lb.
  Hypothesis NC : forall node c q, node < t_nodes t -> node_comp node = Some c -> below t node q -> comp q = c.

  Lemma backed_init : backed comp [] (fun _ => winf : W).
  Proof. intro c. now left. Qed.

  (** Relaxed executions. *)
  Lemma relaxed_round Rs Ws f :
    relaxed comp (seq 0 n) (fun _ => winf) (query_thread t rd lb core comp node_comp) Rs Ws f ->
    lightest_found n core rd comp (map f (seq 0 n)).
  Proof.
    intros R.
    destruct (relaxed_block n rd core comp (query_thread t rd lb core comp node_comp) (fun h => h)
                (seq 0 n) (fun _ => winf) Rs Ws f []) as (_ & _ & S).
    - intros i rs ws b. now apply query_thread_runs.
    - exact R.
    - apply backed_init.
    - assert (E : combine (seq 0 n) (map f (seq 0 n)) = map (fun i => (i, f i)) (seq 0 n)).
      { clear. generalize (seq 0 n). induction l as [|x l IH]; cbn; congruence. }
      apply lightest_of_served.
      + now rewrite map_length, seq_length.
      + intros i h Hi. rewrite E.
        assert (Li : i < n).
        { rewrite <- (seq_length n 0), <- (map_length f). apply nth_error_Some. congruence. }
        rewrite nth_error_map, (nth_error_nth' _ 0) in Hi by (rewrite seq_length; lia).
        rewrite seq_nth in Hi by lia. cbn in Hi. injection Hi as <-.
        apply S. apply in_seq. lia.
  Qed.

  Lemma tree_query_round schedule : exists cands,
    boruvka_tree_query t n rd lb core comp node_comp schedule = Ok cands /\
    lightest_found n core rd comp cands.
  Proof.
    destruct (parallel_relaxed comp (seq 0 n) (fun _ => winf)
                (query_thread t rd lb core comp node_comp) schedule (winf, None))
      as (mem & results & Rs & Ws & f & E1 & -> & R & _).
    { intros i _. eapply query_thread_safe; eauto. }
    unfold boruvka_tree_query. rewrite E1. cbn [bind].
    eexists. split; [reflexivity|]. eapply relaxed_round; eauto.
  Qed.

  (** ** Blocks *)

  Lemma block_thread_safe p : safe (block_thread t rd lb core comp node_comp p).
  Proof.
    apply safe_bind; [eapply query_thread_safe; eauto|]. intro h. constructor. intro v. constructor.
  Qed.

  Lemma block_thread_runs p rs ws b :
    runs (block_thread t rd lb core comp node_comp p) rs ws b ->
    achieves rd core comp p (fun q => q < n) (winf, None) rs ws (fst b) /\ In (snd b) rs.
  Proof.
    intros R. apply runs_bind in R. destruct R as (h & r1 & w1 & r2 & w2 & A1 & A2 & -> & ->).
    inversion A2 as [|? v ? ? ? A3|]; subst. inversion A3; subst. cbn [fst snd].
    apply (query_thread_runs t n) in A1; auto. split.
    - rewrite app_nil_r. eapply achieves_reads; [exact A1|]. intros x Hx. apply in_or_app. now left.
    - apply in_or_app. right. now left.
  Qed.

  Lemma lower_bounds_backed (D : list (nat * @cand W)) : forall l (mem : nat -> W),
    backed comp D mem ->
    (forall i h v, In (i, (h, v)) l -> v = winf \/ exists j h', In (j, h') D /\ comp j = comp i /\ wle (fst h') v = true) ->
    backed comp D (fold_left (lower_bound_from comp) l mem).
  Proof.
    induction l as [|[i [h v]] l IH]; intros mem HB H; cbn [fold_left]; [auto|].
    apply IH; [|intros; eapply H; right; eauto].
    unfold lower_bound_from. destruct (wlt v (mem (comp i))) eqn:E; [|auto].
    intro c. destruct (Nat.eq_dec c (comp i)) as [->|N].
    - rewrite upd_eq. apply (H i h v). now left.
    - rewrite upd_neq by auto. apply HB.
  Qed.

  Lemma combine_map_ids {B} (f : nat -> B) ids : combine ids (map f ids) = map (fun i => (i, f i)) ids.
  Proof. induction ids as [|x l IH]; cbn; congruence. Qed.

  Lemma query_blocks_ok schedules : forall blocks b mem D,
    backed comp D mem ->
    exists cands, query_blocks t rd lb core comp node_comp schedules blocks b mem = Ok cands /\
      length cands = length (concat blocks) /\
      forall i h, In (i, h) (combine (concat blocks) cands) ->
        served n rd core comp (D ++ combine (concat blocks) cands) i h.
  Proof.
    induction blocks as [|ids blocks IH]; intros b mem D HB; cbn [query_blocks concat].
    - exists []. split; [auto|]. split; [auto|]. intros i h [].
    - destruct (parallel_relaxed comp ids mem (block_thread t rd lb core comp node_comp) (schedules b)
                  ((winf, None), winf)) as (mem' & results & Rs & Ws & f & E1 & -> & R & M).
      { intros i _. apply block_thread_safe. }
      rewrite E1. cbn [bind].
      set (new := map (fun i => (i, fst (f i))) ids).
      destruct (relaxed_block n rd core comp (block_thread t rd lb core comp node_comp) fst
                  ids mem Rs Ws f D) as (Hr & Hw & Sd); auto.
      { intros i rs ws x Rx. now apply block_thread_runs in Rx. }
      fold new in Hr, Hw, Sd.
      assert (HB' : backed comp (D ++ new) (fold_left (lower_bound_from comp) (combine ids (map f ids)) mem')).
      { apply lower_bounds_backed.
        - intro c. destruct (M c) as [E|(j & J1 & J2 & J3)].
          + destruct (HB c) as [E'|(j & h & A1 & A2 & A3)]; [left; congruence|right].
            exists j, h. split; [apply in_or_app; auto|]. split; [auto|]. now rewrite E.
          + right. destruct (Hw j _ J1 J3) as (j' & h & A1 & A2 & A3). exists j', h.
            split; [auto|]. split; [congruence|auto].
        - intros i h v Hi. rewrite combine_map_ids in Hi. apply in_map_iff in Hi.
          destruct Hi as (i' & Ei & Hi). injection Ei as -> Ei.
          destruct (R i Hi) as [R1 _]. apply block_thread_runs in R1. destruct R1 as [_ R2].
          rewrite Ei in R2. cbn [snd] in R2. apply (Hr i v Hi R2). }
      destruct (IH (S b) _ (D ++ new) HB') as (cands & E2 & L & Sv).
      rewrite E2. cbn [bind]. exists (map fst (map f ids) ++ cands). split; [auto|]. split.
      { rewrite !app_length, !map_length. congruence. }
      assert (EC : combine (ids ++ concat blocks) (map fst (map f ids) ++ cands) =
                   new ++ combine (concat blocks) cands).
      { unfold new. rewrite map_map, <- combine_map_ids. clear.
        induction ids as [|x l IH]; cbn; [auto|]. now rewrite IH. }
      rewrite EC. intros i h Hi. apply in_app_or in Hi. destruct Hi as [Hi|Hi].
      + unfold new in Hi. apply in_map_iff in Hi. destruct Hi as (i' & Ei & Hi). injection Ei as -> <-.
        eapply served_more; [|apply Sd; auto].
        intros x Hx. rewrite app_assoc. apply in_or_app. now left.
      + rewrite app_assoc. now apply Sv.
  Qed.

  Lemma concat_blocks bs : 0 < bs -> forall fuel start, n - start <= fuel ->
    concat (block_list n fuel start bs) = seq start (n - start).
  Proof.
    intros Hb. induction fuel as [|fuel IH]; intros start Hf; cbn [block_list].
    - replace (n - start) with 0 by lia. reflexivity.
    - destruct (Nat.ltb_spec start n) as [H|H].
      + cbn [concat]. rewrite IH by lia.
        destruct (le_lt_dec n (start + bs)) as [G|G].
        * replace (n - (start + bs)) with 0 by lia. cbn [seq]. rewrite app_nil_r. f_equal. lia.
        * replace (min (start + bs) n - start) with bs by lia. rewrite <- seq_app. f_equal. lia.
      + replace (n - start) with 0 by lia. reflexivity.
  Qed.

  Lemma reproducible_round schedules bs : 0 < bs -> exists cands,
    boruvka_tree_query_reproducible t n rd lb core comp node_comp schedules bs = Ok cands /\
    lightest_found n core rd comp cands.
  Proof.
    intros Hb. unfold boruvka_tree_query_reproducible.
    destruct (query_blocks_ok schedules (block_list n n 0 bs) 0 (fun _ => winf) [] backed_init)
      as (cands & E & L & S).
    rewrite (concat_blocks bs Hb n 0) in * by lia. rewrite Nat.sub_0_r in *. rewrite seq_length in L.
    exists cands. split; [auto|]. apply lightest_of_served; [auto|].
    intros i h Hi. apply S.
    assert (Li : i < n) by (rewrite <- L; apply nth_error_Some; congruence).
    clear -Hi Li L. revert Li L. assert (G : forall a l i m, nth_error l i = Some h -> i < m -> In (a + i, h) (combine (seq a m) l)).
    { intros a l. revert a. induction l as [|y l IH]; intros a j m Hj Hm; [destruct j; discriminate|].
      destruct m as [|m]; [lia|]. cbn [seq combine]. destruct j as [|j]; cbn in Hj.
      - injection Hj as ->. left. f_equal. lia.
      - right. replace (a + S j) with (S a + j) by lia. apply IH; [auto|lia]. }
    intros Li L. apply (G 0). auto. lia.
  Qed.

  Lemma block_size_pos c nt : 0 < nt -> 0 < calculate_block_size c n nt.
  Proof. intros H. unfold calculate_block_size. lia. Qed.

  Lemma round_query_ok mode round c :
    match mode with Plain _ => True | Reproducible nt _ => 0 < nt end ->
    exists cands, round_query t n rd lb mode round c core comp node_comp = Ok cands /\
      lightest_found n core rd comp cands.
  Proof.
    destruct mode as [s|nt s]; intros H; cbn [round_query].
    - apply tree_query_round.
    - apply reproducible_round. now apply block_size_pos.
  Qed.
End Round.
