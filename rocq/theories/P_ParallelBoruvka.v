(** Boruvka over a space tree: the first edges from the nearest neighbours, and
    the whole run. *)
From Coq Require Import List Arith Lia Bool Permutation Relations Sorted.
From Verif Require Import Prelude Order Graph UF M_DisjointSet P_DisjointSet M_Kruskal M_Precomputed M_Linkage M_Select
  M_CoreGraph M_TreeQuery M_Boruvka M_KruskalEntry S_Kruskal S_Precomputed S_CoreGraph S_SpaceTree S_Boruvka
  P_Sort P_Forest P_LabelsTop P_Precomputed2 P_KruskalRun P_KruskalEntry P_Boruvka P_CoreGraph P_CoreGraphRun
  P_PrecomputedBoruvka P_BackendsAgree P_TreeQuery P_BoruvkaQuery P_BoruvkaRound P_BoruvkaTree.
Import ListNotations.

Lemma Forall2_seq_get {B} (Q : nat -> B -> Prop) d m : forall a rows i,
  Forall2 Q (seq a m) rows -> i < m -> Q (a + i) (nth i rows d).
Proof.
  induction m as [|m IH]; intros a rows i R Hi; [lia|].
  cbn [seq] in R. inversion R; subst. destruct i as [|i]; cbn [nth].
  - now rewrite Nat.add_0_r.
  - replace (a + S i) with (S a + i) by lia. apply IH; [auto|lia].
Qed.

Lemma Forall2_seq_make {B} (Q : nat -> B -> Prop) d m : forall a rows,
  length rows = m -> (forall i, i < m -> Q (a + i) (nth i rows d)) -> Forall2 Q (seq a m) rows.
Proof.
  induction m as [|m IH]; intros a rows Hl H; destruct rows as [|r rows]; try discriminate; cbn [seq]; constructor.
  - specialize (H 0 ltac:(lia)). now rewrite Nat.add_0_r in H.
  - apply IH; [now injection Hl|]. intros i Hi. specialize (H (S i) ltac:(lia)). cbn in H.
    now replace (S a + i) with (a + S i) by lia.
Qed.

Section Rows.
  Context {W : WOrd}.

  Lemma last_sorted (f : nat -> W) near d q : sorted_by f near -> In q near -> wle (f q) (f (last near d)) = true.
  Proof.
    intros H. induction H as [|x l H IH Hx]; [intros []|].
    intros Hq. destruct l as [|y l].
    - destruct Hq as [->|[]]. apply wle_refl.
    - destruct Hq as [->|Hq].
      + rewrite Forall_forall in Hx. apply Hx. change (last (q :: y :: l) d) with (last (y :: l) d).
        destruct (exists_last (l := y :: l)) as (l' & z & E); [discriminate|]. rewrite E, last_last.
        apply in_or_app. right. now left.
      + change (last (x :: y :: l) d) with (last (y :: l) d). now apply IH.
  Qed.

  Lemma last_in {A} (l : list A) d : l <> [] -> In (last l d) l.
  Proof.
    intros H. destruct (exists_last H) as (l' & z & ->). rewrite last_last. apply in_or_app. right. now left.
  Qed.

  Lemma last_map {A B} (f : A -> B) l d d' : l <> [] -> last (map f l) d' = f (last l d).
  Proof.
    intros H. destruct (exists_last H) as (l' & z & ->). rewrite map_app. cbn [map]. now rewrite !last_last.
  Qed.

  (** A row of at most [n] neighbours is full. *)
  Lemma nearest_full out (f : nat -> W) n k row : nearest out f n k row -> k <= n ->
    exists near far, row = map (fun q => (out (f q), Some q)) near /\ length near = k /\
      Permutation (near ++ far) (seq 0 n) /\ sorted_by (fun q => out (f q)) near /\
      (forall q r, In q near -> In r far -> wle (f q) (f r) = true).
  Proof.
    intros (near & far & E & L & P & Srt & Far) Hk. exists near, far.
    replace (k - n) with 0 in E by lia. cbn [repeat] in E. rewrite app_nil_r in E.
    rewrite Nat.min_l in L by lia. auto.
  Qed.

  Lemma last_kth (f : nat -> W) n k near far d : 0 < k -> length near = k ->
    Permutation (near ++ far) (seq 0 n) -> sorted_by f near ->
    (forall q r, In q near -> In r far -> wle (f q) (f r) = true) ->
    kth_smallest k (map f (seq 0 n)) (f (last near d)).
  Proof.
    intros Hk L P Srt Far.
    assert (NE : near <> []) by (intros ->; cbn in L; lia).
    assert (IL := last_in near d NE). set (q0 := last near d) in *.
    assert (PM : Permutation (map f (near ++ far)) (map f (seq 0 n))) by now apply Permutation_map.
    split; [|split].
    - apply in_map. eapply Permutation_in; [exact P|]. apply in_or_app. now left.
    - rewrite <- (countp_perm _ _ _ PM), countp_map, countp_filter, filter_app, app_length.
      replace (length (filter _ far)) with 0.
      2:{ symmetry. rewrite <- (countp_filter (fun x => wlt (f x) (f q0)) far). apply countp_zero. intros x Hx.
          apply wlt_false. now apply Far. }
      destruct (exists_last NE) as (l' & z & E). assert (q0 = z) as <-.
      { unfold q0. now rewrite E, last_last. }
      rewrite E, filter_app, app_length. cbn [filter]. rewrite wlt_irrefl. cbn [length].
      assert (length (filter (fun x => wlt (f x) (f q0)) l') <= length l').
      { clear. induction l' as [|x l IH]; cbn; [lia|]. destruct (wlt _ _); cbn; lia. }
      rewrite E, app_length in L. cbn in L. lia.
    - rewrite <- (countp_perm _ _ _ PM), countp_map, countp_filter, filter_app, app_length.
      rewrite (filter_all _ near); [lia|]. intros x Hx. now apply (last_sorted f near d).
  Qed.
End Rows.

Section Initial.
  Context {W : WOrd}.
  Variables (n : nat) (rd : nat -> nat -> W) (core : nat -> W).
  Notation mrd := (mutual core rd).
  Notation G := (G n rd core).
  Hypothesis Sym : forall i j, i < n -> j < n -> rd i j = rd j i.

  (** An edge that may start the first round for sample [i]. *)
  Definition initial_ok (i : nat) (oe : option (edge W)) : Prop :=
    forall e, oe = Some e -> esrc e = i /\ edst e < n /\ G i (edst e) (ewt e) /\
      forall x, x < n -> x <> i -> wle (ewt e) (mrd i x) = true.

  Lemma initial_scan i near : i < n -> (forall q, In q near -> q < n) ->
    (forall q, In q near -> wle (core q) (core i) = true ->
       initial_ok i (Some (i, q, wmax (core i) (rd i q)))) ->
    forall last_sample, exists oe, initial_edge last_sample core i (map (fun q => (rd i q, Some q)) near) = Ok oe /\ initial_ok i oe.
  Proof.
    intros Hi. induction near as [|q near IH]; intros R H last_sample; cbn [map initial_edge].
    - exists None. split; [auto|]. intros e [=].
    - destruct (wle (core q) (core i)) eqn:E.
      + eexists. split; [reflexivity|]. apply H; auto. now left.
      + apply IH; intros; [apply R|apply H]; auto; now right.
  Qed.

  Lemma initialize_ok rows :
    Forall2 (fun i row => exists oe, initial_edge (n - 1) core i (tl row) = Ok oe /\ initial_ok i oe) (seq 0 n) rows ->
    exists d new, initialize_from_knn core (ds_rank_create n) rows = Ok (d, new) /\
      tracks n d new /\ phase_inv G new.
  Proof.
    intros H. assert (L := Forall2_len _ _ _ H). rewrite seq_length in L. unfold initialize_from_knn.
    destruct (map_res_ok (fun ir => initial_edge (length rows - 1) core (fst ir) (tl (snd ir)))
                (fun ir oe => initial_ok (fst ir) oe) (combine (seq 0 (length rows)) rows)) as (chosen & E & C).
    { intros [i row] Hin. rewrite <- L in Hin |- *. clear -H Hin. cbn [fst snd].
      induction H as [|i' row' l l' H1 H2 IH]; [destruct Hin|].
      cbn [combine] in Hin. destruct Hin as [[= <- <-]|Hin]; auto. }
    rewrite E. cbn [bind].
    assert (C' : Forall2 initial_ok (seq 0 n) chosen).
    { rewrite <- L in C. clear -C L. revert rows chosen C L. generalize 0 as a. induction n as [|m IH]; intros a rows chosen C L.
      - destruct rows; [|discriminate]. inversion C. constructor.
      - destruct rows as [|r rows]; [discriminate|]. cbn [seq combine] in *. inversion C; subst. constructor; auto.
        eapply IH; eauto. }
    clear C E.
    assert (In' : forall e, In e (somes chosen) -> exists i, i < n /\ initial_ok i (Some e)).
    { intros e He. unfold somes in He. apply in_flat_map in He. destruct He as (oe & Ho & He).
      destruct oe as [e'|]; [|destruct He]. destruct He as [->|[]].
      assert (Q : forall a l, Forall2 initial_ok (seq a l) chosen -> exists i, a <= i < a + l /\ initial_ok i (Some e)).
      { clear -Ho. induction chosen as [|y ys IH]; intros a l F; [destruct Ho|].
        destruct l as [|l]; [inversion F|]. cbn [seq] in F. inversion F; subst.
        destruct Ho as [->|Ho].
        - exists a. split; [lia|auto].
        - destruct (IH Ho (S a) l) as (i & A & B); auto. exists i. split; [lia|auto]. }
      destruct (Q 0 n C') as (i & A & B). exists i. split; [lia|auto]. }
    assert (Once : forall a l, Forall2 initial_ok (seq a l) chosen ->
              ForallOrdPairs (fun e f => esrc e <> esrc f) (somes chosen) /\
              (forall e, In e (somes chosen) -> a <= esrc e)).
    { clear. induction chosen as [|y ys IH]; intros a l F.
      - split; [constructor|intros e []].
      - destruct l as [|l]; [inversion F|]. cbn [seq] in F. inversion F as [|? ? ? ? F1 F2]; subst.
        destruct (IH _ _ F2) as [I1 I2]. destruct y as [e|].
        + cbn [somes flat_map app]. fold (somes ys). destruct (F1 e eq_refl) as (E1 & _). split.
          * constructor; [|exact I1]. apply Forall_forall. intros f Hf. apply I2 in Hf. lia.
          * intros f [<-|Hf]; [lia|]. apply I2 in Hf. lia.
        + cbn [somes flat_map app]. fold (somes ys). split; [exact I1|]. intros f Hf. apply I2 in Hf. lia. }
    destruct (Once 0 n C') as [Once1 _].
    assert (R : forall e, In e (somes chosen) -> esrc e < n /\ edst e < n).
    { intros e He. destruct (In' e He) as (i & Hi & Ho). destruct (Ho e eq_refl) as (<- & A & _). auto. }
    destruct (merge_edges_ok n (somes chosen) (ds_rank_create n) [] (tracks_create n) acyclic_nil R)
      as (d & new & E1 & T1 & I1 & A1 & C1).
    exists d, new. split; [auto|]. split; [exact T1|].
    apply (merge_edges_phase G (G_sym n rd core Sym) n (somes chosen) (ds_rank_create n) [] (tracks_create n) R (phase_nil _)
             ) with (d' := d); auto.
    split.
    - intros e He. destruct (In' e He) as (i & Hi & Ho). destruct (Ho e eq_refl) as (<- & A & B & _). exact B.
    - intros e He c x w Hc Hn (Gc & Gx & Gw). destruct (In' e He) as (i & Hi & Ho).
      destruct (Ho e eq_refl) as (<- & A & B & Light).
      apply connected_nil in Hc. subst c. eapply wle_trans; [|apply Gw]. apply Light; auto.
      intros ->. apply Hn. apply connected_refl.
    - clear -Once1. induction Once1 as [|e l H1 H2 IH]; constructor; auto.
      rewrite Forall_forall in *. intros f Hf K. apply connected_nil in K. now apply (H1 f Hf).
  Qed.
End Initial.

Section Run.
  Context {W : WOrd}.
  Variables (t : space_tree) (n : nat) (rd lb : nat -> nat -> W) (zero : W) (root : W -> W) (mode : query_mode) (ms : nat).
  Hypothesis TS : tree_shape t n.
  Hypothesis LB : lower_bounds t rd lb.
  Hypothesis Sym : forall i j, i < n -> j < n -> rd i j = rd j i.
  Hypothesis Fin : forall i j, i < n -> j < n -> wfinite (rd i j) = true.
  Hypothesis Zero : wfinite zero = true.
  Hypothesis Self : forall i, i < n -> wle (rd i i) zero = true.
  Hypothesis Hn : 2 <= n.
  Hypothesis Hms : ms < n.
  Hypothesis Hmode : match mode with Plain _ => True | Reproducible nt _ => 0 < nt end.

  Let k := if 1 <? ms then ms + 1 else 2.

  Definition core_spec (core : nat -> W) : Prop :=
    (ms <= 1 -> forall i, i < n -> core i = zero) /\
    (1 < ms -> forall i, i < n -> kth_smallest (S ms) (map (rd i) (seq 0 n)) (core i)).

  Lemma tree_boruvka_run : exists rows core M,
    parallel_boruvka t n rd lb zero root mode ms =
      Ok (map (reweigh root) M, map (fun row => map snd (tl row)) rows, map root core) /\
    Forall2 (fun i row => nearest (fun w => w) (rd i) n k row) (seq 0 n) rows /\
    length core = n /\ core_spec (fun i => nth i core winf) /\
    let w := mutual (fun i => nth i core winf) rd in
    spanning_tree n M /\
    min_spanning_forest (complete_graph n w) (map (at_weight w) M) /\
    (forall e, In e M -> equiv (ewt e) (w (esrc e) (edst e))).
  Proof.
    assert (Hk : 2 <= k <= n) by (unfold k; destruct (Nat.ltb_spec 1 ms); lia).
    destruct (parallel_tree_query_ok t n n k rd lb (fun w => w) TS LB) as (rows & E & R); auto; [lia|].
    assert (L := Forall2_len _ _ _ R). rewrite seq_length in L.
    set (core := if 1 <? ms then map (fun row => fst (last row (winf, None))) rows else repeat zero n).
    assert (Lc : length core = n).
    { unfold core. destruct (1 <? ms); [rewrite map_length; lia|apply repeat_length]. }
    set (core_of := fun i => nth i core winf).
    (* rows, sample by sample *)
    assert (Row : forall i, i < n -> exists near far,
        nth i rows [] = map (fun q => (rd i q, Some q)) near /\ length near = k /\
        Permutation (near ++ far) (seq 0 n) /\ sorted_by (rd i) near /\
        (forall q r, In q near -> In r far -> wle (rd i q) (rd i r) = true)).
    { intros i Hi. assert (N : nearest (fun w => w) (rd i) n k (nth i rows [])).
      { apply (Forall2_seq_get (fun i row => nearest (fun w => w) (rd i) n k row) [] n 0); auto. }
      destruct (nearest_full _ _ _ _ _ N ltac:(lia)) as (near & far & A & B & C & D & F).
      exists near, far. auto. }
    assert (CoreLast : 1 < ms -> forall i near, i < n -> nth i rows [] = map (fun q => (rd i q, Some q)) near ->
               length near = k -> core_of i = rd i (last near 0)).
    { intros H i near Hi En Ln. unfold core_of, core. destruct (Nat.ltb_spec 1 ms) as [_|]; [|lia].
      rewrite (nth_indep _ winf (fst (last (@nil (W * option nat)) (winf, None)))) by (rewrite map_length; lia).
      rewrite (map_nth (fun row => fst (last row (winf, None))) rows []). rewrite En.
      rewrite (last_map _ near 0); [reflexivity|]. intros ->. cbn in Ln. lia. }
    assert (Core0 : ms <= 1 -> forall i, i < n -> core_of i = zero).
    { intros H i Hi. unfold core_of, core. destruct (Nat.ltb_spec 1 ms) as [|_]; [lia|].
      rewrite (nth_indep _ winf zero) by (rewrite repeat_length; lia). apply nth_repeat. }
    assert (Rng : forall i near far q, i < n -> Permutation (near ++ far) (seq 0 n) -> In q near -> q < n).
    { intros i near far q _ P Hq. assert (K : In q (seq 0 n)).
      { eapply Permutation_in; [exact P|]. apply in_or_app. now left. }
      apply in_seq in K. lia. }
    assert (CS : core_spec core_of).
    { split; [exact Core0|]. intros H i Hi. destruct (Row i Hi) as (near & far & A & B & C & D & F).
      rewrite (CoreLast H i near Hi A B). replace (S ms) with k by (unfold k; destruct (Nat.ltb_spec 1 ms); lia).
      apply (last_kth (rd i) n k near far); auto. lia. }
    assert (CoreFin : forall i, i < n -> wfinite (core_of i) = true).
    { intros i Hi. destruct (le_lt_dec ms 1) as [H|H].
      - now rewrite Core0.
      - destruct (Row i Hi) as (near & far & A & B & C & D & F). rewrite (CoreLast H i near Hi A B).
        apply Fin; [auto|]. apply (Rng i near far); auto. apply last_in. intros ->. cbn in B. lia. }
    assert (MFin : forall i j, i < n -> j < n -> wfinite (mutual core_of rd i j) = true).
    { intros i j Hi Hj. unfold mutual, wmax.
      repeat match goal with |- context [if ?c then _ else _] => destruct c end; auto. }
    (* first edges *)
    assert (Init : Forall2 (fun i row => exists oe, initial_edge (n - 1) core_of i (tl row) = Ok oe /\
                      initial_ok n rd core_of i oe) (seq 0 n) rows).
    { assert (Q : forall i, i < n -> exists oe, initial_edge (n - 1) core_of i (tl (nth i rows [])) = Ok oe /\
                      initial_ok n rd core_of i oe).
      { intros i Hi. destruct (Row i Hi) as (near & far & A & B & C & D & F). rewrite A.
        destruct near as [|f near]; [cbn in B; lia|]. cbn [map tl].
        assert (Rn : forall q, In q near -> q < n).
        { intros q Hq. apply (Rng i (f :: near) far); auto. now right. }
        apply initial_scan; auto.
        intros q Hq Hle e [= <-]. unfold esrc, edst, ewt. cbn [fst snd].
        split; [auto|]. split; [now apply Rn|].
        destruct (le_lt_dec ms 1) as [H|H].
        - (* no core distances *)
          rewrite (Core0 H i Hi). split.
          + split; [auto|]. split; [now apply Rn|]. unfold mutual. rewrite (Core0 H i Hi), (Core0 H q) by now apply Rn.
            split.
            * apply wmax_lub; [apply wmax_r|]. eapply wle_trans; [|apply wmax_l]. apply wmax_l.
            * repeat apply wmax_lub; auto using wmax_l, wmax_r.
          + intros x Hx Nx.
            assert (Z : wle zero (mutual core_of rd i x) = true).
            { rewrite <- (Core0 H i Hi). apply mrd_core_l. }
            apply wmax_lub; [exact Z|].
            assert (near = [q]) as ->.
            { assert (k = 2) by (unfold k; destruct (Nat.ltb_spec 1 ms); lia).
              destruct near as [|a [|b l]]; cbn in B; try lia. destruct Hq as [->|[]]. reflexivity. }
            assert (Hself : In i (f :: [q]) \/ In i far).
            { apply in_app_or. eapply Permutation_in; [symmetry; exact C|]. apply in_seq. lia. }
            destruct (Nat.eq_dec f i) as [->|Nf].
            * assert (Hx' : In x (i :: [q]) \/ In x far).
              { apply in_app_or. eapply Permutation_in; [symmetry; exact C|]. apply in_seq. lia. }
              eapply wle_trans; [|apply mrd_rd].
              destruct Hx' as [[->|[->|[]]]|Hx']; [congruence|apply wle_refl|]. apply F; [|auto]. right. now left.
            * eapply wle_trans; [|exact Z]. eapply wle_trans; [|apply (Self i Hi)].
              destruct Hself as [[->|[->|[]]]|Hs]; [congruence|apply wle_refl|]. apply F; [|auto]. right. now left.
        - (* the core distance of [i] dominates *)
          assert (Ci := CoreLast H i (f :: near) Hi A B).
          assert (Dq : wle (rd i q) (core_of i) = true).
          { rewrite Ci. apply (last_sorted (rd i)); auto. now right. }
          split.
          + split; [auto|]. split; [now apply Rn|]. split.
            * apply wmax_lub; [apply mrd_core_l|apply mrd_rd].
            * apply mutual_lub; auto; eapply wle_trans; eauto using wmax_l, wle_refl.
          + intros x Hx Nx. apply wmax_lub; [apply mrd_core_l|]. eapply wle_trans; [exact Dq|apply mrd_core_l]. }
      apply (Forall2_seq_make _ []); auto. }
    destruct (initialize_ok n rd core_of Sym rows Init) as (d & new & E1 & T1 & P1).
    unfold parallel_boruvka. fold k. rewrite E. cbn [bind]. fold core. change (fun i => nth i core winf) with core_of.
    rewrite E1. cbn [bind].
    destruct (refresh t n rd core_of TS d (fun _ => None) (seq 0 n) (@nil (edge W)) new) as (d2 & nc2 & comps & E2 & R2); auto.
    { split; [apply seq_length|]. intros x y Hx Hy. rewrite !seq_nth by auto. cbn. rewrite connected_nil. tauto. }
    { intros node c q _ [=]. }
    { intros x y H. apply connected_nil in H as ->. apply connected_refl. }
    rewrite E2. cbn [bind].
    destruct (rounds_ok t n rd lb core_of TS LB Sym MFin mode Hmode n 0 d2 nc2 comps
                (length (nodup Nat.eq_dec comps)) new R2) as (M & E3 & P3 & C3).
    { assert (K := rinv_count t n rd core_of _ _ _ _ _ R2). lia. }
    rewrite E3. cbn [bind].
    exists rows, core, M. split; [reflexivity|]. split; [exact R|]. split; [exact Lc|]. split; [exact CS|].
    apply (phase_minimal n rd core_of); auto. lia.
  Qed.
End Run.
