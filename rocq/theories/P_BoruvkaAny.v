(** Boruvka rounds after any first edges: a spanning tree, though not necessarily
    a minimal one. *)
From Coq Require Import List Arith Lia Bool Permutation Relations Sorted.
From Verif Require Import Prelude Order Graph UF M_DisjointSet P_DisjointSet M_Kruskal M_Precomputed M_Linkage M_Select
  M_CoreGraph M_TreeQuery M_Boruvka M_KruskalEntry S_Kruskal S_Precomputed S_CoreGraph S_SpaceTree S_Boruvka
  P_Sort P_Forest P_LabelsTop P_Precomputed2 P_KruskalRun P_KruskalEntry P_Boruvka P_CoreGraph P_CoreGraphRun
  P_PrecomputedBoruvka P_BackendsAgree P_TreeQuery P_BoruvkaQuery P_BoruvkaRound P_BoruvkaTree.
Import ListNotations.

Section Any.
  Context {W : WOrd}.
  Variables (t : space_tree) (n : nat) (rd lb : nat -> nat -> W) (core : nat -> W).
  Hypothesis TS : tree_shape t n.
  Hypothesis LB : lower_bounds t rd lb.
  Notation mrd := (mutual core rd).
  Hypothesis Sym : forall i j, i < n -> j < n -> rd i j = rd j i.
  Hypothesis Fin : forall i j, i < n -> j < n -> wfinite (mrd i j) = true.

  Record ainv (d : disjoint_set) (nc : nat -> option nat) (comps : list nat) (k : nat) (F : list (edge W)) : Prop := {
    ai_tracks : tracks n d F;
    ai_acyclic : acyclic F;
    ai_range : in_range n F;
    ai_labels : labels_classes n comps (connected F);
    ai_marked : marked t (fun i => nth i comps 0) nc;
    ai_count : k = length (nodup Nat.eq_dec comps)
  }.

  Lemma ainv_count d nc comps k F : ainv d nc comps k F -> k + length F = n.
  Proof.
    intros R. rewrite (ai_count _ _ _ _ _ R), nodup_unique.
    apply (labels_count n F comps); apply R.
  Qed.

  Lemma refresh_any d nc comps (F F' : list (edge W)) :
    labels_classes n comps (connected F) -> marked t (fun i => nth i comps 0) nc ->
    (forall x y, connected F x y -> connected F' x y) -> tracks n d F' -> acyclic F' -> in_range n F' ->
    exists d' nc' comps', update_component_vectors t n d nc = Ok (d', nc', comps') /\
      ainv d' nc' comps' (length (nodup Nat.eq_dec comps')) F'.
  Proof.
    intros [HL HC] HM Hmore HT HP HR. unfold update_component_vectors.
    destruct (update_points_ok n d F' HT) as (d' & comps' & E & HT' & HL').
    rewrite E. cbn [bind]. do 3 eexists. split; [reflexivity|]. split; auto.
    eapply update_nodes_marked; eauto. cbn beta. intros x y Hx Hy Exy.
    apply HL'; auto. apply Hmore. now apply HC.
  Qed.

  (** One round of choosing and merging. *)
  Lemma merge_any d nc comps k F cands :
    ainv d nc comps k F -> 1 < k ->
    lightest_found n core rd (fun i => nth i comps 0) cands ->
    exists d' new, merge_candidates d comps cands = Ok (d', new) /\
      tracks n d' (F ++ new) /\ acyclic (F ++ new) /\ in_range n (F ++ new) /\ 0 < length new /\ (forall e, In e new -> ewt e = mrd (esrc e) (edst e)).
  Proof.
    intros R Hk (LL & HR & HF).
    assert (HLab := ai_labels _ _ _ _ _ R). destruct HLab as [HL HC].
    set (comp := fun i => nth i comps 0) in *.
    assert (Hkn := ainv_count _ _ _ _ _ R).
    set (C := as_edges (combine comps (combine (seq 0 (length cands)) cands))).
    set (D0 := select_candidates comps cands).
    assert (ED : as_edges D0 = note_all C []) by apply select_as_edges.
    assert (HD : best_of C (as_edges D0)).
    { rewrite ED. apply (note_all_best C [] []), best_nil. }
    assert (InC : forall c e, In (c, e) C <-> exists i h, nth_error cands i = Some h /\ c = comp i /\ e = edge_of (i, h)).
    { intros c e. unfold C, as_edges. rewrite in_map_iff. split.
      - intros ([c' [i h]] & E & Hin). cbn in E. injection E as -> <-.
        apply (in_combine3 comps cands n) in Hin; auto. exists i, h. tauto.
      - intros (i & h & A & -> & ->). exists (comp i, (i, h)). split; [reflexivity|].
        apply (in_combine3 comps cands n); auto. }
    (* every component has a finite candidate *)
    assert (Good : forall x, In x D0 -> exists i q, snd x = (i, (mrd i q, Some q)) /\ i < n /\ q < n /\
               fst x = comp i /\ comp q <> comp i).
    { intros [c [i h]] Hx.
      assert (Hx' : In (c, edge_of (i, h)) (as_edges D0)).
      { unfold as_edges. apply in_map_iff. exists (c, (i, h)). auto. }
      assert (Horig := Hx'). apply (bo_from _ _ HD) in Horig. apply InC in Horig.
      destruct Horig as (i' & h' & N & Ec & Ee).
      assert (i' = i) as -> by (unfold edge_of in Ee; injection Ee; auto).
      assert (Ew : fst h' = fst h) by (unfold edge_of in Ee; injection Ee; auto).
      assert (Hi : i < n) by (rewrite <- LL; apply nth_error_Some; congruence).
      destruct (labels_two t n rd core TS Sym Fin comps F (conj HL HC)) with (i := i) as (q & Hq & Nq); auto.
      { rewrite <- (ai_count _ _ _ _ _ R). exact Hk. }
      destruct (HF i q Hi Hq Nq (Fin i q Hi Hq)) as (j & hj & J1 & J2 & J3).
      destruct (bo_least _ _ HD c (edge_of (j, hj))) as (f & F1 & F2).
      { apply InC. exists j, hj. split; [auto|]. split; [|auto]. rewrite Ec. symmetry. exact J2. }
      assert (f = edge_of (i, h)) as -> by (eapply keys_unique; eauto; apply HD).
      change (ewt (edge_of (i, h))) with (fst h) in F2. change (ewt (edge_of (j, hj))) with (fst hj) in F2.
      assert (Ffin : wfinite (fst h) = true).
      { unfold wfinite. eapply wle_lt_trans; [exact F2|]. eapply wle_lt_trans; [exact J3|]. now apply Fin. }
      (* the stored pair itself comes from the list of candidates *)
      assert (Hin : nth_error cands i = Some h).
      { assert (K : In (c, (i, h)) (combine comps (combine (seq 0 (length cands)) cands))).
        { clear -Hx. unfold D0, select_candidates in Hx.
          set (l := combine comps _) in *.
          assert (GG : forall l D x, In x (fold_left
      (fun component_edges (x : nat * (nat * @cand W)) =>
         let '(c, (i, h)) := x in
         match dict_get component_edges c with
         | Ok old => if wlt (fst h) (fst (snd old)) then dict_set component_edges c (i, h) else component_edges
         | Err _ => dict_set component_edges c (i, h)
         end) l D) -> In x l \/ In x D).
          { clear. induction l as [|[c [i h]] l IH]; intros D x H; cbn [fold_left] in H; [auto|].
            apply IH in H. destruct H as [H|H]; [left; now right|].
            destruct x as [c' v'].
            destruct (dict_get D c) as [old|er].
            - destruct (wlt (fst h) (fst (snd old))); [|auto].
              apply dict_set_in in H. destruct H as [[-> ->]|H]; [left; now left|auto].
            - apply dict_set_in in H. destruct H as [[-> ->]|H]; [left; now left|auto]. }
          apply GG in Hx. destruct Hx as [Hx|[]]. exact Hx. }
        apply (in_combine3 comps cands n) in K; tauto. }
      destruct (HR i h Hin) as [->|(q' & Q1 & Q2 & ->)].
      - cbn in Ffin. unfold wfinite in Ffin. rewrite wlt_irrefl in Ffin. discriminate.
      - exists i, q'. cbn [fst snd]. auto. }
    assert (Good' : forall e, In e (map snd (as_edges D0)) ->
              esrc e < n /\ edst e < n /\ ewt e = mrd (esrc e) (edst e) /\ comp (edst e) <> comp (esrc e)).
    { intros e He. unfold as_edges in He. rewrite map_map in He. apply in_map_iff in He.
      destruct He as (x & <- & Hx). destruct (Good x Hx) as (i & q & E & A & B & _ & Cc). cbn [snd].
      rewrite E. unfold edge_of, esrc, edst, ewt. cbn [fst snd]. auto. }
    unfold merge_candidates. fold D0. rewrite candidate_edges_ok.
    2:{ intros x Hx. destruct (Good x Hx) as (i & q & E & _). rewrite E. discriminate. }
    cbn [bind].
    destruct (merge_edges_ok n (map snd (as_edges D0)) d F (ai_tracks _ _ _ _ _ R)
                (ai_acyclic _ _ _ _ _ R)) as (d' & new & E1 & T1 & I1 & A1 & C1).
    { intros e He. destruct (Good' e He) as (A & B & _). auto. }
    exists d', new. split; [exact E1|]. split; [exact T1|]. split; [exact A1|]. split; [|split].
    - intros e He. apply in_app_iff in He as [He|He]; [now apply (ai_range _ _ _ _ _ R)|]. destruct (Good' e (I1 e He)) as (A & B & _). auto.
    - destruct new as [|e0 new]; [exfalso|cbn; lia].
      rewrite app_nil_r in C1.
      assert (Hn : 0 < n) by lia.
      destruct (nth_error cands 0) as [h0|] eqn:E0.
      2:{ apply nth_error_None in E0. lia. }
      destruct (bo_least _ _ HD (comp 0) (edge_of (0, h0))) as (f & F1 & _).
      { apply InC. exists 0, h0. auto. }
      assert (Hf : In f (map snd (as_edges D0))) by (apply in_map_iff; exists (comp 0, f); auto).
      destruct (Good' f Hf) as (A & B & _ & N). apply N. symmetry. apply HC; auto.
    - intros e He. destruct (Good' e (I1 e He)) as (_ & _ & E & _). exact E.
  Qed.

  Lemma rounds_any mode : match mode with Plain _ => True | Reproducible nt _ => 0 < nt end ->
    forall fuel round d nc comps k F,
    ainv d nc comps k F -> k <= fuel ->
    exists new, rounds t n rd lb fuel mode round core d nc comps k F = Ok (F ++ new) /\
      acyclic (F ++ new) /\ in_range n (F ++ new) /\ (forall x y, x < n -> y < n -> connected (F ++ new) x y) /\
      (forall e, In e new -> ewt e = mrd (esrc e) (edst e)).
  Proof.
    intros Hm. induction fuel as [|fuel IH]; intros round d nc comps k F R Hk; cbn [rounds].
    all: assert (Stop : k <= 1 -> exists new, Ok F = Ok (F ++ new) /\ acyclic (F ++ new) /\ in_range n (F ++ new) /\
                        (forall x y, x < n -> y < n -> connected (F ++ new) x y) /\ (forall e, In e new -> ewt e = mrd (esrc e) (edst e))).
    1,3: intros H; exists []; rewrite app_nil_r; split; [auto|]; split; [apply R|]; split; [apply R|]; split; [|intros e []]; intros x y Hx Hy;
      apply (labels_one n comps _ (ai_labels _ _ _ _ _ R)); auto;
      rewrite distinct_unique, <- nodup_unique, <- (ai_count _ _ _ _ _ R);
      assert (P := distinct_pos n comps _ ltac:(lia) (ai_labels _ _ _ _ _ R));
      rewrite distinct_unique, <- nodup_unique, <- (ai_count _ _ _ _ _ R) in P; lia.
    - destruct (Nat.ltb_spec 1 k); [lia|]. now apply Stop.
    - destruct (Nat.ltb_spec 1 k) as [Hlt|Hge]; [|now apply Stop].
      destruct (round_query_ok t n rd lb core (fun i => nth i comps 0) nc TS LB (ai_marked _ _ _ _ _ R) mode round k Hm)
        as (cands & E1 & LF).
      rewrite E1. cbn [bind].
      destruct (merge_any d nc comps k F cands R Hlt LF) as (d1 & new & E2 & T2 & A2 & R2 & N2 & W2).
      rewrite E2. cbn [bind].
      destruct (refresh_any d1 nc comps F (F ++ new)) as (d2 & nc2 & comps2 & E3 & R3); auto.
      { apply R. } { apply R. }
      { intros x y. apply connected_incl. intros e He. apply in_or_app. now left. }
      rewrite E3. cbn [bind].
      assert (K1 := ainv_count _ _ _ _ _ R). assert (K3 := ainv_count _ _ _ _ _ R3).
      rewrite app_length in K3.
      replace (k - length new) with (length (nodup Nat.eq_dec comps2)) by lia.
      destruct (IH (S round) d2 nc2 comps2 _ (F ++ new) R3 ltac:(lia)) as (new2 & E4 & A4 & R4 & C4 & W4).
      exists (new ++ new2). rewrite app_assoc. split; [exact E4|]. split; [exact A4|]. split; [exact R4|]. split; [exact C4|].
      intros e He. apply in_app_iff in He as [He|He]; auto.
  Qed.

  Lemma tree_of_parts (M : list (edge W)) : 0 < n -> acyclic M -> in_range n M -> (forall x y, x < n -> y < n -> connected M x y) -> spanning_tree n M.
  Proof.
    intros Hn Ac Rg HC. split; auto.
    assert (L := labels_count n M (repeat 0 n) Ac Rg).
    assert (LC : labels_classes n (repeat 0 n) (connected M)).
    { split; [apply repeat_length|]. intros x y Hx Hy. rewrite !nth_repeat. split; auto. }
    specialize (L LC). rewrite <- nodup_unique in L.
    assert (length (nodup Nat.eq_dec (repeat 0 n)) = 1).
    { clear -Hn. destruct n as [|m]; [lia|]. clear Hn. induction m as [|m IH]; [reflexivity|].
      cbn [repeat nodup] in *. destruct (in_dec Nat.eq_dec 0 (0 :: repeat 0 m)) as [_|N]; [exact IH|].
      exfalso. apply N. now left. }
    lia.
  Qed.
End Any.
