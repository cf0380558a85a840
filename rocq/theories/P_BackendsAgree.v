(** The two back ends for precomputed distances give equivalent trees. *)
From Coq Require Import List Arith Lia Bool Permutation Relations Sorted.
From Verif Require Import Prelude Order Graph UF M_DisjointSet P_DisjointSet M_Kruskal M_Precomputed M_Linkage M_Select
  M_CoreGraph S_Kruskal S_Precomputed S_CoreGraph P_Sort P_Forest P_Precomputed P_Precomputed2 P_KruskalRun P_KruskalEntry
  P_PrecomputedTop P_Boruvka P_CoreGraph P_CoreGraphRun P_PrecomputedBoruvka.
Import ListNotations.

Section Agree.
  Context {W : WOrd}.

  Lemma c14_forest (g : csr W) :
    stored_graph g -> rows_sorted g -> no_gap g -> no_loops (csr_entries g) ->
    exists labels M, boruvka_mst g = Ok (distinct labels, labels, M) /\
      spanning_forest (csr_entries g) M /\
      labels_classes (csr_n g) labels (connected (csr_entries g)) /\
      length M + distinct labels = csr_n g /\
      (symmetric (csr_entries g) -> min_spanning_forest (csr_entries g) M).
  Proof.
    intros H1 H2 H3 H4. destruct (boruvka_ok g H1 H2 H3 H4) as (labels & M & Hb & Hs & Hl & HL & Hm).
    assert (HR : in_range (csr_n g) M).
    { eapply in_range_incl; [apply Hs|]. now apply columns_range. }
    pose proof (labels_count _ M labels (sf_acyclic _ _ Hs) HR Hl) as Hc.
    rewrite <- distinct_unique in Hc.
    exists labels, M. split; [rewrite Hb; do 3 f_equal; lia|]. split; auto.
    split; [|split; [lia|auto]].
    destruct Hl as [L1 L2]. split; auto. intros x y Hx Hy. rewrite (L2 x y Hx Hy). apply Hs.
  Qed.

  Lemma bridged_levels n E (T1 T2 : list (edge W)) :
    bridged_result n no_constraint E T1 -> bridged_result n no_constraint E T2 ->
    same_components_at_every_threshold T1 T2.
  Proof.
    intros (M1 & B1 & -> & C1 & S1 & F1) (M2 & B2 & -> & C2 & S2 & F2) P HP x y.
    apply constrained_msf in C1, C2.
    destruct (P winf) eqn:E1.
    - assert (A : forall T : list (edge W), passing P T = T).
      { intro T. apply filter_all. intros e _. apply (HP _ winf); auto. apply winf_top. }
      rewrite !A. split; intro H.
      + destruct (connected_range n _ (st_range _ _ S1) _ _ H) as [->|[K1 K2]]; [apply connected_refl|].
        now apply (st_connected _ _ S2).
      + destruct (connected_range n _ (st_range _ _ S2) _ _ H) as [->|[K1 K2]]; [apply connected_refl|].
        now apply (st_connected _ _ S1).
    - assert (A : forall (M B : list (edge W)) (Q : edge W -> Prop), Forall (fun e => ewt e = winf /\ Q e) B ->
                  passing P (M ++ B) = passing P M).
      { intros M B Q HF. unfold passing. rewrite filter_app.
        replace (filter (fun e : edge W => P (ewt e)) B) with (@nil (edge W)); [apply app_nil_r|].
        induction HF as [|e B [He _] HF IH]; simpl; auto. now rewrite He, E1. }
      rewrite (A M1 B1 _ F1), (A M2 B2 _ F2).
      rewrite (msf_levels _ _ C1 P HP x y), (msf_levels _ _ C2 P HP x y). tauto.
  Qed.

  Lemma tree_weights n (T1 T2 : list (edge W)) :
    spanning_tree n T1 -> spanning_tree n T2 -> same_components_at_every_threshold T1 T2 ->
    same_weights (sorted_weights T1) (sorted_weights T2).
  Proof.
    intros S1 S2 HL.
    assert (K : forall A B : list (edge W), spanning_tree n A -> spanning_tree n B ->
              same_components_at_every_threshold A B ->
              Forall2 (fun x y => wle x y = true) (sorted_weights A) (sorted_weights B)).
    { intros A B SA SB HC. apply sorted_pointwise; try apply isort_sorted.
      - unfold sorted_weights. rewrite !isort_length, !map_length.
        pose proof (st_count _ _ SA). pose proof (st_count _ _ SB). lia.
      - intro t. unfold sorted_weights.
        rewrite <- !(countp_perm _ _ _ (isort_perm _ _)), !countp_passing.
        apply (forest_length_le n).
        + apply acyclic_filter. apply SB.
        + apply acyclic_filter. apply SA.
        + eapply in_range_incl; [|apply (st_range _ _ SB)]. intros e He. now apply in_passing in He.
        + eapply in_range_incl; [|apply (st_range _ _ SA)]. intros e He. now apply in_passing in He.
        + intros x y H. apply (HC (fun w => wle w t)); auto. apply threshold_le. }
    pose proof (K T1 T2 S1 S2 HL) as K1.
    assert (K2 : Forall2 (fun x y => wle x y = true) (sorted_weights T2) (sorted_weights T1)).
    { apply K; auto. intros P HP x y. symmetry. now apply HL. }
    unfold same_weights. revert K1 K2. generalize (sorted_weights T1) (sorted_weights T2).
    intros a b K1 K2. induction K1 as [|x y a b H K1 IH]; constructor; inversion K2; subst; auto.
  Qed.

  Lemma c15_boruvka (zero huge : W) round entries n ms :
    0 < n -> in_range n entries -> isolated_last n entries ->
    wlt huge winf = true ->
    (forall x y, wle x y = true -> wle (round x) (round y) = true) ->
    let core := snd (core_distances_csr zero (symmetrize_min entries n) ms) in
    let X := mrd_entries core (symmetrize_min entries n) in
    (forall e, In e X -> wle (round (ewt e)) huge = true \/ round (ewt e) = ewt e) ->
    (forall e f, In e X -> In f X -> wle (round (ewt e)) (round (ewt f)) = true -> wle (ewt e) (ewt f) = true) ->
    exists T nbrs, precomputed_boruvka zero huge round entries n ms = Ok (T, nbrs, core) /\
      (nbrs, core) = core_distances_csr zero (symmetrize_min entries n) ms /\
      bridged_result n no_constraint X T.
  Proof.
    intros Hn HR Hi Hh Hm core X Hr Hrefl.
    destruct (precomputed_boruvka_run zero huge round entries n ms Hn HR Hi Hh Hm Hr)
      as (T & nbrs & M & B & H1 & H2 & H3 & H4 & H5 & H6 & H7 & H8).
    exists T, nbrs. split; auto. split; auto. exists M, B. split; auto. split; auto.
    apply msf_constrained. now apply (forest_transport round).
  Qed.

  Lemma c15_agree (zero huge : W) round entries n ms :
    0 < n -> in_range n entries -> isolated_last n entries ->
    wlt huge winf = true ->
    (forall x y, wle x y = true -> wle (round x) (round y) = true) ->
    let core := snd (core_distances_csr zero (symmetrize_min entries n) ms) in
    let X := mrd_entries core (symmetrize_min entries n) in
    (forall e, In e X -> wle (round (ewt e)) huge = true \/ round (ewt e) = ewt e) ->
    (forall e f, In e X -> In f X -> wle (round (ewt e)) (round (ewt f)) = true -> wle (ewt e) (ewt f) = true) ->
    exists T1 T2 nbrs, precomputed_boruvka zero huge round entries n ms = Ok (T1, nbrs, core) /\
      precomputed_kruskal zero entries n ms CLNone = Ok (T2, nbrs, core) /\
      same_components_at_every_threshold T1 T2 /\
      same_weights (sorted_weights T1) (sorted_weights T2).
  Proof.
    intros Hn HR Hi Hh Hm core X Hr Hrefl.
    destruct (c15_boruvka zero huge round entries n ms Hn HR Hi Hh Hm Hr Hrefl) as (T1 & nbrs & H1 & H2 & H3).
    destruct (precomputed_ok zero entries n ms CLNone no_constraint Hn HR) as (T2 & nbrs2 & core2 & K1 & K2 & K3).
    { intros x y. simpl. tauto. }
    rewrite <- H2 in K2. injection K2 as -> ->.
    exists T1, T2, nbrs. split; auto. split; auto.
    assert (HL : same_components_at_every_threshold T1 T2) by (eapply bridged_levels; eauto).
    split; auto. destruct H3 as (? & ? & _ & _ & S1 & _), K3 as (? & ? & _ & _ & S2 & _).
    now apply (tree_weights n).
  Qed.

  Lemma c14_suitable (round : W -> W) core (entries : list (edge W)) n :
    in_range n entries -> isolated_last n entries ->
    (forall x y, wle x y = true -> wle (round x) (round y) = true) ->
    let b := build_core_graph round core (symmetrize_min entries n) in
    csr_n b = n /\ stored_graph b /\ rows_sorted b /\ no_gap b /\ no_loops (csr_entries b) /\
    symmetric (csr_entries b) /\
    forall i j w, In (i, j, w) (csr_entries b) <->
      exists m, In (i, j, m) (mrd_entries core (symmetrize_min entries n)) /\ w = round m.
  Proof.
    intros HR Hi Hm b.
    split; [now apply b_n|]. split; [now apply b_stored|]. split; [now apply b_sorted|].
    split; [now apply b_gap|]. split; [now apply b_loops|]. split; [now apply b_symmetric|].
    intros. now apply b_entries.
  Qed.

  Lemma c15_bridged n (E T1 T2 : list (edge W)) :
    bridged_result n no_constraint E T1 -> bridged_result n no_constraint E T2 ->
    same_components_at_every_threshold T1 T2 /\ same_weights (sorted_weights T1) (sorted_weights T2).
  Proof.
    intros H1 H2. assert (HL : same_components_at_every_threshold T1 T2) by (eapply bridged_levels; eauto).
    split; auto. destruct H1 as (? & ? & _ & _ & S1 & _), H2 as (? & ? & _ & _ & S2 & _).
    now apply (tree_weights n).
  Qed.
End Agree.

(** Disconnectedness from a map that is constant along every edge. *)
Lemma connected_const {W} (E : list (edge W)) (f : nat -> nat) x y :
  forallb (fun e => f (esrc e) =? f (edst e)) E = true -> connected E x y -> f x = f y.
Proof.
  intro H. rewrite forallb_forall in H. revert x y. apply connected_ind_equiv; try congruence.
  intros e He. apply Nat.eqb_eq. now apply H.
Qed.

Lemma levels_differ {W : WOrd} (T1 T2 : list (edge W)) (t : W) (f : nat -> nat) e :
  In e T1 -> wle (ewt e) t = true ->
  forallb (fun e => f (esrc e) =? f (edst e)) (passing (fun w => wle w t) T2) = true ->
  f (esrc e) <> f (edst e) -> ~ same_components_at_every_threshold T2 T1.
Proof.
  intros H1 H2 H3 H4 H. apply H4.
  apply (connected_const (passing (fun w => wle w t) T2)); auto.
  apply (H (fun w => wle w t)); [apply threshold_le|]. apply connected_edge. now apply in_passing.
Qed.
