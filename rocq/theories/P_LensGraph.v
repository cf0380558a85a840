(** The lens graph of a cluster. *)
From Coq Require Import List Arith Lia Bool ZArith Permutation Relations Sorted.
From Verif Require Import Prelude Order Graph UF M_DisjointSet M_Kruskal M_Precomputed M_Linkage M_Select M_CoreGraph
  M_Pipeline M_Estimator M_Layers M_LayerTree M_SubClusters M_LensGraph S_Kruskal S_Precomputed S_CoreGraph S_LayerTree S_SubClusters
  P_Sort P_Forest P_KruskalRun P_CoreGraph P_CoreGraphRun P_PrecomputedBoruvka P_BackendsAgree P_Propagate.
Import ListNotations.
Local Open Scope nat_scope.

Lemma cumsum_nth l : forall a i, i <= length l -> nth i (a :: cumsum a l) 0 = a + list_sum (firstn i l).
Proof.
  induction l as [|x l IH]; intros a i Hi; [destruct i; simpl in *; lia|].
  destruct i as [|i]; [simpl; lia|]. cbn [cumsum]. change (nth (S i) (a :: a + x :: cumsum (a + x) l) 0) with (nth i (a + x :: cumsum (a + x) l) 0).
  rewrite IH by (simpl in Hi; lia). simpl. lia.
Qed.

Lemma cumsum_length l : forall a, length (cumsum a l) = length l.
Proof. induction l; simpl; auto. Qed.

Section Lens.
  Context {W : WOrd}.
  Variables (round : W -> W) (sort_row : list (nat * W) -> list (nat * W)).
  Hypothesis Hsort : forall l, Permutation (sort_row l) l /\ sorted_by (fun cw : nat * W => snd cw) (sort_row l).

  (** ** Rows *)
  Section Flatten.
    Variables (n : nat) (graph : nat -> list (nat * W)).
    Hypothesis Hcols : forall i c w, i < n -> In (c, w) (graph i) -> c < n.
    Let g := flatten_to_csr round n graph.

    Lemma flatten_n : csr_n g = n.
    Proof. unfold csr_n, g, flatten_to_csr. cbn [c_indptr length]. rewrite cumsum_length, map_length, seq_length. lia. Qed.

    Lemma flatten_ptr i : i <= n -> nth i (c_indptr g) 0 = length (flat_map graph (seq 0 i)).
    Proof.
      intro Hi. unfold g, flatten_to_csr. cbn [c_indptr]. rewrite cumsum_nth by (rewrite map_length, seq_length; lia).
      rewrite firstn_map. replace (firstn i (seq 0 n)) with (seq 0 i).
      2:{ replace n with (i + (n - i)) by lia. rewrite seq_app, firstn_app, seq_length, Nat.sub_diag, firstn_all2 by (rewrite seq_length; lia). simpl. now rewrite app_nil_r. }
      cbn [Nat.add]. induction (seq 0 i) as [|x l IH]; simpl; auto. rewrite app_length. lia.
    Qed.

    Lemma flatten_stored : stored_graph g.
    Proof.
      split; rewrite ?flatten_n.
      - reflexivity.
      - intros i Hi. rewrite !flatten_ptr by lia. rewrite seq_S, flat_map_app, app_length. lia.
      - rewrite flatten_ptr by lia. unfold g, flatten_to_csr. cbn [c_indices]. now rewrite map_length.
      - unfold g, flatten_to_csr. cbn [c_data c_indices]. now rewrite !map_length.
      - intros c Hc. unfold g, flatten_to_csr in Hc. cbn [c_indices] in Hc. apply in_map_iff in Hc as ([c' w] & <- & Hc). cbn [fst].
        apply in_flat_map in Hc as (i & Hi & Hc). apply in_seq in Hi. apply (Hcols i c' w); auto. lia.
    Qed.

    Lemma flatten_row i : i < n -> csr_row g i = map (fun cw => (fst cw, round (snd cw))) (graph i).
    Proof.
      intro Hi. unfold csr_row. rewrite !flatten_ptr by lia.
      assert (HS : length (flat_map graph (seq 0 (S i))) = length (flat_map graph (seq 0 i)) + length (graph i)).
      { rewrite seq_S, flat_map_app, app_length. simpl. now rewrite app_nil_r. }
      rewrite HS. unfold g, flatten_to_csr. cbn [c_data c_indices].
      assert (Hc : combine (map fst (flat_map graph (seq 0 n))) (map (fun cw => round (snd cw)) (flat_map graph (seq 0 n))) =
                   map (fun cw => (fst cw, round (snd cw))) (flat_map graph (seq 0 n))).
      { induction (flat_map graph (seq 0 n)) as [|[c w] l IH]; simpl; auto. now rewrite IH. }
      rewrite Hc. unfold slice. replace n with (i + S (n - i - 1)) at 1 by lia.
      rewrite seq_app, flat_map_app, map_app. cbn [Nat.add seq flat_map]. rewrite map_app.
      rewrite skipn_app, map_length, Nat.sub_diag. rewrite skipn_all2 by (rewrite map_length; lia).
      cbn [skipn app].
      replace (length (flat_map graph (seq 0 i)) + length (graph i) - length (flat_map graph (seq 0 i))) with (length (graph i)) by lia.
      rewrite firstn_app, map_length, Nat.sub_diag. rewrite firstn_all2 by (rewrite map_length; lia). cbn [firstn]. apply app_nil_r.
    Qed.
  End Flatten.

  Section Sort.
    Variable g : csr W.
    Hypothesis Hsg : stored_graph g.

    Lemma sorted_rows i : i < csr_n g -> csr_row (sort_by_lens sort_row g) i = sort_row (csr_row g i).
    Proof. intro Hi. apply (rows_row g Hsg (fun i => sort_row (csr_row g i))); auto. intros j _. apply Permutation_length, Hsort. Qed.

    Lemma sorted_n : csr_n (sort_by_lens sort_row g) = csr_n g.
    Proof. reflexivity. Qed.

    Lemma row_column i c w : i < csr_n g -> In (c, w) (csr_row g i) -> c < csr_n g.
    Proof. intros Hi Hc. apply (columns_range g Hsg (i, c, w)). apply entries_in; auto. Qed.

    Lemma sorted_stored : stored_graph (sort_by_lens sort_row g).
    Proof.
      apply (rows_stored g Hsg (fun i => sort_row (csr_row g i))).
      - intros j _. apply Permutation_length, Hsort.
      - intros i c w Hi Hc. apply (row_column i c w Hi). apply (Permutation_in _ (proj1 (Hsort _)) Hc).
    Qed.

    Lemma sorted_sorted : rows_sorted (sort_by_lens sort_row g).
    Proof. intros i Hi. rewrite sorted_n in Hi. rewrite sorted_rows by auto. apply Hsort. Qed.

    Lemma sorted_entries a b w : In (a, b, w) (csr_entries (sort_by_lens sort_row g)) <-> In (a, b, w) (csr_entries g).
    Proof.
      rewrite (entries_in (sort_by_lens sort_row g)), (entries_in g), sorted_n.
      split; intros [Ha Hb]; split; auto.
      - rewrite sorted_rows in Hb by auto. apply (Permutation_in _ (proj1 (Hsort _)) Hb).
      - rewrite sorted_rows by auto. apply (Permutation_in _ (Permutation_sym (proj1 (Hsort _))) Hb).
    Qed.
  End Sort.

  (** ** Neighbours and spanning tree *)
  Section Union.
    Variable lens : nat -> W.

    Lemma knn_children_spec point neighbors : NoDup (map fst (knn_children lens point neighbors)) /\
      forall c w, In (c, w) (knn_children lens point neighbors) <-> In (Some c) neighbors /\ w = wmax (lens point) (lens c).
    Proof.
      unfold knn_children.
      assert (H : forall nbrs d, NoDup (map fst d) -> (forall c w, In (c, w) d -> w = wmax (lens point) (lens c)) ->
        let d' := fold_left (fun children c => match c with None => children | Some child => dict_set children child (wmax (lens point) (lens child)) end) nbrs d in
        NoDup (map fst d') /\ forall c w, In (c, w) d' <-> (In (c, w) d \/ In (Some c) nbrs) /\ w = wmax (lens point) (lens c)).
      { induction nbrs as [|[b|] nbrs IH]; intros d Hd Hw.
        - cbn. split; auto. intros c w. specialize (Hw c w). intuition.
        - cbn [fold_left]. destruct (dict_set_spec d b (wmax (lens point) (lens b)) Hd) as [D1 D2].
          destruct (IH (dict_set d b (wmax (lens point) (lens b)))) as [E1 E2]; auto.
          { intros c w Hc. apply D2 in Hc as [[-> ->]|[_ Hc]]; auto. }
          split; auto. intros c w. rewrite E2, D2. simpl. split.
          + intros [[[[-> ->]|[Hne H]]|H] E]; auto.
          + intros [[H|[H|H]] E]; auto.
            * destruct (Nat.eq_dec c b) as [->|Hne]; auto.
            * injection H as ->. auto.
        - cbn [fold_left]. destruct (IH d Hd Hw) as [E1 E2]. split; auto. intros c w. rewrite E2. simpl. split; intros [[H|H] E]; auto.
          destruct H; [discriminate|auto]. }
      destruct (H neighbors [] (NoDup_nil _)) as [E1 E2]; [intros c w []|]. split; auto. intros c w. rewrite E2. simpl. tauto.
    Qed.

    Lemma union_spec neighbors mst : let G := knn_mst_union neighbors mst lens in
      forall i, NoDup (map fst (G i)) /\ forall c w, In (c, w) (G i) <->
        (In (Some c) (nth i neighbors []) \/ exists d, In (i, c, d) mst) /\ w = wmax (lens i) (lens c).
    Proof.
      unfold knn_mst_union.
      assert (H : forall E G0 (R : nat -> nat -> Prop),
        (forall i, NoDup (map fst (G0 i)) /\ forall c w, In (c, w) (G0 i) <-> R i c /\ w = wmax (lens i) (lens c)) ->
        forall i, NoDup (map fst (fold_left (add_mst_edge lens) E G0 i)) /\ forall c w, In (c, w) (fold_left (add_mst_edge lens) E G0 i) <->
          (R i c \/ exists d, In (i, c, d) E) /\ w = wmax (lens i) (lens c)).
      { induction E as [|[[a b] d0] E IH]; intros G0 R HG i.
        - cbn [fold_left]. destruct (HG i) as [H1 H2]. split; auto. intros c w. rewrite H2. split; [tauto|]. intros [[H|(d & [])] Ew]; auto.
        - cbn [fold_left]. destruct (IH (add_mst_edge lens G0 (a, b, d0)) (fun i c => R i c \/ (i = a /\ c = b))) with (i := i) as [E1 E2].
          { clear i. intro i. unfold add_mst_edge, esrc, edst. cbn [fst snd]. destruct (HG a) as [A1 A2]. destruct (HG i) as [H1 H2].
            destruct (dict_get (G0 a) b) as [v|e] eqn:Eg.
            - split; auto. intros c w. rewrite H2. split; [tauto|]. intros [[H|[-> ->]] Ew]; auto. apply P_CoreGraph.dict_get_in in Eg.
              apply A2 in Eg as [Eg _]. auto.
            - destruct (Nat.eq_dec i a) as [->|Hne].
              + rewrite upd_eq. destruct (dict_set_spec (G0 a) b (wmax (lens a) (lens b)) A1) as [D1 D2]. split; auto.
                intros c w. rewrite D2, A2. split.
                * intros [[-> ->]|[Hne [Hr ->]]]; auto.
                * intros [[Hr| [_ ->]] ->]; auto. destruct (Nat.eq_dec c b) as [->|Hcb]; auto.
              + rewrite upd_neq by auto. split; auto. intros c w. rewrite H2. split; [tauto|]. intros [[H|[-> _]] Ew]; auto. contradiction. }
          split; auto. intros c w. rewrite E2. split.
          + intros [[[H|[-> ->]]|(d & H)] Ew]; split; auto; right; [exists d0; now left|exists d; now right].
          + intros [[H|(d & [H|H])] Ew]; split; auto; [injection H as <- <- <-; auto|]. right. eauto. }
      intro i. apply (H mst _ (fun i c => In (Some c) (nth i neighbors []))). clear i. intro i. apply knn_children_spec.
    Qed.
  End Union.

  Section Graph.
    Variables (neighbors : list (list (option nat))) (mst : list (edge W)) (lens : nat -> W).
    Let n := length neighbors.
    Hypothesis Hlinked : forall i j, i < n -> linked neighbors mst i j -> j < n /\ j <> i.
    Let g := lens_graph round sort_row neighbors mst lens.
    Let g0 := flatten_to_csr round n (knn_mst_union neighbors mst lens).

    Lemma flat_stored : stored_graph g0.
    Proof.
      apply flatten_stored. intros i c w Hi Hc. apply (proj2 (union_spec lens neighbors mst i)) in Hc as [Hl _].
      now apply (Hlinked i c).
    Qed.

    Lemma lens_graph_n : csr_n g = n.
    Proof. unfold g, lens_graph. rewrite sorted_n. apply flatten_n. Qed.

    Lemma lens_graph_stored : stored_graph g.
    Proof. apply sorted_stored, flat_stored. Qed.

    Lemma lens_graph_sorted : rows_sorted g.
    Proof. apply sorted_sorted, flat_stored. Qed.

    (** The entries: linked samples, with the greater of their lens values. *)
    Lemma lens_graph_entries i j w : In (i, j, w) (csr_entries g) <->
      i < n /\ linked neighbors mst i j /\ w = round (wmax (lens i) (lens j)).
    Proof.
      unfold g, lens_graph. fold n. fold g0. rewrite (sorted_entries g0 flat_stored), entries_in. unfold g0 at 1. rewrite flatten_n.
      split; intros [Hi H]; split; auto.
      - unfold g0 in H. rewrite flatten_row in H by auto. apply in_map_iff in H as ([c v] & E & H). cbn in E. injection E as <- <-.
        apply (proj2 (union_spec lens neighbors mst i)) in H as [Hl ->]. auto.
      - destruct H as [Hl ->]. unfold g0. rewrite flatten_row by auto. apply in_map_iff. exists (j, wmax (lens i) (lens j)). split; auto.
        apply (proj2 (union_spec lens neighbors mst i)). auto.
    Qed.

    Lemma lens_graph_loops : no_loops (csr_entries g).
    Proof.
      intros [[i j] w] He. apply lens_graph_entries in He as (Hi & Hl & _). apply Hlinked in Hl; auto. unfold esrc, edst. simpl. intuition.
    Qed.

    Lemma lens_graph_gap : (forall i, i < n -> exists j, linked neighbors mst i j) -> no_gap g.
    Proof.
      intros Hall i j Hij Hj E. exfalso. rewrite lens_graph_n in Hj. destruct (Hall i) as (c & Hc); [lia|].
      assert (H : In (i, c, round (wmax (lens i) (lens c))) (csr_entries g)) by (apply lens_graph_entries; split; [lia|auto]).
      apply entries_in in H as [_ H]. fold g in E. rewrite E in H. destruct H.
    Qed.
  End Graph.
End Lens.

(** ** Renumbering *)
Lemma place_some pts : forall x p, place_in pts x = Some p -> nth_error pts p = Some x.
Proof.
  induction pts as [|y pts IH]; intros x p H; [discriminate|]. simpl in H. destruct (Nat.eqb_spec y x) as [->|Hn].
  - injection H as <-. reflexivity.
  - destruct (place_in pts x) as [q|] eqn:E; [|discriminate]. injection H as <-. simpl. auto.
Qed.

Lemma place_none pts : forall x, place_in pts x = None <-> ~ In x pts.
Proof.
  induction pts as [|y pts IH]; intro x; [simpl; tauto|]. simpl. destruct (Nat.eqb_spec y x) as [->|Hn].
  - split; [discriminate|tauto].
  - specialize (IH x). destruct (place_in pts x); simpl; split; intro H; try discriminate; try tauto.
    exfalso. assert (~ In x pts) as K by tauto. apply IH in K. discriminate.
Qed.

Lemma place_at pts : NoDup pts -> forall x p, nth_error pts p = Some x -> place_in pts x = Some p.
Proof.
  intros HN x p H. destruct (place_in pts x) as [q|] eqn:E.
  - apply place_some in E. f_equal. eapply NoDup_nth_error; eauto.
    + apply nth_error_Some. congruence.
    + congruence.
  - apply place_none in E. exfalso. apply E. eapply nth_error_In; eauto.
Qed.

Lemma relabel_map us : forall i ls, StronglySorted lt us -> (forall u, In u us -> i <= u) ->
  relabel i us ls = map (fun l => match place_in us l with Some p => i + p | None => l end) ls.
Proof.
  induction us as [|u us IH]; intros i ls HS Hi.
  - simpl. now rewrite map_id.
  - inversion_clear HS as [|? ? HS' HF]. rewrite Forall_forall in HF. cbn [relabel]. rewrite IH; auto.
    + rewrite map_map. apply map_ext. intro l. cbn [place_in]. rewrite (Nat.eqb_sym u l). destruct (Nat.eqb_spec l u) as [->|Hn].
      * destruct (place_in us i) eqn:E; [|lia]. exfalso. apply place_some, nth_error_In in E. specialize (HF i E). specialize (Hi u (or_introl eq_refl)). lia.
      * destruct (place_in us l); cbn; lia.
    + intros v Hv. specialize (HF v Hv). specialize (Hi u (or_introl eq_refl)). lia.
Qed.
