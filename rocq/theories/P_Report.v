(** The graphs a detector reports. *)
From Coq Require Import List Arith Lia Bool ZArith Permutation.
From Verif Require Import Prelude Order Graph M_Precomputed M_Linkage M_Select M_Estimator M_Layers M_LayerTree M_SubClusters M_LensGraph M_Detector M_Report
  S_SubClusters S_Report P_Sort P_CoreGraph P_Propagate P_LensGraph.
Import ListNotations.
Local Open Scope nat_scope.

(** ** Arrays *)
Lemma take_map {A B} (f : A -> B) d o (l : list A) : map f (take d o l) = take (f d) o (map f l).
Proof. unfold take. rewrite map_map. apply map_ext. intro i. symmetry. apply map_nth. Qed.
Lemma slice_map {A B} (f : A -> B) a b l : slice a b (map f l) = map f (slice a b l).
Proof. unfold slice. now rewrite skipn_map, firstn_map. Qed.
Lemma take_perm {A} (d : A) o l : Permutation o (seq 0 (length l)) -> Permutation (take d o l) l.
Proof.
  intro H. unfold take. eapply perm_trans; [apply Permutation_map, H|]. clear H o.
  assert (E : map (fun i => nth i l d) (seq 0 (length l)) = l); [|now rewrite E].
  induction l as [|a l IH]; simpl; auto. f_equal. rewrite <- seq_shift, map_map. exact IH.
Qed.
Lemma combine_flat {A B} (f : nat -> list A) (g : nat -> list B) l : (forall i, In i l -> length (f i) = length (g i)) ->
  combine (flat_map f l) (flat_map g l) = flat_map (fun i => combine (f i) (g i)) l.
Proof.
  induction l as [|i l IH]; intro H; simpl; auto. rewrite <- IH by (intros; apply H; now right).
  assert (E := H i (or_introl eq_refl)). revert E. generalize (f i), (g i). induction l0 as [|x l0 IH0]; intros [|y l1] E; simpl in *; try discriminate; auto.
  f_equal. apply IH0. lia.
Qed.
Lemma flat_ext_in {A B} (f g : A -> list B) l : (forall x, In x l -> f x = g x) -> flat_map f l = flat_map g l.
Proof. induction l as [|x l IH]; intro H; simpl; auto. rewrite (H x (or_introl eq_refl)), IH; auto. intros y Hy. apply H. now right. Qed.
Lemma map_flat {A B C} (f : B -> C) (g : A -> list B) l : map f (flat_map g l) = flat_map (fun x => map f (g x)) l.
Proof. induction l; simpl; auto. now rewrite map_app, IHl. Qed.

Section Ptr.
  Context {A : Type} (rows : nat -> list A) (n : nat).
  Definition ptr := 0 :: cumsum 0 (map (fun i => length (rows i)) (seq 0 n)).
  Lemma ptr_length : length ptr - 1 = n.
  Proof. unfold ptr. cbn [length]. rewrite cumsum_length, map_length, seq_length. lia. Qed.
  Lemma ptr_at i : i <= n -> nth i ptr 0 = length (flat_map rows (seq 0 i)).
  Proof.
    intro Hi. unfold ptr. rewrite cumsum_nth by (rewrite map_length, seq_length; lia).
    rewrite firstn_map. replace (firstn i (seq 0 n)) with (seq 0 i).
    2:{ replace n with (i + (n - i)) by lia. rewrite seq_app, firstn_app, seq_length, Nat.sub_diag, firstn_all2 by (rewrite seq_length; lia). simpl. now rewrite app_nil_r. }
    cbn [Nat.add]. induction (seq 0 i) as [|x l IH]; simpl; auto. rewrite app_length. lia.
  Qed.
  Lemma ptr_step i : i < n -> nth (S i) ptr 0 - nth i ptr 0 = length (rows i).
  Proof. intro Hi. rewrite !ptr_at by lia. rewrite seq_S, flat_map_app, app_length. simpl. rewrite app_nil_r. lia. Qed.
  Lemma slice_flat i : i < n -> slice (nth i ptr 0) (nth (S i) ptr 0) (flat_map rows (seq 0 n)) = rows i.
  Proof.
    intro Hi. unfold slice. rewrite ptr_step by auto. rewrite ptr_at by lia.
    replace n with (i + S (n - i - 1)) at 1 by lia. rewrite seq_app, flat_map_app. cbn [Nat.add seq flat_map].
    rewrite skipn_app, Nat.sub_diag, skipn_all. cbn [skipn app]. rewrite firstn_app, Nat.sub_diag, firstn_all. cbn [firstn]. apply app_nil_r.
  Qed.
End Ptr.

(** ** The graph of a cluster *)
Section Full.
  Context {W : WOrd} (round : W -> W) (argsort : list W -> list nat).
  Hypothesis Hsort : forall ws, Permutation (argsort ws) (seq 0 (length ws)).
  Notation dflt := (0, (winf, winf)) (only parsing).
  Let weight (c : nat * (W * W)) := fst (snd c).
  Let dist (c : nat * (W * W)) := snd (snd c).
  Let rounded (c : nat * (W * W)) := (fst c, (round (weight c), round (dist c))).
  Let forget (c : nat * (W * W)) := (fst c, weight c).

  Section Flat.
    Variables (n : nat) (graph : nat -> list (nat * (W * W))).
    Definition sorted_row i : list (nat * (W * W)) :=
      take (0, (winf, winf)) (argsort (map weight (map rounded (graph i)))) (map rounded (graph i)).
    Lemma sorted_row_perm i : Permutation (sorted_row i) (map rounded (graph i)).
    Proof. apply take_perm. eapply perm_trans; [apply Hsort|]. now rewrite !map_length. Qed.
    Lemma sorted_row_length i : length (sorted_row i) = length (graph i).
    Proof. rewrite (Permutation_length (sorted_row_perm i)). apply map_length. Qed.

    Let g := sort_full argsort (flatten_full round n graph).
    Let all := flat_map sorted_row (seq 0 n).

    Lemma flat_slice {B} (f : nat * (W * W) -> B) i : i < n ->
      slice (nth i (ptr graph n) 0) (nth (S i) (ptr graph n) 0) (map f (flat_map graph (seq 0 n))) = map f (graph i).
    Proof. intro Hi. rewrite slice_map. f_equal. now apply slice_flat. Qed.

    Lemma full_arrays : g_weights g = map weight all /\ g_distances g = map dist all /\ g_indices g = map fst all /\ g_indptr g = ptr graph n.
    Proof.
      unfold g, sort_full, flatten_full. cbn [g_weights g_distances g_indices g_indptr]. fold (ptr graph n). rewrite ptr_length.
      unfold all. rewrite !(map_flat _ sorted_row). split; [|split; [|split]]; auto; apply flat_ext_in; intros i Hi; apply in_seq in Hi; rewrite !flat_slice by lia;
        unfold sorted_row; rewrite take_map, !map_map; reflexivity.
    Qed.

    Lemma full_edges : core_graph_to_edge_list g = flat_map (fun i => map (fun c => (i, fst c, weight c, dist c)) (sorted_row i)) (seq 0 n).
    Proof.
      unfold core_graph_to_edge_list. destruct full_arrays as (-> & -> & -> & ->). rewrite ptr_length. unfold all. rewrite !map_flat.
      assert (E : flat_map (fun i => repeat i (nth (S i) (ptr graph n) 0 - nth i (ptr graph n) 0)) (seq 0 n) =
                  flat_map (fun i => map (fun _ => i) (sorted_row i)) (seq 0 n)).
      { apply flat_ext_in. intros i Hi. apply in_seq in Hi. rewrite ptr_step by lia. rewrite <- sorted_row_length.
        induction (sorted_row i); simpl; auto. now f_equal. }
      rewrite E. rewrite !combine_flat; intros; rewrite ?combine_length, ?map_length; try lia.
      apply flat_ext_in. intros i _. induction (sorted_row i) as [|c l IH]; simpl; auto. now f_equal.
    Qed.
  End Flat.

  (** Without the distances this is the graph of M_LensGraph. *)
  Lemma dict_set_values {A B} (f : A -> B) d k v :
    map (fun c => (fst c, f (snd c))) (dict_set d k v) = dict_set (map (fun c => (fst c, f (snd c))) d) k (f v).
  Proof. induction d as [|[k' v'] d IH]; simpl; auto. destruct (k =? k'); simpl; auto. now rewrite IH. Qed.
  Lemma dict_get_values {A B} (f : A -> B) d k :
    dict_get (map (fun c => (fst c, f (snd c))) d) k = match dict_get d k with Ok v => Ok (f v) | Err e => Err e end.
  Proof. induction d as [|[k' v'] d IH]; simpl; auto. destruct (k =? k'); simpl; auto. Qed.

  Lemma union_forget neighbors core mst lens i :
    map forget (knn_mst_union_full neighbors core mst lens i) = knn_mst_union neighbors mst lens i.
  Proof.
    unfold knn_mst_union_full, knn_mst_union.
    assert (H : forall G G', (forall i, map forget (G i) = G' i) -> forall i, map forget (fold_left (add_mst_edge_full lens) mst G i) = fold_left (add_mst_edge lens) mst G' i).
    { clear i. induction mst as [|e E IH]; intros G G' HG i; cbn [fold_left]; auto. apply IH. clear i. intro i.
      unfold add_mst_edge_full, add_mst_edge. rewrite <- (HG (esrc e)). unfold forget, weight. rewrite (dict_get_values (fun p : W * W => fst p)).
      destruct (dict_get (G (esrc e)) (edst e)) as [v|er]; [apply HG|].
      destruct (Nat.eq_dec i (esrc e)) as [->|Hne]; [rewrite !upd_eq|rewrite !upd_neq by auto; apply HG].
      now rewrite (dict_set_values (fun p : W * W => fst p)). }
    apply H. clear i. intro i. unfold knn_children_full, knn_children.
    assert (K : forall nb D D', map forget D = D' ->
      map forget (fold_left (fun children c => match c with None => children | Some child => dict_set children child (wmax (lens i) (lens child), wmax (core i) (core child)) end) nb D) =
      fold_left (fun children c => match c with None => children | Some child => dict_set children child (wmax (lens i) (lens child)) end) nb D').
    { induction nb as [|[c|] nb IH]; intros D D' HD; cbn [fold_left]; auto. apply IH. subst D'. unfold forget, weight.
      now rewrite (dict_set_values (fun p : W * W => fst p)). }
    now apply K.
  Qed.

  Lemma full_forget neighbors core mst lens :
    without_distances (lens_graph_full round argsort neighbors core mst lens) = lens_graph round (sort_with argsort) neighbors mst lens.
  Proof.
    unfold lens_graph_full, lens_graph. set (n := length neighbors). set (G := knn_mst_union_full neighbors core mst lens).
    set (G' := knn_mst_union neighbors mst lens).
    assert (HG : forall i, map forget (G i) = G' i) by (intro; apply union_forget).
    unfold without_distances. destruct (full_arrays n G) as (-> & _ & -> & ->). unfold sort_by_lens.
    rewrite flatten_n.
    assert (E : flat_map (fun i => sort_with argsort (csr_row (flatten_to_csr round n G') i)) (seq 0 n) = map forget (flat_map (sorted_row G) (seq 0 n))).
    { rewrite map_flat. apply flat_ext_in. intros i Hi. apply in_seq in Hi. rewrite flatten_row by lia. rewrite <- HG.
      unfold sort_with, sorted_row. rewrite take_map, !map_map. reflexivity. }
    rewrite E, !map_map. f_equal. unfold ptr, flatten_to_csr. cbn [c_indptr]. do 2 f_equal. apply map_ext. intro i. rewrite <- HG. now rewrite map_length.
  Qed.

  (** ** Links *)
  Definition link_in (neighbors : list (list (option nat))) (core : nat -> W) (mst : list (edge W)) (i c : nat) (d : W) : Prop :=
    In (Some c) (nth i neighbors []) /\ d = wmax (core i) (core c) \/ ~ In (Some c) (nth i neighbors []) /\ In (i, c, d) mst.

  Lemma children_full_spec (lens core : nat -> W) point neighbors : NoDup (map fst (knn_children_full lens core point neighbors)) /\
    forall c w d, In (c, (w, d)) (knn_children_full lens core point neighbors) <->
      In (Some c) neighbors /\ w = wmax (lens point) (lens c) /\ d = wmax (core point) (core c).
  Proof.
    unfold knn_children_full. set (val := fun c => (wmax (lens point) (lens c), wmax (core point) (core c))).
    assert (H : forall nbrs D, NoDup (map fst D) -> (forall c v, In (c, v) D -> v = val c) ->
      let D' := fold_left (fun children c => match c with None => children | Some child => dict_set children child (val child) end) nbrs D in
      NoDup (map fst D') /\ forall c v, In (c, v) D' <-> (In (c, v) D \/ In (Some c) nbrs) /\ v = val c).
    { induction nbrs as [|[b|] nbrs IH]; intros D HD Hw.
      - cbn. split; auto. intros c v. specialize (Hw c v). intuition.
      - cbn [fold_left]. destruct (dict_set_spec D b (val b) HD) as [D1 D2]. destruct (IH (dict_set D b (val b))) as [E1 E2]; auto.
        { intros c v Hc. apply D2 in Hc as [[-> ->]|[_ Hc]]; auto. }
        split; auto. intros c v. rewrite E2, D2. simpl. split.
        + intros [[[[-> ->]|[Hne H]]|H] E]; auto.
        + intros [[H|[H|H]] E]; auto.
          * destruct (Nat.eq_dec c b) as [->|Hne]; auto.
          * injection H as ->. auto.
      - cbn [fold_left]. destruct (IH D HD Hw) as [E1 E2]. split; auto. intros c v. rewrite E2. simpl. split; intros [[H|H] E]; auto.
        destruct H; [discriminate|auto]. }
    destruct (H neighbors [] (NoDup_nil _)) as [E1 E2]; [intros c v []|]. split; auto. intros c w d.
    transitivity ((In (c, (w, d)) [] \/ In (Some c) neighbors) /\ (w, d) = val c); [exact (E2 c (w, d))|]. unfold val. simpl. split.
    - intros [[[]|Hc] [= -> ->]]; auto.
    - intros (Hc & -> & ->). auto.
  Qed.

  Lemma union_full_spec neighbors (core : nat -> W) mst (lens : nat -> W) : single_edges mst ->
    forall i, NoDup (map fst (knn_mst_union_full neighbors core mst lens i)) /\
      forall c w d, In (c, (w, d)) (knn_mst_union_full neighbors core mst lens i) <-> w = wmax (lens i) (lens c) /\ link_in neighbors core mst i c d.
  Proof.
    intro Hone. unfold knn_mst_union_full, link_in.
    assert (H : forall E G0 (R : nat -> nat -> W -> Prop), incl E mst ->
      (forall i c d d', R i c d -> In (i, c, d') E -> In (Some c) (nth i neighbors []) \/ d = d') ->
      (forall i c d, R i c d -> In (Some c) (nth i neighbors []) /\ d = wmax (core i) (core c) \/ ~ In (Some c) (nth i neighbors []) /\ In (i, c, d) mst) ->
      (forall i c, In (Some c) (nth i neighbors []) -> R i c (wmax (core i) (core c))) ->
      (forall i, NoDup (map fst (G0 i)) /\ forall c w d, In (c, (w, d)) (G0 i) <-> w = wmax (lens i) (lens c) /\ R i c d) ->
      forall i, NoDup (map fst (fold_left (add_mst_edge_full lens) E G0 i)) /\ forall c w d, In (c, (w, d)) (fold_left (add_mst_edge_full lens) E G0 i) <->
        w = wmax (lens i) (lens c) /\ (R i c d \/ ~ In (Some c) (nth i neighbors []) /\ In (i, c, d) E)).
    { induction E as [|[[a b] d0] E IH]; intros G0 R Hin Hsame Hsound Hnb HG i.
      - cbn [fold_left]. destruct (HG i) as [H1 H2]. split; auto. intros c w d. rewrite H2. simpl. tauto.
      - cbn [fold_left].
        assert (Hin' : incl E mst) by (intros e He; apply Hin; now right).
        assert (H0 : In (a, b, d0) mst) by (apply Hin; now left).
        destruct (IH (add_mst_edge_full lens G0 (a, b, d0)) (fun i c d => R i c d \/ (i = a /\ c = b /\ d = d0 /\ ~ In (Some b) (nth a neighbors [])))) with (i := i) as [E1 E2]; auto.
        { intros j c d d' [Hr|(-> & -> & -> & Hn)] Hd'; [apply (Hsame j c d d'); auto; now right|]. right. apply (Hone a b); auto. }
        { intros j c d [Hr|(-> & -> & -> & Hn)]; auto. }
        { clear i. intro i. unfold add_mst_edge_full, esrc, edst, ewt. cbn [fst snd]. destruct (HG a) as [A1 A2]. destruct (HG i) as [H1 H2].
          destruct (dict_get (G0 a) b) as [[vw vd]|e] eqn:Eg.
          - apply P_CoreGraph.dict_get_in in Eg. apply A2 in Eg as [_ Eg]. split; auto. intros c w d. rewrite H2. split; [tauto|].
            intros [Ew [Hr|(-> & -> & -> & Hn)]]; auto. split; auto. destruct (Hsame a b vd d0 Eg (or_introl eq_refl)) as [Hc | <-]; auto. contradiction.
          - destruct (Nat.eq_dec i a) as [->|Hne].
            + rewrite upd_eq. destruct (dict_set_spec (G0 a) b (wmax (lens a) (lens b), d0) A1) as [D1 D2]. split; auto.
              assert (Hno : forall w d, ~ In (b, (w, d)) (G0 a)).
              { intros w d Hi. apply P_CoreGraph.dict_get_none in Eg. apply Eg. apply in_map_iff. now exists (b, (w, d)). }
              assert (Hnn : ~ In (Some b) (nth a neighbors [])).
              { intro Hi. apply (Hno (wmax (lens a) (lens b)) (wmax (core a) (core b))). apply A2. auto. }
              intros c w d. rewrite D2, A2. split.
              * intros [[-> [= -> ->]]|[Hne [-> Hr]]]; auto 8.
              * intros [-> [Hr|(_ & -> & -> & _)]]; auto. right. split; auto. intros ->. apply (Hno (wmax (lens a) (lens b)) d). apply A2. auto.
            + rewrite upd_neq by auto. split; auto. intros c w d. rewrite H2. split; [tauto|]. intros [Ew [Hr|(-> & _)]]; auto. contradiction. }
        split; auto. intros c w d. rewrite E2. split.
        + intros [-> [[Hr|(-> & -> & -> & Hn)]|[Hn Hd]]]; split; auto; right; split; simpl; auto.
        + intros [-> [Hr|[Hn [Hd|Hd]]]]; split; auto. injection Hd as <- <- <-. left. right. auto. }
    intro i. destruct (H mst (fun point => knn_children_full lens core point (nth point neighbors []))
                          (fun i c d => In (Some c) (nth i neighbors []) /\ d = wmax (core i) (core c))) with (i := i) as [E1 E2].
    - apply incl_refl.
    - intros j c d d' [Hr _] _. auto.
    - intros j c d Hr. auto.
    - intros j c Hc. auto.
    - clear i. intro i. destruct (children_full_spec lens core i (nth i neighbors [])) as [C1 C2]. split; auto. intros c w d. rewrite C2. tauto.
    - split; auto.
  Qed.

  Lemma graph_edges neighbors (core : nat -> W) mst (lens : nat -> W) i c w d : single_edges mst ->
    (In (i, c, w, d) (core_graph_to_edge_list (lens_graph_full round argsort neighbors core mst lens)) <->
     i < length neighbors /\ w = round (wmax (lens i) (lens c)) /\ exists d', link_in neighbors core mst i c d' /\ d = round d').
  Proof.
    intro Hone. unfold lens_graph_full. rewrite full_edges. rewrite in_flat_map. split.
    - intros (j & Hj & H). apply in_map_iff in H as ([c' [w' d']] & E & H). apply in_seq in Hj. cbn in E. injection E as -> -> -> ->.
      apply (Permutation_in _ (sorted_row_perm _ i)) in H. apply in_map_iff in H as ([c0 [w0 d0]] & E & H). unfold rounded, weight, dist in E. cbn in E.
      injection E as <- <- <-. apply (union_full_spec neighbors core mst lens Hone i) in H as [-> H]. split; [lia|]. split; eauto.
    - intros (Hi & -> & d' & H & ->). exists i. split; [apply in_seq; lia|]. apply in_map_iff.
      exists (c, (round (wmax (lens i) (lens c)), round d')). split; auto. apply (Permutation_in _ (Permutation_sym (sorted_row_perm _ i))).
      apply in_map_iff. exists (c, (wmax (lens i) (lens c), d')). split; auto. apply (union_full_spec neighbors core mst lens Hone i). auto.
  Qed.

  Lemma graph_edges_once neighbors core mst lens : single_edges mst ->
    NoDup (map (fun e => fst (fst e)) (core_graph_to_edge_list (lens_graph_full round argsort neighbors core mst lens))).
  Proof.
    intro Hone. unfold lens_graph_full. rewrite full_edges, map_flat. set (G := knn_mst_union_full neighbors core mst lens).
    assert (HN : forall i, NoDup (map fst (sorted_row G i))).
    { intro i. eapply Permutation_NoDup; [apply Permutation_sym, Permutation_map, sorted_row_perm|]. rewrite map_map. unfold rounded. cbn [fst].
      apply (union_full_spec neighbors core mst lens Hone i). }
    generalize (seq_NoDup (length neighbors) 0). generalize (seq 0 (length neighbors)). induction l as [|i l IH]; intro Hl; simpl; [constructor|].
    inversion Hl as [|? ? Hi Hl']; subst. apply NoDup_app_iff. split; [|split].
    - rewrite map_map. cbn [fst]. specialize (HN i). induction (sorted_row G i) as [|c r IHr]; simpl; [constructor|]. simpl in HN. inversion HN as [|? ? Hc HN']; subst.
      constructor; auto. intro Hin. apply in_map_iff in Hin as (c' & E & Hin). injection E as E. apply Hc. rewrite <- E. now apply in_map.
    - now apply IH.
    - intros [a b] H1 H2. apply in_map_iff in H1 as (e & E & H1). apply in_map_iff in H1 as (c & <- & _). cbn in E. injection E as <- <-.
      apply in_flat_map in H2 as (j & Hj & H2). apply in_map_iff in H2 as (e & E & H2). apply in_map_iff in H2 as (c' & <- & _). cbn in E. injection E as <- _. contradiction.
  Qed.
End Full.
