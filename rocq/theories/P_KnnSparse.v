(** Neighbour tables as sparse graphs. *)
From Coq Require Import List Arith Lia Bool Permutation.
From Verif Require Import Prelude Order Graph M_Kruskal S_Kruskal P_Kruskal M_Precomputed S_Precomputed P_Sort P_Precomputed P_Precomputed2 M_KruskalEntry P_KruskalRun P_KruskalEntry
  P_PrecomputedTop M_Linkage M_NNDescent S_NNDescent S_CoreGraph P_BackendsAgree M_KnnSparse.
Import ListNotations.

Section KnnSparse.
  Context {W : WOrd}.
  Implicit Types knn : list (list (option nat * W)).

  Lemma index_rows k n : length (flat_map (fun i => repeat i k) (seq 0 n)) = n * k.
  Proof.
    generalize 0. induction n as [|n IH]; intro s; [reflexivity|]. cbn [seq flat_map]. rewrite app_length, repeat_length, IH. lia.
  Qed.

  Lemma combine_repeat {A} (i : nat) (row : list A) k x : length row = k ->
    In x (combine (repeat i k) row) <-> fst x = i /\ In (snd x) row.
  Proof.
    intros <-. destruct x as [a y]. cbn [fst snd]. induction row as [|z row IH]; cbn [length repeat combine In]; [tauto|].
    rewrite IH. split.
    - intros [H|[H1 H2]]; [injection H as <- <-; auto|auto].
    - intros [-> [->|H]]; auto.
  Qed.

  Lemma combine_app {A B} (a1 a2 : list A) (b1 b2 : list B) : length a1 = length b1 ->
    combine (a1 ++ a2) (b1 ++ b2) = combine a1 b1 ++ combine a2 b2.
  Proof.
    revert b1. induction a1 as [|x a1 IH]; intros [|y b1] H; try discriminate; [reflexivity|]. cbn. f_equal. apply IH. now injection H.
  Qed.

  Lemma cells_in knn k s : (forall row, In row knn -> length row = k) -> forall i x,
    In (i, x) (combine (flat_map (fun i => repeat i k) (seq s (length knn))) (concat knn)) <->
    s <= i < s + length knn /\ In x (nth (i - s) knn []).
  Proof.
    revert s. induction knn as [|row knn IH]; intros s Hk i x.
    - cbn [length seq flat_map concat combine In]. split; [intros []|intros [H _]; cbn in H; lia].
    - cbn [length seq flat_map concat]. rewrite combine_app by (rewrite repeat_length; symmetry; apply Hk; simpl; auto).
      rewrite in_app_iff, combine_repeat by (apply Hk; simpl; auto). rewrite IH by (intros; apply Hk; simpl; auto). cbn [fst snd].
      split.
      + intros [[-> H]|[H1 H2]].
        * split; [lia|]. now rewrite Nat.sub_diag.
        * split; [lia|]. replace (i - s) with (S (i - S s)) by lia. exact H2.
      + intros [H1 H2]. destruct (Nat.eq_dec i s) as [->|Hne].
        * left. rewrite Nat.sub_diag in H2. auto.
        * right. replace (i - s) with (S (i - S s)) in H2 by lia. split; [lia|exact H2].
  Qed.

  Lemma knn_coo_in knn k n : neighbour_table n k knn -> forall i j d,
    In (i, j, d) (knn_coo knn k n) <-> i < n /\ In (Some j, d) (nth i knn []).
  Proof.
    intros [HL HW _] i j d. unfold knn_coo. rewrite in_flat_map. rewrite <- HL. split.
    - intros ([a [[b|] w]] & H & Hx); cbn in Hx; [|destruct Hx]. destruct Hx as [Hx|[]]. injection Hx as -> -> ->.
      apply cells_in in H; auto. rewrite Nat.sub_0_r in H. split; [lia|apply H].
    - intros [Hi H]. exists (i, (Some j, d)). split; [|simpl; auto]. apply cells_in; auto. rewrite Nat.sub_0_r. split; [lia|auto].
  Qed.

  Lemma table_cells knn k n : neighbour_table n k knn -> length (concat knn) = n * k.
  Proof.
    intros [HL HW _]. rewrite <- HL. clear HL. induction knn as [|row knn IH]; [reflexivity|]. cbn [concat length].
    rewrite app_length, (HW row) by (simpl; auto). rewrite IH by (intros; apply HW; simpl; auto). lia.
  Qed.

  Lemma knn_coo_range knn k n : neighbour_table n k knn -> in_range n (knn_coo knn k n).
  Proof.
    intros HT [[i j] d] H. pose proof HT as [HL _ HR]. apply (knn_coo_in knn k n HT) in H as [Hi H]. unfold esrc, edst. cbn [fst snd]. split; auto.
    apply (HR (nth i knn []) j d); auto. apply nth_In. lia.
  Qed.

  Lemma to_sparse_ok knn k n : neighbour_table n k knn ->
    knn_graph_to_sparse knn k n = Ok (symmetrize_min (knn_coo knn k n) n).
  Proof.
    intro HT. unfold knn_graph_to_sparse. rewrite (table_cells knn k n HT), Nat.eqb_refl. cbn [negb].
    rewrite (proj2 (forallb_forall _ _)); [reflexivity|]. intros e He. apply Nat.ltb_lt. now apply (knn_coo_range knn k n HT).
  Qed.

  Lemma c84_sparse knn k n : neighbour_table n k knn ->
    exists g, knn_graph_to_sparse knn k n = Ok g /\ csr_n g = n /\
      NoDup (map (fun e => (esrc e, edst e)) (csr_entries g)) /\
      (forall i j, i < n -> j < n -> i <> j ->
         (exists w, In (i, j, w) (csr_entries g)) <->
         (exists w, In (Some j, w) (nth i knn []) \/ In (Some i, w) (nth j knn []))) /\
      (forall i j w, In (i, j, w) (csr_entries g) ->
         i < n /\ j < n /\ i <> j /\ In (j, i, w) (csr_entries g) /\
         (In (Some j, w) (nth i knn []) \/ In (Some i, w) (nth j knn [])) /\
         (forall d, In (Some j, d) (nth i knn []) \/ In (Some i, d) (nth j knn []) -> wle w d = true)).
  Proof.
    intro HT. pose proof (knn_coo_range knn k n HT) as HR. exists (symmetrize_min (knn_coo knn k n) n). split; [now apply to_sparse_ok|].
    destruct (symmetrize_min_ok (knn_coo knn k n) n HR) as (Gn & GN & GR & G1 & G2 & G3). split; auto. split; auto.
    assert (K : forall i j d, i < n -> j < n -> (In (i, j, d) (knn_coo knn k n) \/ In (j, i, d) (knn_coo knn k n)) <->
                (In (Some j, d) (nth i knn []) \/ In (Some i, d) (nth j knn []))).
    { intros i j d Hi Hj. rewrite !(knn_coo_in knn k n HT). tauto. }
    split.
    - intros i j Hi Hj Hij. split.
      + intros (w & H). apply G1 in H as [_ [H _]]. exists w. now apply K.
      + intros (w & H). apply (G2 i j w); auto. now apply K.
    - intros i j w H. pose proof (GR _ H) as [Hi Hj]. unfold esrc, edst in Hi, Hj. cbn [fst snd] in Hi, Hj.
      pose proof (G1 _ _ _ H) as [Hij [H1 H2]]. split; auto. split; auto. split; auto. split; [now apply G3|].
      split; [now apply K|]. intros d Hd. apply H2. now apply K.
  Qed.

  Lemma three_pass (P : W -> bool) (a b c : W) : threshold P ->
    P (mrd3 a b c) = true <-> P a = true /\ P b = true /\ P c = true.
  Proof.
    intro HP. destruct (mrd3_ok a b c) as [H (Ha & Hb & Hc)]. split.
    - intro H0. split; [|split]; eapply HP; eauto.
    - intros (H1 & H2 & H3). destruct H as [->|[->| ->]]; auto.
  Qed.

  (** The edges over which nndescent.py runs Kruskal's algorithm. *)
  Definition listed_edges knn (core : list W) : list (edge W) :=
    filter (fun e => negb (esrc e =? edst e) && wfinite (ewt e)) (knn_edges knn core).

  Lemma listed_in knn core n : length knn = n -> forall i j w, In (i, j, w) (listed_edges knn core) <->
    i < n /\ i <> j /\ wfinite w = true /\ exists d, In (Some j, d) (nth i knn []) /\ w = mrd3 (nth i core winf) (nth j core winf) d.
  Proof.
    intros HL i j w. unfold listed_edges. rewrite filter_In. unfold esrc, edst, ewt. cbn [fst snd].
    rewrite andb_true_iff, negb_true_iff, Nat.eqb_neq. split.
    - intros (H & Hij & Hf). apply knn_edges_in in H as (Hi & Hd); auto. rewrite HL in Hi. auto.
    - intros (Hi & Hij & Hf & Hd). split; auto. apply knn_edges_in; auto. rewrite HL. auto.
  Qed.

  Lemma listed_range knn core k n : neighbour_table n k knn -> in_range n (listed_edges knn core).
  Proof.
    intros [HL _ HR] [[i j] w] H. apply (listed_in knn core n HL) in H as (Hi & _ & _ & d & Hd & _). unfold esrc, edst. cbn [fst snd]. split; auto.
    apply (HR (nth i knn []) j d); auto. apply nth_In. lia.
  Qed.

  (** Below infinity both graphs connect the same samples. *)
  Lemma same_levels knn k n core P : neighbour_table n k knn -> threshold P -> P winf = false -> forall x y,
    connected (passing P (mrd_entries core (symmetrize_min (knn_coo knn k n) n))) x y <->
    connected (passing P (listed_edges knn core)) x y.
  Proof.
    intros HT HP Hinf. pose proof (knn_coo_range knn k n HT) as HR. pose proof HT as [HL _ _].
    destruct (symmetrize_min_ok (knn_coo knn k n) n HR) as (_ & _ & GR & G1 & G2 & G3).
    assert (F : forall w : W, P w = true -> wfinite w = true).
    { intros w Hw. unfold wfinite, wlt. apply negb_true_iff. destruct (wle winf w) eqn:E; auto.
      rewrite (HP winf w E Hw) in Hinf. discriminate. }
    intros x y. split; apply connected_mono; intros [[i j] w] H; unfold passing in H; apply filter_In in H as [H Hw]; unfold esrc, edst, ewt in *; cbn [fst snd] in *.
    - apply c13_csr in H as (d & H & ->). destruct (G1 _ _ _ H) as [Hij [H0 _]].
      apply (three_pass P) in Hw as (P1 & P2 & P3); auto.
      destruct H0 as [H0|H0]; apply (knn_coo_in knn k n HT) in H0 as [Hi H0].
      + assert (Q : P (mrd3 (nth i core winf) (nth j core winf) d) = true) by (apply three_pass; auto).
        apply (connected_edge _ (i, j, mrd3 (nth i core winf) (nth j core winf) d)). apply filter_In. split; [|exact Q].
        apply (listed_in knn core n HL). split; auto. split; auto. split; [now apply F|]. eauto.
      + assert (Q : P (mrd3 (nth j core winf) (nth i core winf) d) = true) by (apply three_pass; auto).
        apply connected_sym. apply (connected_edge _ (j, i, mrd3 (nth j core winf) (nth i core winf) d)). apply filter_In. split; [|exact Q].
        apply (listed_in knn core n HL). split; auto. split; auto. split; [now apply F|]. eauto.
    - apply (listed_in knn core n HL) in H as (Hi & Hij & _ & d & Hd & ->).
      apply (three_pass P) in Hw as (P1 & P2 & P3); auto.
      assert (H0 : In (i, j, d) (knn_coo knn k n)) by (apply (knn_coo_in knn k n HT); auto).
      destruct (G2 i j d Hij (or_introl H0)) as (m & Hm).
      pose proof (G1 _ _ _ Hm) as [_ [_ Hle]]. specialize (Hle d (or_introl H0)).
      apply (connected_edge _ (i, j, mrd3 (nth i core winf) (nth j core winf) m)). apply filter_In. split.
      + apply c13_csr. eauto.
      + unfold ewt. cbn [snd]. apply three_pass; auto. split; auto. split; auto. eapply HP; eauto.
  Qed.

  Lemma bridged_alike n (E1 E2 T1 T2 : list (edge W)) :
    (forall P, threshold P -> P winf = false -> forall x y, connected (passing P E1) x y <-> connected (passing P E2) x y) ->
    bridged_result n no_constraint E1 T1 -> bridged_result n no_constraint E2 T2 ->
    same_components_at_every_threshold T1 T2 /\ same_weights (sorted_weights T1) (sorted_weights T2).
  Proof.
    intros HE (M1 & B1 & -> & C1 & S1 & F1) (M2 & B2 & -> & C2 & S2 & F2). apply constrained_msf in C1, C2.
    assert (HS : same_components_at_every_threshold (M1 ++ B1) (M2 ++ B2)).
    { intros P HP x y. destruct (P winf) eqn:E.
      - assert (A : forall T : list (edge W), passing P T = T).
        { intro T. apply filter_all. intros e _. apply (HP _ winf); auto. apply winf_top. }
        rewrite !A. split; intro H.
        + destruct (connected_range n _ (st_range _ _ S1) _ _ H) as [->|[K1 K2]]; [apply connected_refl|].
          now apply (st_connected _ _ S2).
        + destruct (connected_range n _ (st_range _ _ S2) _ _ H) as [->|[K1 K2]]; [apply connected_refl|].
          now apply (st_connected _ _ S1).
      - assert (A : forall (M B : list (edge W)) (Q : edge W -> Prop), Forall (fun e => ewt e = winf /\ Q e) B ->
                    passing P (M ++ B) = passing P M).
        { intros M B Q HF. unfold passing. rewrite filter_app.
          replace (filter (fun e : edge W => P (ewt e)) B) with (@nil (edge W)); [apply app_nil_r|].
          induction HF as [|e B [He _] HF IH]; simpl; auto. now rewrite He, E. }
        rewrite (A M1 B1 _ F1), (A M2 B2 _ F2).
        rewrite (msf_levels _ _ C1 P HP x y), (msf_levels _ _ C2 P HP x y). now apply HE. }
    split; auto. now apply (tree_weights n).
  Qed.

  Lemma c84_same knn k n core : 0 < n -> neighbour_table n k knn ->
    exists g c1 l1 M1 T1 c2 l2 M2 T2, knn_graph_to_sparse knn k n = Ok g /\
      kruskal_mst_from_csr g core CLNone = Ok (c1, l1, M1) /\
      (if 1 <? c1 then bridge_forest_with_inf M1 l1 else Ok M1) = Ok T1 /\
      kruskal_mst_from_knn knn core n = Ok (M2, c2, l2) /\
      (if 1 <? c2 then bridge_forest_with_inf M2 l2 else Ok M2) = Ok T2 /\
      spanning_tree n T1 /\ spanning_tree n T2 /\
      same_components_at_every_threshold T1 T2 /\ same_weights (sorted_weights T1) (sorted_weights T2).
  Proof.
    intros Hn HT. pose proof (knn_coo_range knn k n HT) as HR.
    set (g := symmetrize_min (knn_coo knn k n) n).
    destruct (symmetrize_min_ok (knn_coo knn k n) n HR) as (Gn & _ & GR & _). fold g in Gn, GR.
    destruct (from_csr_ok g core CLNone no_constraint) as (l1 & M1 & R1 & C1 & RM1 & L1 & _); [lia|now rewrite Gn|intros x y; simpl; tauto|].
    rewrite Gn in *.
    destruct (maybe_bridge_ok n no_constraint _ M1 l1 Hn C1 RM1 L1) as (T1 & B1 & BR1).
    pose proof (listed_range knn core k n HT) as HRL.
    destruct (run_full n (listed_edges knn core) (argsort (listed_edges knn core)) CLNone no_constraint Hn HRL (argsort_sorts _))
      as (M2 & p & l2 & R2 & G2 & C2 & RM2 & L2 & _); [intros x y; simpl; tauto|].
    destruct (maybe_bridge_ok n no_constraint _ M2 l2 Hn C2 RM2 L2) as (T2 & B2 & BR2).
    exists g, (distinct l1), l1, M1, T1, (length (unique l2)), l2, M2, T2.
    split; [now apply to_sparse_ok|]. split; auto. split; [now rewrite distinct_unique|].
    split. { unfold kruskal_mst_from_knn. fold (listed_edges knn core). unfold run_kruskal_core in R2. rewrite R2. cbn [bind]. rewrite G2. reflexivity. }
    split; auto.
    split; [now destruct BR1 as (? & ? & _ & _ & S1 & _)|]. split; [now destruct BR2 as (? & ? & _ & _ & S2 & _)|].
    eapply bridged_alike; eauto. intros P HP Hi. now apply same_levels.
  Qed.

  Lemma c84_wrong_size knn k n : length (concat knn) <> n * k -> knn_graph_to_sparse knn k n = Err IndexError.
  Proof. intro H. unfold knn_graph_to_sparse. destruct (Nat.eqb_spec (n * k) (length (concat knn))); [lia|reflexivity]. Qed.

  Lemma c84_unknown knn k n j d row : length knn = n -> (forall row, In row knn -> length row = k) -> In row knn -> In (Some j, d) row -> n <= j ->
    knn_graph_to_sparse knn k n = Err ValueError.
  Proof.
    intros HL HW Hr Hj Hn. unfold knn_graph_to_sparse.
    assert (HC : length (concat knn) = n * k).
    { rewrite <- HL. clear - HW. induction knn as [|r l IH]; [reflexivity|]. cbn [concat length].
      rewrite app_length, (HW r) by (simpl; auto). rewrite IH by (intros; apply HW; simpl; auto). lia. }
    rewrite HC, Nat.eqb_refl. cbn [negb].
    destruct (forallb (fun e => edst e <? n) (knn_coo knn k n)) eqn:E; [|reflexivity]. exfalso.
    rewrite forallb_forall in E. destruct (In_nth _ _ [] Hr) as (i & Hi & Ei).
    assert (H : In (i, j, d) (knn_coo knn k n)).
    { unfold knn_coo. apply in_flat_map. exists (i, (Some j, d)). split; [|simpl; auto]. rewrite <- HL. apply cells_in; auto.
      rewrite Nat.sub_0_r, Ei. split; [lia|auto]. }
    apply E in H. unfold edst in H. cbn [fst snd] in H. apply Nat.ltb_lt in H. lia.
  Qed.

  (** ** Components *)
  Lemma merge_labels (E : list (edge W)) : forall (label : nat -> nat) (R : list (edge W)),
    (forall x y, label x = label y <-> connected R x y) ->
    forall x y, fold_left merge_along E label x = fold_left merge_along E label y <-> connected (R ++ E) x y.
  Proof.
    induction E as [|e E IH]; intros label R H x y; [rewrite app_nil_r; apply H|]. cbn [fold_left].
    replace (R ++ e :: E) with ((R ++ [e]) ++ E) by now rewrite <- app_assoc.
    apply IH. clear x y. intros x y. rewrite (connected_perm (R ++ [e]) (e :: R)) by (apply Permutation_sym, Permutation_cons_append).
    rewrite connected_cons. rewrite <- !H. unfold merge_along.
    destruct (Nat.eqb_spec (label x) (label (edst e))), (Nat.eqb_spec (label y) (label (edst e))); split; intro K; try lia.
  Qed.

  Lemma one_component n (E : list (edge W)) :
    n_components n E <= 1 <-> forall x y, x < n -> y < n -> connected E x y.
  Proof.
    assert (L : forall x y, fold_left merge_along E (fun x => x) x = fold_left merge_along E (fun x => x) y <-> connected E x y).
    { apply (merge_labels E (fun x => x) []). intros x y. symmetry. apply connected_nil. }
    unfold n_components. rewrite <- distinct_unique. unfold distinct. set (f := fold_left merge_along E (fun x => x)) in *. split.
    - intros H x y Hx Hy. apply L. assert (Ix : In (f x) (nodup Nat.eq_dec (map f (seq 0 n)))) by (apply nodup_In, in_map, in_seq; lia).
      assert (Iy : In (f y) (nodup Nat.eq_dec (map f (seq 0 n)))) by (apply nodup_In, in_map, in_seq; lia).
      destruct (nodup Nat.eq_dec (map f (seq 0 n))) as [|a [|b l]]; cbn [length] in H; [destruct Ix| |lia].
      destruct Ix as [<-|[]], Iy as [<-|[]]. reflexivity.
    - intro H. assert (HN := NoDup_nodup Nat.eq_dec (map f (seq 0 n))).
      assert (K : forall a b, In a (nodup Nat.eq_dec (map f (seq 0 n))) -> In b (nodup Nat.eq_dec (map f (seq 0 n))) -> a = b).
      { intros a b Ha Hb. apply nodup_In, in_map_iff in Ha as (x & <- & Hx). apply nodup_In, in_map_iff in Hb as (y & <- & Hy).
        apply in_seq in Hx, Hy. apply L, H; lia. }
      destruct (nodup Nat.eq_dec (map f (seq 0 n))) as [|a [|b l]]; cbn [length]; [lia|lia|].
      exfalso. inversion HN as [|? ? Hn _]; subst. apply Hn. rewrite (K a b); simpl; auto.
  Qed.

  Lemma c84_connect n (adj : list (edge W)) connect :
    ((forall x y, x < n -> y < n -> connected adj x y) -> try_connect_knn_graph n adj connect = (true, Some adj)) /\
    (forall r, try_connect_knn_graph n adj connect = (true, r) ->
       exists adj', r = Some adj' /\ forall x y, x < n -> y < n -> connected adj' x y) /\
    (forall r, try_connect_knn_graph n adj connect = (false, r) ->
       ~ (forall x y, x < n -> y < n -> connected adj x y) /\
       match connect adj with
       | Ok adj' => r = Some adj' /\ ~ (forall x y, x < n -> y < n -> connected adj' x y)
       | Err _ => r = None
       end).
  Proof.
    unfold try_connect_knn_graph. pose proof (one_component n adj) as H1. split; [|split].
    - intro H. apply H1, Nat.leb_le in H. now rewrite H.
    - intros r. destruct (Nat.leb_spec (n_components n adj) 1) as [L|L].
      + intros [= <-]. exists adj. split; auto. now apply H1.
      + destruct (connect adj) as [adj'|e]; [|discriminate].
        destruct (Nat.leb_spec (n_components n adj') 1) as [L'|L']; [|discriminate].
        intros [= <-]. exists adj'. split; auto. now apply one_component.
    - intros r. destruct (Nat.leb_spec (n_components n adj) 1) as [L|L]; [discriminate|].
      destruct (connect adj) as [adj'|e].
      + destruct (Nat.leb_spec (n_components n adj') 1) as [L'|L']; [discriminate|].
        intros [= <-]. split; [intro K; apply H1 in K; lia|]. split; auto. intro K. apply one_component in K. lia.
      + intros [= <-]. split; auto. intro K. apply H1 in K. lia.
  Qed.

  Lemma c84_no_effect n (adj : list (edge W)) x y : x < n -> y < n -> ~ connected adj x y ->
    try_connect_knn_graph n adj (@Ok _) = (false, Some adj).
  Proof.
    intros Hx Hy Hc. unfold try_connect_knn_graph. pose proof (one_component n adj) as H1.
    destruct (Nat.leb_spec (n_components n adj) 1) as [L|L]; [exfalso; apply Hc; now apply H1|reflexivity].
  Qed.
End KnnSparse.
