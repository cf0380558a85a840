(** Spanning trees over neighbour tables. *)
From Coq Require Import List Arith Lia Bool ZArith Permutation Sorted.
From Verif Require Import Prelude Order Graph M_Kruskal S_Kruskal P_Kruskal M_Precomputed S_Precomputed P_Precomputed M_KruskalEntry P_KruskalEntry P_KruskalRun P_PrecomputedTop
  M_Linkage M_NNDescent S_NNDescent S_Unique P_Relabel P_Sort P_Precomputed2.
Import ListNotations.

Section NNDescent.
  Context {W : WOrd}.
  Implicit Types rows : list (list (option nat * W)).

  Lemma column_ok {A} j (d : A) (rows : list (list A)) : (forall row, In row rows -> j < length row) ->
    column j rows = Ok (map (fun row => nth j row d) rows).
  Proof.
    unfold column. induction rows as [|r rows IH]; intro H; [reflexivity|]. cbn [map_res].
    rewrite (nth_error_nth' r d) by (apply H; simpl; auto). cbn [bind]. rewrite IH by (intros; apply H; simpl; auto). reflexivity.
  Qed.
  Lemma column_short {A} j (rows : list (list A)) : rows <> [] -> (forall row, In row rows -> length row <= j) ->
    column j rows = Err IndexError.
  Proof.
    unfold column. destruct rows as [|r rows]; [congruence|]. intros _ H. cbn [map_res].
    now rewrite (proj2 (nth_error_None r j)) by (apply H; simpl; auto).
  Qed.

  Lemma nth_skip1 {A} j (l : list A) d : nth j (skipn 1 l) d = nth (S j) l d.
  Proof. destruct l as [|x l]; [destruct j|]; reflexivity. Qed.

  Definition table_core (zero : W) ms rows : list W :=
    map (fun row => if 1 <? ms then snd (nth ms row (None, winf)) else zero) rows.
  Definition table_edges ms zero rows : list (edge W) :=
    filter (fun e => negb (esrc e =? edst e) && wfinite (ewt e)) (knn_edges (map (skipn 1) rows) (table_core zero ms rows)).

  Lemma table_edges_range ms zero rows n : length rows = n -> (forall row j d, In row rows -> In (Some j, d) row -> j < n) ->
    in_range n (table_edges ms zero rows).
  Proof.
    intros HL Hr [[i j] w] He. apply filter_In in He as [He Hne]. apply andb_true_iff in Hne as [Hne _].
    apply negb_true_iff, Nat.eqb_neq in Hne. unfold esrc, edst in *. cbn [fst snd] in *.
    apply knn_edges_in in He as (Hi & d & Hin & _); auto. rewrite map_length in Hi. split; [lia|].
    rewrite (nth_indep _ [] (skipn 1 [])) in Hin by (rewrite map_length; lia). rewrite map_nth in Hin.
    apply (Hr (nth i rows []) j d); [now apply nth_In|]. rewrite <- (firstn_skipn 1). apply in_app_iff. auto.
  Qed.

  (** What the edges are. *)
  Lemma table_edges_in ms zero rows n : length rows = n -> forall i j w,
    In (i, j, w) (table_edges ms zero rows) <->
    i < n /\ i <> j /\ wfinite w = true /\ exists c d, nth_error (nth i rows []) (S c) = Some (Some j, d) /\
      w = mrd3 (nth i (table_core zero ms rows) winf) (nth j (table_core zero ms rows) winf) d.
  Proof.
    intros HL i j w. unfold table_edges. rewrite filter_In. unfold esrc, edst, ewt. cbn [fst snd].
    rewrite andb_true_iff, negb_true_iff, Nat.eqb_neq.
    assert (K : forall j d, i < n -> In (Some j, d) (nth i (map (skipn 1) rows) []) <-> exists c, nth_error (nth i rows []) (S c) = Some (Some j, d)).
    { intros j0 d Hi. rewrite (nth_indep _ [] (skipn 1 [])) by (rewrite map_length; lia). rewrite map_nth.
      destruct (nth i rows []) as [|r0 l]; cbn [skipn].
      - split; [intros []|]. intros (c & Hc). destruct c; discriminate.
      - cbn [nth_error]. split; [apply In_nth_error|]. intros (c & Hc). eapply nth_error_In; eauto. }
    split.
    - intros (He & Hne & Hf). apply knn_edges_in in He as (Hi & d & Hin & ->); auto. rewrite map_length in Hi.
      apply K in Hin as (c & Hc); [|lia]. split; [lia|]. split; auto. split; auto. exists c, d. auto.
    - intros (Hi & Hne & Hf & c & d & Hc & ->). split; auto. apply knn_edges_in; auto. rewrite map_length. split; [lia|].
      exists d. split; auto. apply K; eauto.
  Qed.

  Lemma nndescent_core (zero : W) graph n ms knn_k :
    let k := knn_columns ms knn_k in neighbour_table n (k + 1) (graph (k + 1)) ->
    (if ms <=? 1 then Ok (repeat zero n)
     else if ms <=? k then let* c := column (ms - 1) (build_knn_graph graph k) in Ok (map snd c)
     else Ok (repeat winf n)) = Ok (table_core zero ms (graph (k + 1))).
  Proof.
    intros k [HL HW _]. assert (Hk : ms <= k) by (unfold k, knn_columns; lia). unfold table_core.
    destruct (Nat.leb_spec ms 1) as [H|H].
    - f_equal. destruct (Nat.ltb_spec 1 ms); [lia|]. rewrite <- HL. generalize (graph (k + 1)). induction l as [|r l IH]; simpl; congruence.
    - destruct (Nat.leb_spec ms k); [|lia]. destruct (Nat.ltb_spec 1 ms); [|lia]. unfold build_knn_graph.
      rewrite (column_ok (ms - 1) (None, winf)).
      + cbn [bind]. rewrite !map_map. f_equal. apply map_ext. intro row. rewrite nth_skip1. do 2 f_equal. lia.
      + intros row Hr. apply in_map_iff in Hr as (r & <- & Hr). rewrite skipn_length, (HW r Hr). lia.
  Qed.

  (** nndescent.py is the nearest neighbour variant of kruskal.py on another table,
      without constraints. *)
  Lemma nndescent_is_knn (zero : W) graph n ms knn_k :
    let k := knn_columns ms knn_k in neighbour_table n (k + 1) (graph (k + 1)) ->
    compute_mst_from_knn_graph zero graph n ms knn_k = kruskal_mst_knn zero graph ms k CLNone.
  Proof.
    intros k HT. unfold compute_mst_from_knn_graph. pose proof (nndescent_core zero graph n ms knn_k HT) as HC. cbv zeta in HC. fold k in HC. cbv zeta. fold k. rewrite HC. cbn [bind].
    destruct HT as [HL HW _]. unfold kruskal_mst_knn, kruskal_mst_from_knn, run_kruskal_core.
    assert (Ek : (if 1 <? ms then Nat.max k ms + 1 else k + 1) = k + 1).
    { assert (ms <= k) by (unfold k, knn_columns; lia). destruct (1 <? ms); lia. }
    rewrite Ek, HL. fold (table_core zero ms (graph (k + 1))). unfold build_knn_graph. fold (table_edges ms zero (graph (k + 1))).
    destruct (kruskal_core n (table_edges ms zero (graph (k + 1))) (argsort (table_edges ms zero (graph (k + 1))))) as [[mst pred]|e]; [|reflexivity]. cbn [bind].
    unfold finish_mst. destruct (get_component_labels n pred) as [labels|e]; [|reflexivity]. cbn [bind].
    destruct (if 1 <? length (unique labels) then bridge_forest_with_inf mst labels else Ok mst) as [M|e]; [|reflexivity]. cbn [bind].
    do 3 f_equal. rewrite map_map. apply map_ext. intro row. f_equal. destruct ms; reflexivity.
  Qed.

  (** ** Complete tables *)
  Section Exhaustive.
    Hypothesis Hanti : forall a b : W, wle a b = true -> wle b a = true -> a = b.
    Variables (n ms : nat) (zero : W) (D : nat -> nat -> W) (rows : list (list (option nat * W))).
    Hypothesis Hex : exhaustive n D rows.
    Hypothesis Hsym : forall i j, i < n -> j < n -> D i j = D j i.
    Hypothesis Hfin : forall i j, i < n -> j < n -> wfinite (D i j) = true.
    Hypothesis Hz : wfinite zero = true.
    Hypothesis Hms : ms < n.

    Lemma row_core i : i < n -> 1 < ms -> snd (nth ms (nth i rows []) (None, winf)) = brute_core zero D n ms i.
    Proof.
      intros Hi H1. destruct (proj2 Hex i Hi) as (others & pad & -> & _ & HP & HS).
      assert (HL : length (i :: others) = n) by (apply Permutation_length in HP; now rewrite seq_length in HP).
      rewrite app_nth1 by (rewrite map_length; lia).
      rewrite (nth_indep _ _ (Some 0, D i 0)) by (rewrite map_length; lia).
      rewrite (map_nth (fun q => (Some q, D i q)) (i :: others) 0 ms). cbn [snd].
      unfold brute_core. destruct (Nat.leb_spec ms 1); [lia|]. destruct (Nat.ltb_spec ms n); [|lia].
      assert (E : isort (fun w : W => w) (map (D i) (seq 0 n)) = map (D i) (i :: others)).
      { assert (U : forall l l' : list W, sorted_by (fun w : W => w) l -> sorted_by (fun w : W => w) l' -> Permutation l l' -> l = l').
        { clear - Hanti. induction l as [|x l IH]; intros l' S1 S2 HP; [now apply Permutation_nil in HP|].
          destruct l' as [|y l']; [apply Permutation_sym, Permutation_nil in HP; discriminate|].
          apply StronglySorted_inv in S1 as [S1 F1]. apply StronglySorted_inv in S2 as [S2 F2]. rewrite Forall_forall in F1, F2.
          assert (x = y).
          { apply Hanti.
            - assert (Hy : In y (x :: l)) by (eapply Permutation_in; [apply Permutation_sym; exact HP|simpl; auto]).
              destruct Hy as [->|Hy]; [apply wle_refl|auto].
            - assert (Hx : In x (y :: l')) by (eapply Permutation_in; [exact HP|simpl; auto]).
              destruct Hx as [->|Hx]; [apply wle_refl|auto]. }
          subst y. f_equal. apply IH; auto. eapply Permutation_cons_inv; eauto. }
        apply U.
        - apply isort_sorted.
        - revert HS. generalize (i :: others). clear. intros l0 HS. induction HS as [|x l HS IH F]; constructor; auto. apply Forall_map. auto.
        - eapply Permutation_trans; [apply Permutation_sym, (isort_perm (fun w : W => w))|]. apply Permutation_map. now apply Permutation_sym. }
      rewrite E. rewrite (nth_indep _ winf (D i 0)) by (rewrite map_length; lia). symmetry. apply map_nth.
    Qed.

    Lemma exhaustive_core : table_core zero ms rows = map (brute_core zero D n ms) (seq 0 n).
    Proof.
      destruct Hex as [HL _]. unfold table_core. apply (nth_ext _ _ winf winf); rewrite !map_length, ?seq_length; auto.
      intros i Hi. rewrite HL in Hi. rewrite (nth_map_seq _ _ _ _ Hi).
      rewrite (nth_indep _ winf ((fun row : list (option nat * W) => if 1 <? ms then snd (nth ms row (None, winf)) else zero) [])) by (rewrite map_length; lia).
      rewrite (map_nth (fun row : list (option nat * W) => if 1 <? ms then snd (nth ms row (None, winf)) else zero)).
      destruct (Nat.ltb_spec 1 ms); [now apply row_core|]. unfold brute_core. destruct (Nat.leb_spec ms 1); [auto|lia].
    Qed.

    Lemma brute_core_finite i : i < n -> wfinite (brute_core zero D n ms i) = true.
    Proof.
      intro Hi. destruct (brute_core_ok zero D n ms i) as (A1 & A2 & A3). destruct (le_lt_dec ms 1) as [H|H]; [now rewrite A1|].
      destruct (A2 H Hms) as (Hin & _). apply in_map_iff in Hin as (j & <- & Hj). apply in_seq in Hj. apply Hfin; lia.
    Qed.
    Lemma exhaustive_range : forall row j d, In row rows -> In (Some j, d) row -> j < n.
    Proof.
      intros row j d Hr Hin. destruct (In_nth _ _ [] Hr) as (i & Hi & <-). destruct Hex as [HL HE]. rewrite HL in Hi.
      destruct (HE i Hi) as (others & pad & E & Hpad & HP & _). rewrite E in Hin. apply in_app_iff in Hin as [Hin|Hin].
      - apply in_map_iff in Hin as (q & E2 & Hq). injection E2 as <- <-. apply (Permutation_in _ HP) in Hq. apply in_seq in Hq. lia.
      - apply Hpad in Hin. discriminate.
    Qed.

    Lemma exhaustive_joined x y w : joined (table_edges ms zero rows) x y w <-> joined (brute_edges zero D n ms) x y w.
    Proof.
      rewrite (brute_joined Hanti n zero ms D Hsym).
      assert (A : forall i j v, In (i, j, v) (table_edges ms zero rows) <-> i < n /\ j < n /\ i <> j /\ greatest_of_three (brute_core zero D n ms i) (brute_core zero D n ms j) (D i j) v).
      { intros i j v. rewrite (table_edges_in ms zero rows n (proj1 Hex)). rewrite exhaustive_core.
        split.
        - intros (Hi & Hne & Hf & c & d & Hc & ->). destruct (proj2 Hex i Hi) as (others & pad & E & Hpad & HP & _).
          apply nth_error_In in Hc. rewrite E in Hc. apply in_app_iff in Hc as [Hc|Hc]; [|apply Hpad in Hc; discriminate].
          apply in_map_iff in Hc as (q & E2 & Hq). injection E2 as <- <-. apply (Permutation_in _ HP) in Hq. apply in_seq in Hq.
          split; auto. split; [lia|]. split; auto. rewrite !nth_map_seq by lia. apply mrd3_ok.
        - intros (Hi & Hj & Hne & HG). destruct (proj2 Hex i Hi) as (others & pad & E & Hpad & HP & _).
          split; auto. split; auto. split.
          + destruct HG as ([->|[->| ->]] & _); auto using brute_core_finite.
          + assert (Hin : In j (i :: others)) by (eapply Permutation_in; [apply Permutation_sym; exact HP|apply in_seq; lia]).
            destruct Hin as [->|Hin]; [congruence|]. apply In_nth_error in Hin as (c & Hc). exists c, (D i j). split.
            * rewrite E. cbn [map app nth_error]. rewrite nth_error_app1 by (rewrite map_length; apply nth_error_Some; congruence).
              now rewrite (map_nth_error _ _ _ Hc).
            * rewrite !nth_map_seq by lia. eapply greatest_unique; eauto. apply mrd3_ok. }
      split.
      - intros [H|H]; apply A in H as (Hi & Hj & Hne & HG); [auto|].
        split; [assumption|]. split; [assumption|]. split; [congruence|]. apply greatest_swap. now rewrite (Hsym x y).
      - intros (Hx & Hy & Hne & HG). left. apply A. auto.
    Qed.

    Lemma exhaustive_tree T : bridged_result n no_constraint (table_edges ms zero rows) T ->
      exists B nbrs core, kruskal_mst_brute zero D n ms CLNone = Ok (B, nbrs, core) /\ core = table_core zero ms rows /\
        spanning_tree n T /\ spanning_tree n B /\ same_hierarchy n (fun x => x) T B.
    Proof.
      intro HT. destruct (brute_ok zero D n ms CLNone no_constraint ltac:(lia) ltac:(intros ? ? [])) as (B & nbrs & core & E & Hc & HB).
      assert (HR : in_range n (table_edges ms zero rows)) by (apply table_edges_range; [apply Hex|apply exhaustive_range]).
      assert (HC : forall x y, x < n -> y < n -> connected (table_edges ms zero rows) x y).
      { intros x y Hx Hy. assert (K := brute_connected zero D n ms x y Hx Hy). revert K. apply connected_mono.
        intros [[a b] v] He. change (connected (table_edges ms zero rows) a b).
        destruct (proj2 (exhaustive_joined a b v) (or_introl He)) as [H|H].
        - apply (connected_edge _ _ H).
        - apply connected_sym. apply (connected_edge _ _ H). }
      destruct (bridged_connected n _ T HC HR HT) as [FT ST].
      destruct (bridged_connected n _ B (brute_connected zero D n ms) (brute_edges_range zero D n ms) HB) as [FB SB].
      assert (L : forall P x y, connected (passing P (table_edges ms zero rows)) x y <-> connected (passing P (brute_edges zero D n ms)) x y).
      { intros P. assert (K : forall A B : list (edge W), (forall x y w, joined A x y w -> joined B x y w) -> forall u v, connected (passing P A) u v -> connected (passing P B) u v).
        { intros A B0 HAB. apply connected_mono. intros e He. apply in_passing in He as [H1 H2]. destruct e as [[a b] w].
          change (connected (passing P B0) a b). change (P w = true) in H2.
          destruct (HAB a b w (or_introl H1)) as [K|K].
          - apply (connected_edge (passing P B0) (a, b, w)). now apply in_passing.
          - apply connected_sym. apply (connected_edge (passing P B0) (b, a, w)). now apply in_passing. }
        intros x y. split; apply K; intros; now apply exhaustive_joined. }
      exists B, nbrs, core. split; auto. split; [now rewrite exhaustive_core|]. split; auto. split; auto.
      intros P HP x y _ _. rewrite (msf_levels _ _ FT P HP), (msf_levels _ _ FB P HP). apply L.
    Qed.
  End Exhaustive.
End NNDescent.
