(** Runs with sample weights, and what goes wrong in some of them. *)
From Coq Require Import List Arith Lia Bool Permutation Relations Sorted ZArith QArith Qcanon Qround.
From Verif Require Import Prelude Order Size Num Graph M_DisjointSet M_Kruskal M_Precomputed M_Linkage
  M_TreeQuery M_Boruvka M_KruskalEntry S_Kruskal S_Precomputed S_CoreGraph S_SpaceTree S_Boruvka
  P_Sort P_KruskalRun P_KruskalEntry P_PrecomputedTop P_Precomputed2 P_ParallelBoruvka
  P_TreeQuery M_NNDescent S_NNDescent P_NNDescent M_Weights S_Weights P_Weights P_WeightsBoruvka P_WeightsTop
  M_Condense S_Condense M_Select M_Labels M_Pipeline S_Pipeline P_Pipeline P_PipelineEx P_EpsilonTop P_UniqueTop P_UniqueEx.
Import ListNotations.
Local Open Scope nat_scope.

Section Generic.
  Context {W : WOrd}.
  Variables (t : space_tree) (n : nat) (rd lb : nat -> nat -> W) (root : W -> W) (ms k : nat) (ws : list Qc).
  Hypothesis TS : tree_shape t n.
  Hypothesis LB : lower_bounds t rd lb.
  Hypothesis Fin : forall i j, i < n -> j < n -> wfinite (rd i j) = true.
  Hypothesis Mono : forall x y, wle x y = true -> wle (root x) (root y) = true.
  Hypothesis RInf : forall x, wfinite x = true -> wlt (root x) (root winf) = true.
  Hypothesis Hw : length ws = n.
  Hypothesis Hnn : forall w, In w ws -> (0 <= w)%Qc.
  Hypothesis Hn : 0 < n.
  Hypothesis Hms : 0 < ms.
  Hypothesis Hk : expected_neighbors ms ws = Ok k.

  Lemma weighted_kruskal_run knn_k X g : valid_constraints n X g ->
    exists cl E T nbrs core, resolve_cl_params n X true g = Ok cl /\
      kruskal_mst_knn_weighted (tree_rows t rd lb root n) ms knn_k ws cl = Ok (T, nbrs, core) /\ length core = n /\
      (enough_listed (Sz := QcSize) n (Nat.max knn_k k + 1) ws (as_weight ms) ->
       forall i, i < n -> weighted_core (Sz := QcSize) n ws (fun q => root (rd i q)) (as_weight ms) (nth i core winf)) /\
      (forall i, i < n -> exists row, nearest root (rd i) n (Nat.max knn_k k + 1) row /\ nth i nbrs [] = map snd (skipn 1 row)) /\
      (forall i j w, In (i, j, w) E <-> i < n /\ i <> j /\ In (Some j) (nth i nbrs []) /\ wfinite w = true /\
         w = mrd3 (nth i core winf) (nth j core winf) (root (rd i j))) /\
      bridged_result n (user_constraints (option_map sp_entries X) g) E T.
  Proof.
    intro HV. destruct (resolve_all n X g HV) as (cl & C & Hd).
    destruct (rows_ok t n rd lb root TS LB Fin Mono RInf (Nat.max knn_k k + 1) ltac:(lia)) as (_ & HL & HR).
    assert (Ent : forall i d o, i < n -> In (d, Some o) (nth i (tree_rows t rd lb root n (Nat.max knn_k k + 1)) []) -> o < n /\ d = root (rd i o)).
    { intros i d o Hi Hin. destruct (HR i Hi) as (near & far & E & _ & HP & _). rewrite E in Hin. apply in_app_iff in Hin as [Hin|Hin].
      - apply in_map_iff in Hin as (q & E2 & Hq). injection E2 as <- <-. split; auto.
        assert (K : In q (seq 0 n)) by (eapply Permutation_in; [exact HP|apply in_or_app; auto]). apply in_seq in K. lia.
      - apply repeat_spec in Hin. discriminate. }
    destruct (weighted_knn_ok (tree_rows t rd lb root n) ms knn_k ws k cl (user_constraints (option_map sp_entries X) g) n Hk Hn HL) as (E & T & H1 & H2 & H3); auto.
    { intros row j d Hr Hin. destruct (In_nth _ _ [] Hr) as (i & Hi & <-). rewrite HL in Hi. apply (Ent i d j); auto. }
    set (rows := tree_rows t rd lb root n (Nat.max knn_k k + 1)) in *.
    assert (NB : forall i, i < n -> nth i (map (fun row : list (W * option nat) => map snd (skipn 1 row)) rows) [] = map snd (skipn 1 (nth i rows []))).
    { intros i Hi. rewrite (nth_indep _ [] ((fun row : list (W * option nat) => map snd (skipn 1 row)) [])) by (rewrite map_length; lia).
      apply (map_nth (fun row : list (W * option nat) => map snd (skipn 1 row))). }
    exists cl, E, T. do 2 eexists. split; [exact C|]. split; [exact H1|]. split; [unfold sample_weight_core_distance; rewrite map_length; auto|].
    split; [|split; [|split; [|exact H2]]].
    - intros He i Hi. eapply core_ok; eauto. lia.
    - intros i Hi. exists (nth i rows []). split; [apply HR; auto|]. now apply NB.
    - intros i j w. rewrite H3. split.
      + intros (Hi & Hne & Hf & c & d & Hc & ->). split; auto. split; auto.
        assert (Hin := nth_error_In _ _ Hc). destruct (Ent i d j Hi Hin) as [Hj Ed]. split; [|split; [auto|now rewrite Ed]].
        rewrite NB by auto. apply in_map_iff. exists (d, Some j). split; auto. destruct (nth i rows []) as [|r0 l]; [destruct c; discriminate|]. cbn [skipn]. cbn [nth_error] in Hc. eapply nth_error_In; eauto.
      + intros (Hi & Hne & Hin & Hf & ->). split; auto. split; auto. split; auto. rewrite NB in Hin by auto. apply in_map_iff in Hin as ([d o] & Eo & Hin). cbn [snd] in Eo. subst o.
        assert (Hin' : In (d, Some j) (nth i rows [])) by (rewrite <- (firstn_skipn 1); apply in_or_app; auto).
        destruct (Ent i d j Hi Hin') as [_ Ed]. apply In_nth_error in Hin as (c & Hc). exists c, d. split; [|now rewrite Ed].
        destruct (nth i rows []) as [|r0 l]; [destruct c; discriminate|exact Hc].
  Qed.

  Hypothesis Sym : forall i j, i < n -> j < n -> rd i j = rd j i.
  Hypothesis RFin : forall x, wfinite x = true -> wfinite (root x) = true.
  Lemma weighted_boruvka_top mode : threads_available mode -> 1 <= k -> (k <= n \/ (as_weight ms <= @ssum QcSize ws)%Qc) ->
    exists T nbrs core, parallel_boruvka_weighted t n rd lb root mode ms ws = Ok (T, nbrs, map root core) /\ length core = n /\
      (enough_listed (Sz := QcSize) n k ws (as_weight ms) ->
       forall i, i < n -> weighted_core (Sz := QcSize) n ws (fun q => root (rd i q)) (as_weight ms) (nth i core winf)) /\
      spanning_tree n T /\
      (forall e, In e T -> let c i := nth i core winf in
         (wle (c (edst e)) (c (esrc e)) = true /\ ewt e = root (wmax (c (esrc e)) (root (rd (esrc e) (edst e))))) \/
         ewt e = root (mutual c rd (esrc e) (edst e))).
  Proof.
    intros Hm Hk1 Hkn.
    assert (HF : k <= n \/ forall i row, i < n -> nearest root (rd i) n k row ->
      wfinite (weighted_scan (Sz := QcSize) ws (as_weight ms) szero (fst (last row (winf, None))) row) = true).
    { destruct (le_lt_dec k n) as [H|H]; [auto|]. destruct Hkn as [Hkn|Hkn]; [auto|]. right. intros i row Hi HN.
      assert (HE : enough_listed (Sz := QcSize) n k ws (as_weight ms)) by (apply all_listed; auto; [lia|now apply Qcleb_le]).
      assert (HC : weighted_core (Sz := QcSize) n ws (fun q => root (rd i q)) (as_weight ms) (weighted_scan (Sz := QcSize) ws (as_weight ms) szero (fst (last row (winf, None))) row)).
      { eapply scan_core; eauto.
        - intro q. apply Qcleb_le. destruct (le_lt_dec (length ws) q) as [H0|H0]; [rewrite nth_overflow by auto; apply Qcle_refl|]. apply Hnn. now apply nth_In.
        - apply slt_true, Qcleb_gt. now apply as_weight_pos.
        - eapply listed_enough; eauto. }
      destruct HC as [(q & Hq & ->) _]. auto. }
    destruct (weighted_boruvka_run t n rd lb root mode ms k ws TS LB Sym Fin Mono RFin RInf Hm Hk Hn Hk1 HF) as (rows & T & E & R & ST & HW).
    exists T. do 2 eexists. split; [exact E|]. assert (L := Forall2_len _ _ _ R). rewrite seq_length in L.
    split; [unfold sample_weight_core_distance; rewrite map_length; auto|]. split; [|split; [exact ST|exact HW]].
    intros He i Hi. eapply core_ok; eauto; [|lia]. apply (Forall2_seq_get (fun i row => nearest root (rd i) n k row) [] n 0); auto.
  Qed.
End Generic.

Lemma unit_weights {W : WOrd} : (forall a b : W, wle a b = true -> wle b a = true -> a = b) ->
  forall t n (rd lb : nat -> nat -> W) root ms knn_k,
  tree_shape t n -> lower_bounds t rd lb -> (forall i j, i < n -> j < n -> wfinite (rd i j) = true) ->
  (forall x y, wle x y = true -> wle (root x) (root y) = true) -> (forall x, wfinite x = true -> wlt (root x) (root winf) = true) ->
  1 <= ms <= n ->
  exists T nbrs core, kruskal_mst_knn_weighted (tree_rows t rd lb root n) ms knn_k (repeat 1%Qc n) CLNone = Ok (T, nbrs, core) /\ length core = n /\
    forall i, i < n -> kth_smallest ms (map (fun q => root (rd i q)) (seq 0 n)) (nth i core winf).
Proof.
  intros Hanti t n rd lb root ms knn_k TS LB Fin Mono RInf Hms.
  destruct (weighted_kruskal_run t n rd lb root ms (2 * ms) (repeat 1%Qc n) TS LB Fin Mono RInf (repeat_length _ _)) with (knn_k := knn_k) (X := @None sparse) (g := @None (list Z))
    as (cl & E & T & nbrs & core & H1 & H2 & H3 & H4 & _); try lia.
  { intros w Hw. apply repeat_spec in Hw. subst w. discriminate. }
  { apply units_neighbors. lia. }
  { exact I. }
  cbn in H1. injection H1 as <-. exists T, nbrs, core. split; auto. split; auto. intros i Hi.
  apply (units_core Hanti n (fun q => root (rd i q)) ms). apply H4; auto.
  apply heavy_listed; [apply repeat_length| |lia]. intros w Hw. apply repeat_spec in Hw. subst w. rewrite Qcmult_1_r. apply as_weight_le. lia.
Qed.

(** Complete runs. *)
Lemma weighted_clusters garbage by_parent mcs m a e p t n (rd lb : nat -> nat -> QInf) root ms k ws :
  sorts_by_parent by_parent -> (1 < mcs)%Qc -> 2 <= n -> (p <= 0)%Qc ->
  tree_shape t n -> lower_bounds t rd lb -> (forall i j, i < n -> j < n -> wfinite (rd i j) = true) ->
  (forall x y, wle x y = true -> wle (root x) (root y) = true) -> (forall x, wfinite x = true -> wfinite (root x) = true) ->
  (forall x, wfinite x = true -> wlt (root x) (root winf) = true) ->
  length ws = n -> (forall w, In w ws -> 0 <= w /\ w < mcs)%Qc -> 0 < ms -> expected_neighbors ms ws = Ok k ->
  (forall knn_k X g, valid_constraints n X g -> exists cl M nbrs core ls ps T, resolve_cl_params n X true g = Ok cl /\
     kruskal_mst_knn_weighted (tree_rows t rd lb root n) ms knn_k ws cl = Ok (M, nbrs, core) /\
     exact_clusters_weighted garbage by_parent (exact_settings (Sz := QcSize) mcs m a e p) M ws = Ok (ls, ps, T) /\
     clustering (V := QInf) (Some 0%Qc) (Some 1%Qc) n ls ps /\
     forall x y, x < n -> y < n -> user_constraints (option_map sp_entries X) g x y -> nth x ls 0%Z = nth y ls 0%Z -> nth x ls 0%Z = (-1)%Z) /\
  ((forall i j, i < n -> j < n -> rd i j = rd j i) -> 1 <= k -> (k <= n \/ (as_weight ms <= @ssum QcSize ws)%Qc) -> forall mode, threads_available mode ->
   exists M nbrs core ls ps T, parallel_boruvka_weighted t n rd lb root mode ms ws = Ok (M, nbrs, core) /\
     exact_clusters_weighted garbage by_parent (exact_settings (Sz := QcSize) mcs m a e p) M ws = Ok (ls, ps, T) /\
     clustering (V := QInf) (Some 0%Qc) (Some 1%Qc) n ls ps).
Proof.
  intros HB Hm Hn Hp TS LB Fin Mono RFin RInf Hw Hws Hms Hk. split.
  - intros knn_k X g HV.
    destruct (weighted_kruskal_run t n rd lb root ms k ws TS LB Fin Mono RInf Hw) with (knn_k := knn_k) (X := X) (g := g) as (cl & E & M & nbrs & core & H1 & H2 & _ & _ & _ & _ & H3); auto; try lia.
    { intros w Hin. apply Hws; auto. }
    destruct (exact_cannot_link_weighted garbage by_parent mcs m a e p n _ E M ws HB Hm Hn Hp H3 Hw) as (ls & ps & T & R1 & R2 & R3).
    { intros w Hin. apply Hws; auto. }
    exists cl, M, nbrs, core, ls, ps, T. auto 6.
  - intros Sym Hk1 Hkn mode Hmode.
    destruct (weighted_boruvka_top t n rd lb root ms k ws TS LB Fin Mono RInf Hw) with (mode := mode) as (M & nbrs & core & H1 & _ & _ & H2 & _); auto; try lia.
    { intros w Hin. apply Hws; auto. }
    destruct (exact_total_weighted garbage by_parent mcs m a e p n M ws HB Hm H2 Hn Hw) as [(ls & ps & T & ER & HC & _)|[H _]].
    { intros w Hin. apply Hws; auto. }
    2:{ exfalso. apply H. apply exact_no_persistence. auto. }
    exists M, nbrs, (map root core), ls, ps, T. auto.
Qed.

(** ** The same with the assumptions on the search in one place *)
Section Bundled.
  Context {W : WOrd}.
  Lemma c51_kruskal t n (rd lb : nat -> nat -> W) root ms k ws knn_k X g :
    tree_search t n rd lb root -> length ws = n -> (forall w, In w ws -> (0 <= w)%Qc) -> 0 < n -> 0 < ms ->
    expected_neighbors ms ws = Ok k -> valid_constraints n X g ->
    exists cl E T nbrs core, resolve_cl_params n X true g = Ok cl /\
      kruskal_mst_knn_weighted (tree_rows t rd lb root n) ms knn_k ws cl = Ok (T, nbrs, core) /\ length core = n /\
      (enough_listed (Sz := QcSize) n (Nat.max knn_k k + 1) ws (as_weight ms) ->
       forall i, i < n -> weighted_core (Sz := QcSize) n ws (fun q => root (rd i q)) (as_weight ms) (nth i core winf)) /\
      (forall i, i < n -> exists row, nearest root (rd i) n (Nat.max knn_k k + 1) row /\ nth i nbrs [] = map snd (skipn 1 row)) /\
      (forall i j w, In (i, j, w) E <-> i < n /\ i <> j /\ In (Some j) (nth i nbrs []) /\ wfinite w = true /\
         w = mrd3 (nth i core winf) (nth j core winf) (root (rd i j))) /\
      bridged_result n (user_constraints (option_map sp_entries X) g) E T.
  Proof. intros []. intros. eapply weighted_kruskal_run; eauto. Qed.

  Lemma c51_boruvka t n (rd lb : nat -> nat -> W) root ms k ws mode :
    tree_search t n rd lb root -> length ws = n -> (forall w, In w ws -> (0 <= w)%Qc) -> 0 < ms ->
    expected_neighbors ms ws = Ok k -> 1 <= k -> (k <= n \/ (as_weight ms <= @ssum QcSize ws)%Qc) -> threads_available mode ->
    exists T nbrs core, parallel_boruvka_weighted t n rd lb root mode ms ws = Ok (T, nbrs, map root core) /\ length core = n /\
      (enough_listed (Sz := QcSize) n k ws (as_weight ms) ->
       forall i, i < n -> weighted_core (Sz := QcSize) n ws (fun q => root (rd i q)) (as_weight ms) (nth i core winf)) /\
      spanning_tree n T /\
      (forall e, In e T -> let c i := nth i core winf in
         (wle (c (edst e)) (c (esrc e)) = true /\ ewt e = root (wmax (c (esrc e)) (root (rd (esrc e) (edst e))))) \/
         ewt e = root (mutual c rd (esrc e) (edst e))).
  Proof.
    intros [] Hw Hnn Hms Hk. intros. eapply weighted_boruvka_top; eauto.
    rewrite <- Hw. destruct ws; [discriminate Hk|cbn; lia].
  Qed.

  Lemma c51_units : (forall a b : W, wle a b = true -> wle b a = true -> a = b) ->
    forall t n (rd lb : nat -> nat -> W) root ms knn_k,
    tree_search t n rd lb root -> 1 <= ms <= n ->
    exists T nbrs core, kruskal_mst_knn_weighted (tree_rows t rd lb root n) ms knn_k (repeat 1%Qc n) CLNone = Ok (T, nbrs, core) /\ length core = n /\
      forall i, i < n -> kth_smallest ms (map (fun q => root (rd i q)) (seq 0 n)) (nth i core winf).
  Proof. intros Hanti t n rd lb root ms knn_k [] Hms. eapply unit_weights; eauto. Qed.
End Bundled.

Lemma c51_clusters garbage by_parent mcs m a e p t n (rd lb : nat -> nat -> QInf) root ms k ws :
  sorts_by_parent by_parent -> (1 < mcs)%Qc -> 2 <= n -> (p <= 0)%Qc -> tree_search t n rd lb root ->
  length ws = n -> (forall w, In w ws -> 0 <= w /\ w < mcs)%Qc -> 0 < ms -> expected_neighbors ms ws = Ok k ->
  (forall knn_k X g, valid_constraints n X g -> exists cl M nbrs core ls ps T, resolve_cl_params n X true g = Ok cl /\
     kruskal_mst_knn_weighted (tree_rows t rd lb root n) ms knn_k ws cl = Ok (M, nbrs, core) /\
     exact_clusters_weighted garbage by_parent (exact_settings (Sz := QcSize) mcs m a e p) M ws = Ok (ls, ps, T) /\
     clustering (V := QInf) (Some 0%Qc) (Some 1%Qc) n ls ps /\
     forall x y, x < n -> y < n -> user_constraints (option_map sp_entries X) g x y -> nth x ls 0%Z = nth y ls 0%Z -> nth x ls 0%Z = (-1)%Z) /\
  (1 <= k -> (k <= n \/ (as_weight ms <= @ssum QcSize ws)%Qc) -> forall mode, threads_available mode ->
   exists M nbrs core ls ps T, parallel_boruvka_weighted t n rd lb root mode ms ws = Ok (M, nbrs, core) /\
     exact_clusters_weighted garbage by_parent (exact_settings (Sz := QcSize) mcs m a e p) M ws = Ok (ls, ps, T) /\
     clustering (V := QInf) (Some 0%Qc) (Some 1%Qc) n ls ps).
Proof.
  intros HB Hm Hn Hp [] Hw Hws Hms Hk.
  destruct (weighted_clusters garbage by_parent mcs m a e p t n rd lb root ms k ws) as [H1 H2]; auto.
Qed.

(** Heavy samples: no neighbour at all is asked for. *)
Lemma heavy_neighbors ms (ws : list Qc) : (as_weight (2 * ms) * as_weight (length ws) < @ssum QcSize ws)%Qc -> expected_neighbors ms ws = Ok 0.
Proof.
  intro H. unfold expected_neighbors. cbv zeta. set (s := @ssum QcSize ws) in *.
  destruct ws as [|w ws]; [exfalso; cbn [length] in H; rewrite as_weight_0, Qcmult_0_r in H; apply (Qclt_not_eq _ _ H); reflexivity|].
  set (n := length (w :: ws)) in *. assert (Pn : (0 < as_weight n)%Qc) by (apply as_weight_pos; unfold n; cbn; lia).
  assert (P2 : (0 <= as_weight (2 * ms))%Qc) by (rewrite <- as_weight_0; apply as_weight_le; lia).
  assert (Ps : (0 < s)%Qc).
  { eapply Qcle_lt_trans; [|exact H]. rewrite <- (Qcmult_0_l (as_weight n)). apply Qcmult_le_compat_r; auto. now apply Qclt_le_weak. }
  destruct (Qc_eq_bool s 0) eqn:E0; [apply Qc_eq_bool_correct in E0; rewrite E0 in Ps; discriminate|]. f_equal.
  fold (as_weight n). fold (as_weight (2 * ms)). set (x := (as_weight (2 * ms) / (s / as_weight n))%Qc).
  assert (Ex : (x * s = as_weight (2 * ms) * as_weight n)%Qc).
  { unfold x. field. split; intro E; [rewrite E in Pn; discriminate|rewrite E in Ps; discriminate]. }
  assert (Lx : (x < 1)%Qc).
  { apply Qcnot_le_lt. intro K. apply (Qclt_not_le _ _ H). rewrite <- Ex, <- (Qcmult_1_l s) at 1. apply Qcmult_le_compat_r; auto. now apply Qclt_le_weak. }
  assert (Lf : (Qfloor (this x) < 1)%Z).
  { rewrite Zlt_Qlt. eapply Qle_lt_trans; [apply Qfloor_le|]. exact Lx. }
  lia.
Qed.

Lemma c51_heavy {W : WOrd} t n (rd lb : nat -> nat -> W) root ms ws mode : (as_weight (2 * ms) * as_weight (length ws) < @ssum QcSize ws)%Qc ->
  parallel_boruvka_weighted t n rd lb root mode ms ws = Err IndexError.
Proof. intro H. unfold parallel_boruvka_weighted. now rewrite (heavy_neighbors ms ws H). Qed.

(** ** Samples on a line, whole numbers *)
Definition nroot (x : NInf) : NInf := option_map Nat.sqrt x.
Definition squares (xs : list nat) (i j : nat) : NInf :=
  let d := nth i xs 0 - nth j xs 0 + (nth j xs 0 - nth i xs 0) in Some (d * d).
Lemma squares_search xs : xs <> [] -> tree_search (W := NInf) (flat_tree (length xs)) (length xs) (squares xs) (fun _ _ => Some 0) nroot.
Proof.
  intro H. split.
  - apply flat_shape. destruct xs; [congruence|cbn; lia].
  - intros p node x _ _. reflexivity.
  - intros i j _ _. unfold squares. f_equal. f_equal; lia.
  - reflexivity.
  - intros [x|] [y|] K; auto; try discriminate. cbn in *. apply Nat.leb_le in K. apply Nat.leb_le. now apply Nat.sqrt_le_mono.
  - intros [x|] K; [reflexivity|discriminate].
  - intros [x|] K; [reflexivity|discriminate].
Qed.

Definition line_boruvka xs ms ws := parallel_boruvka_weighted (flat_tree (length xs)) (length xs) (squares xs)
  (fun _ _ => Some 0 : NInf) nroot (Reproducible 1 (fun _ _ => [])) ms ws.
Definition line_kruskal xs ms knn_k ws := kruskal_mst_knn_weighted
  (tree_rows (flat_tree (length xs)) (squares xs) (fun _ _ => Some 0 : NInf) nroot (length xs)) ms knn_k ws CLNone.

Lemma connected_label {W} (f : nat -> nat) (M : list (edge W)) x y : (forall e, In e M -> f (esrc e) = f (edst e)) -> connected M x y -> f x = f y.
Proof. intro H. revert x y. apply connected_ind_equiv; auto. congruence. Qed.

(** The reported distance of two samples is less than their distance. *)
Lemma units_refuted : exists t n (rd lb : nat -> nat -> NInf) root mode ms T nbrs core e,
  tree_search t n rd lb root /\ threads_available mode /\ 1 <= 2 * ms <= n /\
  parallel_boruvka_weighted t n rd lb root mode ms (repeat 1%Qc n) = Ok (T, nbrs, core) /\
  In e T /\ wlt (ewt e) (root (rd (esrc e) (edst e))) = true.
Proof.
  exists (flat_tree 3), 3, (squares [0; 4; 8]), (fun _ _ => Some 0), nroot, (Reproducible 1 (fun _ _ => [])), 1. do 3 eexists. exists (0, 1, Some 2).
  split; [apply (squares_search [0; 4; 8]); discriminate|]. split; [cbn; lia|]. split; [lia|]. split; [vm_compute; reflexivity|].
  split; [left; reflexivity|reflexivity].
Qed.

(** The same samples, the same weights, all neighbours: the two algorithms join
    samples in different orders. *)
Lemma order_refuted : exists t n (rd lb : nat -> nat -> NInf) root mode ms T nbrs core T2 nbrs2 core2 a b x y u v,
  tree_search t n rd lb root /\ threads_available mode /\ 1 <= 2 * ms <= n /\
  parallel_boruvka_weighted t n rd lb root mode ms (repeat 1%Qc n) = Ok (T, nbrs, core) /\
  kruskal_mst_knn_weighted (tree_rows t rd lb root n) ms (n - 1) (repeat 1%Qc n) CLNone = Ok (T2, nbrs2, core2) /\
  connected (passing (fun w => wle w a) T) x y /\ ~ connected (passing (fun w => wle w a) T) u v /\
  connected (passing (fun w => wle w b) T2) u v /\ ~ connected (passing (fun w => wle w b) T2) x y.
Proof.
  exists (flat_tree 6), 6, (squares [0; 9; 100; 101; 105; 106]), (fun _ _ => Some 0), nroot, (Reproducible 1 (fun _ _ => [])), 1. do 6 eexists.
  exists (Some 3), (Some 4), 0, 1, 3, 4.
  split; [apply (squares_search [0; 9; 100; 101; 105; 106]); discriminate|]. split; [cbn; lia|]. split; [lia|]. split; [vm_compute; reflexivity|]. split; [vm_compute; reflexivity|].
  split; [|split; [|split]].
  - apply (connected_edge _ (0, 1, Some 3)). vm_compute. auto.
  - intro H. apply (connected_label (fun z => if z <=? 3 then 0 else 1)) in H; [discriminate|]. vm_compute. intros e He.
    repeat (destruct He as [<-|He]; [reflexivity|]). destruct He.
  - apply (connected_edge _ (3, 4, Some 4)). vm_compute. auto.
  - intro H. apply (connected_label (fun z => if z <=? 1 then z else 2)) in H; [discriminate|]. vm_compute. intros e He.
    repeat (destruct He as [<-|He]; [reflexivity|]). destruct He.
Qed.

(** Many light samples: the listed neighbours do not make the weight although the
    samples do, and the core distance is too small. *)
Lemma light_refuted : exists t n (rd lb : nat -> nat -> NInf) root ms knn_k ws T nbrs core i,
  tree_search t n rd lb root /\ length ws = n /\ (forall w, In w ws -> (0 < w)%Qc) /\ sle (s := QcSize) (as_weight ms) (@ssum QcSize ws) = true /\
  kruskal_mst_knn_weighted (tree_rows t rd lb root n) ms knn_k ws CLNone = Ok (T, nbrs, core) /\ i < n /\
  @slt QcSize (weight_where (Sz := QcSize) n ws (fun q => root (rd i q)) (fun x => wle x (nth i core winf))) (as_weight ms) = true.
Proof.
  exists (flat_tree 6), 6, (squares [0; 1; 2; 3; 4; 10]), (fun _ _ => Some 0), nroot, 2, 2, (repeat (Q2Qc (1 # 10)) 5 ++ [Q2Qc (11 # 2)]). do 3 eexists. exists 0.
  split; [apply (squares_search [0; 1; 2; 3; 4; 10]); discriminate|]. split; [reflexivity|]. split.
  { cbn [repeat app]. intros w H. repeat (destruct H as [<-|H]; [reflexivity|]). destruct H. }
  split; [vm_compute; reflexivity|]. split; [vm_compute; reflexivity|]. split; [lia|]. vm_compute. reflexivity.
Qed.

(** Weights of one are not the same as no weights. *)
Lemma ones_refuted : exists t n (rd lb : nat -> nat -> NInf) root ms knn_k T nbrs core T2 nbrs2 core2 i,
  tree_search t n rd lb root /\ ms < n /\ i < n /\
  kruskal_mst_knn_weighted (tree_rows t rd lb root n) ms knn_k (repeat 1%Qc n) CLNone = Ok (T, nbrs, core) /\
  kruskal_mst_knn (Some 0 : NInf) (tree_table t rd lb root n) ms knn_k CLNone = Ok (T2, nbrs2, core2) /\
  wlt (nth i core winf) (nth i core2 winf) = true.
Proof.
  exists (flat_tree 3), 3, (squares [0; 1; 3]), (fun _ _ => Some 0), nroot, 2, 2. do 6 eexists. exists 0.
  split; [apply (squares_search [0; 1; 3]); discriminate|]. split; [lia|]. split; [lia|].
  split; [vm_compute; reflexivity|]. split; [vm_compute; reflexivity|]. reflexivity.
Qed.
