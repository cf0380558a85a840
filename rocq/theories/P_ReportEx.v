(** Distances of reported links; examples. *)
From Coq Require Import List Arith Lia Bool ZArith Permutation Sorted QArith Qcanon.
From Verif Require Import Prelude Order Graph UF Size Num M_Kruskal M_KruskalEntry S_Kruskal M_Precomputed S_Precomputed M_Linkage M_Condense M_Select M_Labels M_Pipeline
  M_Estimator M_SubClusters S_SubClusters M_LensGraph M_Detector S_Detector M_Report S_Report
  P_Sort P_Equi P_KruskalRun P_KruskalEntry P_Precomputed2 P_EpsilonTop P_PipelineEx P_EstimatorEx P_SubEx P_Detector P_DetectorTop P_DetectorEx P_Report P_ReportTop.
Import ListNotations.
Local Open Scope nat_scope.

Lemma tree_single {W : WOrd} n (M : list (edge W)) : spanning_tree n M -> single_edges M.
Proof.
  intros [_ HA _ _] x y d d' H H'. apply in_split in H as (l1 & l2 & ->). apply in_app_iff in H' as [H'|[H'|H']].
  - exfalso. apply (HA l1 (x, y, d) l2 eq_refl). apply (connected_edge (l1 ++ l2) (x, y, d')). apply in_app_iff. auto.
  - injection H' as <-. auto.
  - exfalso. apply (HA l1 (x, y, d) l2 eq_refl). apply (connected_edge (l1 ++ l2) (x, y, d')). apply in_app_iff. auto.
Qed.

Section Distance.
  Context {W : WOrd} (D : nat -> nat -> W).

  Lemma link_mutual neighbors (core : list W) mst :
    (forall x y, In (Some y) (nth x neighbors []) -> wle (D x y) (nth x core winf) = true) ->
    (forall x y d, In (x, y, d) mst -> greatest_of_three (nth x core winf) (nth y core winf) (D x y) d) ->
    forall x y d, link_distance neighbors core mst x y d -> greatest_of_three (nth x core winf) (nth y core winf) (D x y) d.
  Proof.
    intros HN HM x y d [[Hi ->]|[_ Hi]]; [|now apply HM].
    assert (E : mrd3 (nth x core winf) (nth y core winf) (D x y) = wmax (nth x core winf) (nth y core winf)).
    { unfold mrd3. unfold wmax at 1. replace (wlt _ (D x y)) with false; auto. symmetry. apply wlt_false. eapply wle_trans; [now apply HN|apply wmax_l]. }
    rewrite <- E. apply mrd3_ok.
  Qed.

  Lemma nth_core (zero : W) n ms x : x < n -> nth x (map (brute_core zero D n ms) (seq 0 n)) winf = brute_core zero D n ms x.
  Proof. intro Hx. apply nth_error_nth. rewrite nth_error_map, (nth_error_nth' _ 0) by now rewrite seq_length. now rewrite seq_nth. Qed.

  Lemma brute_within zero n ms x y : 1 < ms -> ms < n -> In y (brute_neighbors D n ms x) -> wle (D x y) (brute_core zero D n ms x) = true.
  Proof.
    intros H1 H2. unfold brute_neighbors, brute_core. destruct (Nat.leb_spec ms 1); [lia|]. destruct (Nat.ltb_spec ms n); [|lia].
    replace (Nat.min (Nat.max 1 ms) (n - 1)) with ms by lia.
    rewrite (isort_map (D x) (D x) (fun w : W => w)) by auto.
    pose proof (isort_sorted (D x) (seq 0 n)) as HS. pose proof (Permutation_length (isort_perm (D x) (seq 0 n))) as HL. rewrite seq_length in HL.
    revert HS HL. generalize (isort (D x) (seq 0 n)). intros l HS HL Hy. apply In_nth_error in Hy as (i & Hi).
    assert (Hi' : i < ms). { assert (Hlt : i < length (firstn ms (skipn 1 l))) by (apply nth_error_Some; congruence). rewrite firstn_length in Hlt. lia. }
    assert (E : nth_error l (S i) = Some y). { destruct l as [|a l]; [simpl in HL; lia|]. cbn [skipn] in Hi. rewrite <- Hi. cbn [nth_error]. rewrite <- (firstn_skipn ms l) at 1. apply nth_error_app1. apply nth_error_Some. congruence. }
    destruct (nth_error l ms) as [z|] eqn:Ez; [|apply nth_error_None in Ez; lia].
    rewrite (nth_error_nth (map (D x) l) ms winf (x := D x z)) by (rewrite nth_error_map, Ez; auto).
    clear - HS E Ez Hi'. revert i ms E Ez Hi'. induction HS as [|a l HS IH HA]; intros i ms E Ez Hi'; [discriminate|].
    destruct ms as [|ms]; [lia|]. cbn in E, Ez. destruct i as [|i].
    - destruct ms as [|ms].
      + rewrite E in Ez. injection Ez as <-. apply wle_refl.
      + destruct l as [|b l]; [discriminate|]. cbn in E, Ez. injection E as ->. inversion HS as [|? ? _ HB]; subst. rewrite Forall_forall in HB. apply HB. eapply nth_error_In; eauto.
    - apply (IH i ms); auto. lia.
  Qed.

  Lemma brute_distances zero n ms mst nbrs core : 1 < ms -> ms < n -> kruskal_mst_brute zero D n ms CLNone = Ok (mst, nbrs, core) ->
    single_edges mst /\ forall x y d, link_distance (map (map Some) nbrs) core mst x y d -> greatest_of_three (nth x core winf) (nth y core winf) (D x y) d.
  Proof.
    intros H1 H2 E. destruct (brute_ok zero D n ms CLNone no_constraint) as (T & nbrs' & core' & E' & Hc & HB); [lia|intros ? ? []|].
    assert (En : nbrs = map (brute_neighbors D n ms) (seq 0 n)).
    { unfold kruskal_mst_brute in E. destruct (run_kruskal_core _ _ _ _) as [[m p]|]; [|discriminate]. cbn [bind] in E.
      destruct (finish_mst n m p); [|discriminate]. cbn [bind] in E. injection E as <- <- <-. auto. }
    rewrite E in E'. injection E' as <- <- <-.
    destruct (bridged_connected n (brute_edges zero D n ms) mst (brute_connected zero D n ms) (brute_edges_range zero D n ms) HB) as [HF HT].
    split; [eapply tree_single; eauto|]. apply link_mutual.
    - intros x y Hy. assert (Hx : x < n).
      { destruct (Nat.lt_ge_cases x n); auto. rewrite nth_overflow in Hy; [destruct Hy|]. rewrite map_length, En, map_length, seq_length. auto. }
      rewrite Hc, nth_core by auto. apply (brute_within zero n ms x y H1 H2).
      assert (EN : nth x (map (map Some) nbrs) [] = map Some (brute_neighbors D n ms x)).
      { rewrite En. apply nth_error_nth. rewrite !nth_error_map, (nth_error_nth' _ 0) by now rewrite seq_length. now rewrite seq_nth. }
      rewrite EN in Hy. apply in_map_iff in Hy as (z & Ez & Hz). injection Ez as ->. auto.
    - intros x y d Hd. assert (Hin : In (x, y, d) (brute_edges zero D n ms)) by (apply HF; auto). apply brute_edges_in in Hin as (Hxy & Hy & ->).
      rewrite Hc, !nth_core by lia. apply mrd3_ok.
  Qed.

  (** With min_samples = 1 neighbours are reported at distance zero. *)
  Lemma brute_zero zero n ms mst nbrs core : ms <= 1 -> kruskal_mst_brute zero D n ms CLNone = Ok (mst, nbrs, core) ->
    forall x y d, x < n -> y < n -> In (Some y) (nth x (map (map Some) nbrs) []) -> link_distance (map (map Some) nbrs) core mst x y d -> d = zero.
  Proof.
    intros H1 E x y d Hx Hy Hin [[_ ->]|[Hn _]]; [|contradiction].
    assert (Hc : core = map (brute_core zero D n ms) (seq 0 n)).
    { unfold kruskal_mst_brute in E. destruct (run_kruskal_core _ _ _ _) as [[m p]|]; [|discriminate]. cbn [bind] in E.
      destruct (finish_mst n m p); [|discriminate]. cbn [bind] in E. injection E as <- <- <-. auto. }
    rewrite Hc, !nth_core by auto. unfold brute_core. destruct (Nat.leb_spec ms 1); [|lia]. unfold wmax. destruct (wlt zero zero); auto.
  Qed.
End Distance.

(** ** Without rounding *)
Definition exact_argsort (ws : list QInf) : list nat := isort (fun i => nth i ws winf) (seq 0 (length ws)).
Lemma exact_argsorts : argsorts exact_argsort.
Proof.
  intro ws. split; [apply Permutation_sym, isort_perm|]. unfold exact_argsort, take.
  rewrite <- (isort_map (fun i => nth i ws winf) (fun i => nth i ws winf) (fun w : QInf => w)) by auto. apply isort_sorted.
Qed.

Definition graph_run (ms mcs sub_mcs : nat) (X : list (option Z)) (lens : lens_input QInf QInf (option Z)) : res (detected QInf QInf * list (core_graph QInf)) :=
  let rows := filter present X in
  let* (ra, core) := kruskal_mst_brute (Some 0%Qc : QInf) (line_distances rows) (length rows) ms CLNone in
  let neighbors := map (map Some) (snd ra) in
  let* r := fit (W := QInf) (V := QInf) (Sz := NatSize) (la_zero ExactLam) present (fun l => l)
    (fast_hdbscan hdbscan_lambda_value ExactLam (fun _ => None) (fun _ => Ok (fst ra)) (ExactArith NatSize nat_as_q) by_parent_of
       (exact_settings (Sz := NatSize) mcs Eom false 0%Qc 0%Qc)) X in
  let* d := detect (fun w => w) (sort_with exact_argsort) exact_average (Some 0%Qc) (Some 1%Qc) (Some 0%Qc) (exact_tree Eom sub_mcs)
    (propagated exact_inv exact_add (Some 0%Qc : QInf) (length X)) false X (f_condensed r) (f_labels r) (f_probabilities r) neighbors (f_mst r) lens in
  let* gs := stored_graphs (fun w => w) exact_argsort (Some 0%Qc : QInf) (Some 0%Qc : QInf) X (f_condensed r) (f_labels r) (f_probabilities r) neighbors core (f_mst r) lens in
  Ok (d, gs).

(** Numbers as fractions, to compare them by computation. *)
Definition shown (w : QInf) : option (Z * positive) := match w with Some a => Some (Qnum (this a), Qden (this a)) | None => None end.
Definition seen_graph (r : res (detected QInf QInf * list (core_graph QInf))) :=
  match r with
  | Ok (d, gs) => Some (d_points d, map (map (fun e => let '(i, j, w, d) := e in (i, j, shown w, shown d))) (approximation_graph gs (d_points d)),
                        map (map (fun e => (esrc e, edst e))) (spanning_trees d))
  | Err _ => None
  end.
Lemma seen_graph_ok r p g t : seen_graph r = Some (p, g, t) -> exists d gs, r = Ok (d, gs) /\ d_points d = p /\
  map (map (fun e : nat * nat * QInf * QInf => let '(i, j, w, d) := e in (i, j, shown w, shown d))) (approximation_graph gs (d_points d)) = g /\
  map (map (fun e => (esrc e, edst e))) (spanning_trees d) = t.
Proof. destruct r as [[d gs]|]; [|discriminate]. intro H. injection H as H1 H2 H3. exists d, gs. subst. auto. Qed.

Lemma in_rows {A B} (f : A -> B) (l : list (list A)) k b : In b (nth k (map (map f) l) []) -> exists a, In a (nth k l []) /\ f a = b.
Proof. change (@nil B) with (map f []). rewrite map_nth. intro H. apply in_map_iff in H as (a & E & H). eauto. Qed.

Definition graph_check (P : list (list nat) -> list (list (nat * nat * option (Z * positive) * option (Z * positive))) -> list (list (nat * nat)) -> Prop) r : Prop :=
  match seen_graph r with Some (p, g, t) => P p g t | None => False end.
Lemma graph_check_ok P r : graph_check P r -> exists d gs, r = Ok (d, gs) /\
  P (d_points d) (map (map (fun e : nat * nat * QInf * QInf => let '(i, j, w, d) := e in (i, j, shown w, shown d))) (approximation_graph gs (d_points d)))
    (map (map (fun e => (esrc e, edst e))) (spanning_trees d)).
Proof. unfold graph_check. destruct r as [[d gs]|]; cbn; [|tauto]. eauto. Qed.

(** Two clusters; the rows of the first are 7, 9 and 10. *)
Lemma some_graph : graph_check (fun p _ t => p = [[7; 9; 10]; [0; 1; 3; 4; 5; 6]] /\ In (0, 1) (nth 0 t [])) (graph_run 2 3 2 some_X (LensValues some_lens)).
Proof. vm_compute. auto. Qed.
Lemma tree_found r : graph_check (fun p _ t => p = [[7; 9; 10]; [0; 1; 3; 4; 5; 6]] /\ In (0, 1) (nth 0 t [])) r ->
  exists d gs e, r = Ok (d, gs) /\ d_points d = [[7; 9; 10]; [0; 1; 3; 4; 5; 6]] /\ In e (nth 0 (spanning_trees d) []) /\ esrc e = 0 /\ edst e = 1.
Proof.
  intro H. apply graph_check_ok in H as (d & gs & Er & Hp & Ht). apply in_rows in Ht as (e & He & Ee). injection Ee as E1 E2. exists d, gs, e. auto.
Qed.
Lemma spanning_trees_wrong : exists X lens d gs e, graph_run 2 3 2 X lens = Ok (d, gs) /\ d_points d = [[7; 9; 10]; [0; 1; 3; 4; 5; 6]] /\
  In e (nth 0 (spanning_trees d) []) /\ esrc e = 0 /\ edst e = 1.
Proof. exact (ex_intro _ some_X (ex_intro _ (LensValues some_lens) (tree_found _ some_graph))). Qed.

(** Six samples on a line. *)
Definition six_X : list (option Z) := [Some 0; Some 1; Some 3; Some 20; Some 21; Some 23]%Z.
Definition zero_shown : option (Z * positive) := Some (0%Z, 1%positive).
Definition two_shown : option (Z * positive) := Some (2%Z, 1%positive).
Lemma six_graph : graph_check (fun _ g _ => In (5, 4, Some (1%Z, 1%positive), zero_shown) (nth 0 g []) /\ In (4, 5, Some (1%Z, 1%positive), two_shown) (nth 0 g []))
  (graph_run 1 2 2 six_X (LensValues (repeat (q 1) 6))).
Proof. vm_compute. auto 8. Qed.
Lemma shown_inj w a : shown w = shown (Some a) -> w = Some a.
Proof.
  destruct w as [b|]; [|discriminate]. intro E. injection E as E1 E2. f_equal. apply Qc_is_canon. destruct b as [[n1 d1] c1], a as [[n2 d2] c2]. cbn in *. subst. reflexivity.
Qed.
Lemma shown_zero : zero_shown = shown (q 0).
Proof. vm_compute. reflexivity. Qed.
Lemma shown_two : two_shown = shown (q 2).
Proof. vm_compute. reflexivity. Qed.
Lemma zero_found r : graph_check (fun _ g _ => In (5, 4, Some (1%Z, 1%positive), zero_shown) (nth 0 g []) /\ In (4, 5, Some (1%Z, 1%positive), two_shown) (nth 0 g [])) r ->
  exists d gs w w', r = Ok (d, gs) /\
    In (5, 4, w, q 0) (nth 0 (approximation_graph gs (d_points d)) []) /\ In (4, 5, w', q 2) (nth 0 (approximation_graph gs (d_points d)) []).
Proof.
  intro H. apply graph_check_ok in H as (d & gs & Er & H1 & H2).
  apply in_rows in H1 as ([[[i j] w] v] & I1 & E1). apply in_rows in H2 as ([[[i' j'] w'] v'] & I2 & E2). rewrite shown_zero in E1. rewrite shown_two in E2.
  injection E1 as -> -> _ E1. injection E2 as -> -> _ E2.
  assert (v = q 0) as -> by (apply shown_inj; exact E1). assert (v' = q 2) as -> by (apply shown_inj; exact E2). exists d, gs, w, w'. auto.
Qed.
Lemma single_sample_wrong : exists X lens d gs w w', graph_run 1 2 2 X lens = Ok (d, gs) /\
  In (5, 4, w, q 0) (nth 0 (approximation_graph gs (d_points d)) []) /\ In (4, 5, w', q 2) (nth 0 (approximation_graph gs (d_points d)) []).
Proof. exact (ex_intro _ six_X (ex_intro _ (LensValues (repeat (q 1) 6)) (zero_found _ six_graph))). Qed.
