(** Fitting with labelled rows in exact arithmetic. *)
From Coq Require Import List Arith Lia Bool ZArith Permutation QArith Qcanon.
From Verif Require Import Prelude Order Graph Size Num M_Kruskal S_Kruskal M_Linkage S_Linkage M_Condense S_Condense
  M_Select S_Select P_EomValue M_Labels S_Labels P_LabelsEx P_EpsilonTop M_Pipeline S_Pipeline P_PipelineTop P_PipelineRun P_PipelineEx P_PipelineMeaning M_BCubed S_BCubed P_BCScore P_Semi P_SemiTop
  P_UniqueTop M_Estimator S_Estimator P_Estimator P_EstimatorEx M_Detector P_Dbscan P_Constrained M_SemiFit S_SemiFit P_SemiFit.
Import ListNotations.
Local Open Scope nat_scope.

Section Exact.
  Context {Row : Type}.
  Variables (mst_of : list Row -> res (list (edge QInf))) (garbage : nat -> QInf) (by_parent : list (crow QInf NatSize) -> list (crow QInf NatSize))
    (listed : list nat -> list nat) (mcs : nat) (m : selection_method) (a : bool) (e p : Qc) (virtual : bool).
  Variables (ok : Row -> bool) (set_list : list nat -> list nat).
  Hypothesis HB : sorts_by_parent by_parent.
  Hypothesis Hlisted : forall l, Permutation (listed l) l.
  Hypothesis Hm : 2 <= mcs.
  Notation st := (exact_settings (Sz := NatSize) mcs m a e p).
  Notation arith := (ExactArith NatSize nat_as_q).
  (** The runs with and without labels. *)
  Definition exact_semi_run : list (Row * Z) -> res (fitted QInf QInf NatSize) :=
    semi_fast_hdbscan hdbscan_lambda_value ExactLam garbage mst_of arith ExactB by_parent listed st virtual.
  Definition exact_plain_run : list Row -> res (fitted QInf QInf NatSize) :=
    fast_hdbscan hdbscan_lambda_value ExactLam garbage mst_of arith by_parent st.
  Definition exact_semi_fit := semi_fit (la_zero ExactLam) ok set_list exact_semi_run.

  (** Trees of positive distances: the unlabelled runs agree. *)
  Lemma clusters_same (labels : list Z) n M : (e <= 0)%Qc -> (p <= 0)%Qc -> 2 <= n -> spanning_tree n M -> length labels = n ->
    (forall x, x < n -> (nth x labels (-1) < 0)%Z) -> (forall x, In x M -> wlt (Some 0%Qc : QInf) (ewt x) = true) ->
    exists v, exact_semi_clusters garbage by_parent listed st labels virtual M = Ok v /\ exact_clusters garbage by_parent st M = Ok v.
  Proof.
    intros He Hp Hn HM Hl Hx Hpos. 
    destruct (c48_exact garbage by_parent listed mcs m a e p labels virtual n M HB Hlisted Hm HM Hn Hl) as [(ls & ps & T & E & _)|[K _]].
    2:{ exfalso. apply K. apply exact_no_persistence. auto. }
    exists (ls, ps, T). split; auto. apply (c48_unlabelled garbage by_parent listed mcs m a e p labels virtual n M); auto.
    assert (HK : setting_ok hdbscan_lambda_value ExactLam arith by_parent st) by (apply exact_ok; auto; now apply nat_mcs).
    destruct (plain_total hdbscan_lambda_value ExactLam arith garbage by_parent st n M HK HM Hn) as [(ls' & ps' & T' & E' & _)|[K _]].
    2:{ exfalso. apply K. apply exact_no_persistence. auto. }
    assert (T' = T) as <-.
    { unfold exact_semi_clusters, semi_clusters_from_spanning_tree in E. unfold clusters_from_spanning_tree in E'.
      destruct (mst_to_linkage_tree (sort_mst M)) as [L|]; [|discriminate]. cbn [bind] in E, E'.
      unfold semi_clusters_from_linkage_tree in E. unfold clusters_from_linkage_tree in E'.
      destruct (condensed_tree_of _ _ _ _ L) as [T0|]; [|discriminate]. cbn [bind] in E, E'.
      destruct (semi_selected_clusters_of _ _ _ _ _ _ T0 _) as [S0|]; [|discriminate]. destruct (selected_clusters_of _ _ T0 _) as [S1|]; [|discriminate]. cbn [bind] in E, E'.
      destruct (epsilon_clusters_of _ _ T0 S0) as [E0|]; [|discriminate]. destruct (epsilon_clusters_of _ _ T0 S1) as [E1|]; [|discriminate]. cbn [bind] in E, E'.
      destruct (labels_and_strengths_of _ _ T0 _ E0) as [l0|]; [|discriminate]. destruct (labels_and_strengths_of _ _ T0 _ E1) as [l1|]; [|discriminate]. cbn [bind] in E, E'.
      injection E as _ <-. injection E' as _ <-. reflexivity. }
    destruct (plain_explained _ _ _ garbage by_parent st n M ls' ps' T' HK HM Hn E') as (L & T0 & C & F & XX & _).
    apply (exact_lams mcs m a e p n Hp M ls' ps' T' L T0 C F Hpos XX).
  Qed.

  Lemma run_same R M : (e <= 0)%Qc -> (p <= 0)%Qc -> 2 <= length R -> mst_of (map fst R) = Ok M -> spanning_tree (length R) M ->
    (forall r, In r R -> (snd r < 0)%Z) -> (forall x, In x M -> wlt (Some 0%Qc : QInf) (ewt x) = true) -> exact_semi_run R = exact_plain_run (map fst R).
  Proof.
    intros He Hp Hn EM HM Hr Hpos. destruct (clusters_same (map snd R) (length R) M He Hp Hn HM) as (v & E1 & E2); auto.
    { apply map_length. } { intros x Hx. assert (HI : In (nth x (map snd R) (-1)%Z) (map snd R)) by (apply nth_In; now rewrite map_length). apply in_map_iff in HI as (r & <- & HI). auto. }
    unfold exact_semi_run, exact_plain_run, semi_fast_hdbscan, fast_hdbscan. rewrite map_length. destruct (Nat.eqb_spec (length R) 0) as [|_]; [lia|]. destruct (Nat.ltb_spec (length R) 2) as [|_]; [lia|].
    rewrite EM. cbn [bind]. unfold exact_semi_clusters, semi_clusters_from_spanning_tree in E1. unfold exact_clusters, clusters_from_spanning_tree in E2.
    destruct (mst_to_linkage_tree (sort_mst M)) as [L|]; [|discriminate]. cbn [bind] in *. rewrite E1, E2. reflexivity.
  Qed.

  Lemma unlabelled_fit X y M : (e <= 0)%Qc -> (p <= 0)%Qc -> length y = length X -> labelled_somewhere y -> 2 <= length (filter ok X) ->
    mst_of (filter ok X) = Ok M -> spanning_tree (length (filter ok X)) M -> (forall x, In x M -> wlt (Some 0%Qc : QInf) (ewt x) = true) ->
    (forall q x l, nth_error X q = Some x -> ok x = true -> nth_error y q = Some (Some l) -> (l < 0)%Z) ->
    exact_semi_fit X y = fit (la_zero ExactLam) ok set_list exact_plain_run X.
  Proof.
    intros He Hp Hy HL Hn EM HM Hpos Hun. unfold exact_semi_fit, exact_semi_run. rewrite semi_fit_ok by auto. fold exact_semi_run.
    assert (EX : map fst (combine X (map clean_label y)) = X) by (apply combine_fst; now rewrite map_length).
    set (R := filter (fun row : Row * Z => ok (fst row)) (combine X (map clean_label y))).
    assert (ER : map fst R = filter ok X) by (unfold R; rewrite (filter_rows ok), EX; auto).
    assert (HR : length R = length (filter ok X)) by (rewrite <- ER; now rewrite map_length).
    rewrite <- EX at 2. apply (fit_rows ok). fold R. rewrite EX, <- ER. apply (run_same R M); rewrite ?HR, ?ER; auto.
    intros [x z] Hr. cbn [snd]. apply filter_In in Hr as [Hr Hx]. cbn [fst] in Hx. apply In_nth_error in Hr as (q & Eq).
    assert (G : forall (X : list Row) (l : list Z) p x z, nth_error (combine X l) p = Some (x, z) -> nth_error X p = Some x /\ nth_error l p = Some z).
    { induction X0 as [|b X0 IH]; intros [|c l] [|k] u v K; cbn in *; try discriminate; [now injection K as <- <-|eapply IH; eauto]. }
    apply G in Eq as [E1 E2]. rewrite nth_error_map in E2. destruct (nth_error y q) as [[l|]|] eqn:E; try discriminate; cbn in E2; injection E2 as <-; [eapply Hun; eauto|lia].
  Qed.
End Exact.

(** ** Reports about the rows themselves *)
Lemma extends_rows {W V : WOrd} {Sz : SOrd} {Row} (zero : V) ok (X : list Row) (l : list Z) (wt : nat -> Sz) mcs (r0 r : fitted W V Sz) pos others :
  length l = length X -> extends zero (fun row => ok (fst row)) (combine X l) wt mcs r0 r pos others -> extends zero ok X wt mcs r0 r pos others.
Proof.
  intros Hl H. assert (E1 : length (combine X l) = length X) by (rewrite combine_length; lia).
  assert (E2 : length (filter (fun row : Row * Z => ok (fst row)) (combine X l)) = length (filter ok X)).
  { rewrite <- (map_length fst), (filter_rows ok), (combine_fst X l); auto. }
  destruct H as [H1 H2 H3 H4 H5 H6 H7]. rewrite ?E1, ?E2 in *. constructor; auto.
Qed.

Lemma fit_report {W V : WOrd} {Row} (lam : W -> V) (LA : LamArith V) (garbage : nat -> V) (mst_of : list Row -> res (list (edge W))) (ok : Row -> bool) (set_list : list nat -> list nat)
    (A : Arith V NatSize) (B : BArith) (by_parent : list (crow V NatSize) -> list (crow V NatSize)) (listed : list nat -> list nat) (st : settings V NatSize) (virtual : bool)
    (NN : bscore B -> Prop) (X : list Row) (y : list (option Z)) (M : list (edge W)) :
  (forall l, Permutation (set_list l) l) -> setting_ok lam LA A by_parent st -> BLaws B NN -> (forall l, Permutation (listed l) l) ->
  leaves_ok A (la_zero LA) (length (filter ok X)) (fun _ => 1) (min_cluster_size st) -> length y = length X -> labelled_somewhere y ->
  (if forallb ok X then 2 else 3) <= length (filter ok X) -> mst_of (filter ok X) = Ok M -> spanning_tree (length (filter ok X)) M ->
  cluster_selection_persistence st = None ->
  exists given r0 r pos others, places ok X pos /\ length given = length (filter ok X) /\
    (forall i, i < length (filter ok X) -> nth_error given i = option_map clean_label (nth_error y (pos i))) /\
    semi_clusters_from_spanning_tree lam LA A B garbage by_parent listed st given virtual M = Ok (f_labels r0, f_probabilities r0, f_condensed r0) /\
    f_mst r0 = sort_mst M /\ other_rows ok X others /\
    semi_fit (la_zero LA) ok set_list (semi_fast_hdbscan lam LA garbage mst_of A B by_parent listed st virtual) X y = Ok r /\
    (forallb ok X = true -> r = r0) /\ (forallb ok X = false -> extends (Sz := NatSize) (la_zero LA) ok X (fun _ => 1) (min_cluster_size st) r0 r pos others).
Proof.
  intros Hs HK HB Hl Hleaf Hy HL Hn EM HM Hper.
  destruct (semi_report lam LA garbage mst_of ok set_list A B by_parent listed st virtual NN X y M Hs HK HB Hl Hleaf Hy HL Hn EM HM)
    as [(r0 & r & pos & others & ls & ps & T & E & _ & E1 & E2 & E3 & E4 & E5 & Ho & HP & H1 & H2)|[K _]]; [|congruence].
  exists (kept_labels ok X y), r0, r, pos, others. split; auto. split; [now apply kept_length|]. split.
  { intros i Hi. rewrite (kept_places ok X y) with (pos := pos) by auto. apply nth_error_map. }
  split; [rewrite E1, E2, E3; exact E|]. do 4 (split; auto). intro HF. specialize (H2 HF). apply extends_rows in H2; [|now rewrite map_length]. exact H2.
Qed.

(** ** Points on a line *)
Definition line_semi (mcs : nat) (X : list (option Z)) (y : list (option Z)) : res (list Z) :=
  labels_of (exact_semi_fit (pairs_mst (W := QInf) (Some 0%Qc) line_dist 1) (fun _ => None) by_parent_of (fun l => l) mcs Eom false 0%Qc 0%Qc true present (fun l => l) X y).

(** Labels below -1 are no labels, but count as labels. *)
Lemma negative_labels_accepted : exists X y r, (forall l, In (Some l) y -> (l < 0)%Z) /\
  exact_semi_fit (pairs_mst (W := QInf) (Some 0%Qc) line_dist 1) (fun _ => None) by_parent_of (fun l => l) 2 Eom false 0%Qc 0%Qc true present (fun l => l) X y = Ok r /\
  exists x, nth x (f_labels r) 0%Z <> (-1)%Z.
Proof.
  set (X := line_rows). set (y := repeat (Some (-2)%Z) 9).
  assert (H : line_semi 2 X y = Ok [-1; 3; 3; 2; 2; 1; 1; 0; 0]%Z) by (vm_compute; reflexivity). unfold line_semi in H.
  destruct (exact_semi_fit _ _ _ _ _ _ _ _ _ _ _ _ X y) as [r|] eqn:E; [|discriminate]. cbn [labels_of] in H.
  assert (H' : f_labels r = [-1; 3; 3; 2; 2; 1; 1; 0; 0]%Z) by (injection H; auto). clear H.
  exists X, y, r. split; [|split; [exact E|exists 1; rewrite H'; discriminate]]. intros l Hl. apply repeat_spec in Hl. injection Hl as ->. lia.
Qed.
