(** Centralities of fitted clusters, and branches of moved data. *)
From Coq Require Import List Arith Bool ZArith Permutation QArith Qcanon Lia.
From Verif Require Import Prelude Order Graph Size Num M_Kruskal M_KruskalEntry S_Kruskal M_Linkage M_Condense M_Select M_Labels M_Pipeline S_Pipeline M_Estimator M_Layers
  M_SubClusters M_LensGraph M_Detector M_Centrality S_Centrality P_Sort P_Equi P_PipelineTop P_PipelineRun P_PipelineEx P_Estimator P_SubRun P_Detector P_DetectorTop P_Centrality M_Precomputed P_KruskalEntry P_PrecomputedTop.
Import ListNotations.
Local Open Scope nat_scope.

Lemma gather_values {A} (a : list A) points vs : gather a points = Ok vs <-> values_at a points vs.
Proof.
  revert vs. induction points as [|p points IH]; intro vs; cbn [gather].
  - split; [intros [= <-]; constructor|]. intro H. inversion H. auto.
  - destruct (nth_error a p) as [x|] eqn:E; [|split; [discriminate|intro H; inversion H; congruence]].
    destruct (gather a points) as [ys|]; cbn [bind].
    + split; [intros [= <-]; constructor; auto; now apply IH|]. intro H. inversion H as [|? y ? ys' E1 H1]; subst. apply IH in H1. injection H1 as <-. congruence.
    + split; [discriminate|]. intro H. inversion H as [|? y ? ys' E1 H1]; subst. apply IH in H1. discriminate.
Qed.
Lemma gather_map {A B} (g : A -> B) (a : list A) points : gather (map g a) points = match gather a points with Ok v => Ok (map g v) | Err e => Err e end.
Proof.
  induction points as [|p points IH]; auto. cbn [gather]. rewrite nth_error_map. destruct (nth_error a p); auto. cbn [option_map]. rewrite IH. destruct (gather a points); auto.
Qed.
Lemma gather_total {A} (a : list A) points : (forall p, In p points -> p < length a) -> exists vs, gather a points = Ok vs.
Proof.
  induction points as [|p points IH]; intro H; cbn [gather]; eauto. destruct (nth_error a p) as [x|] eqn:E.
  - destruct IH as (vs & ->); [intros; apply H; now right|]. cbn. eauto.
  - apply nth_error_None in E. specialize (H p (or_introl eq_refl)). lia.
Qed.

Section Spec.
  Context {W V : WOrd} (dim : nat) (inverse_root : Qc -> W) (as_q : V -> Qc).

  Lemma centrality_ok data (probs : list V) points vs :
    compute_centrality dim inverse_root as_q data probs points = Ok vs <->
    exists rows ss c, values_at data points rows /\ values_at probs points ss /\ qsum (map as_q ss) <> 0%Qc /\ balances dim rows (map as_q ss) c /\
      vs = map (fun r => inverse_root (square dim (minus dim r c))) rows.
  Proof.
    unfold compute_centrality. split.
    - destruct (gather data points) as [rows|] eqn:E1; [|discriminate]. destruct (gather probs points) as [ss|] eqn:E2; [|discriminate]. cbn [bind].
      assert (HL : length rows = length (map as_q ss)) by (rewrite map_length, (gather_length _ _ _ E1), (gather_length _ _ _ E2); auto).
      pose proof (average_spec dim rows (map as_q ss) HL) as H. destruct (average_of dim rows (map as_q ss)) as [c|]; [|discriminate]. cbn [bind]. intros [= <-].
      apply gather_values in E1, E2. exists rows, ss, c. destruct H. auto 6.
    - intros (rows & ss & c & E1 & E2 & Ht & Hb & ->). apply gather_values in E1, E2. rewrite E1, E2. cbn [bind].
      assert (HL : length rows = length (map as_q ss)) by (rewrite map_length, (gather_length _ _ _ E1), (gather_length _ _ _ E2); auto).
      pose proof (average_spec dim rows (map as_q ss) HL) as H. destruct (average_of dim rows (map as_q ss)) as [c'|]; [|destruct H; contradiction]. cbn [bind].
      destruct H as [_ H]. now rewrite (balances_unique dim rows (map as_q ss) c' c).
  Qed.

  Lemma centrality_fails data (probs : list V) points rows ss : values_at data points rows -> values_at probs points ss ->
    (compute_centrality dim inverse_root as_q data probs points = Err ZeroDivisionError <-> qsum (map as_q ss) = 0%Qc).
  Proof.
    intros E1 E2. apply gather_values in E1, E2. unfold compute_centrality. rewrite E1, E2. cbn [bind].
    assert (HL : length rows = length (map as_q ss)) by (rewrite map_length, (gather_length _ _ _ E1), (gather_length _ _ _ E2); auto).
    pose proof (average_spec dim rows (map as_q ss) HL) as H. destruct (average_of dim rows (map as_q ss)) as [c'|e]; cbn [bind].
    - destruct H. split; [discriminate|contradiction].
    - destruct H as [-> H]. tauto.
  Qed.

  (** Clusters as a run reports them. *)
  Lemma clusters_have_centre (zero one : V) n ls ps data : strength_number zero one as_q -> clustering zero one n ls ps -> length data = n ->
    forall k x, nth_error ls x = Some (Z.of_nat k) -> exists vs, compute_centrality dim inverse_root as_q data ps (members ls (Z.of_nat k)) = Ok vs.
  Proof.
    intros HS HC HD k x Hx.
    assert (HB : forall p, In p (members ls (Z.of_nat k)) -> p < n).
    { intros p Hp. apply members_in in Hp. rewrite <- (cl_labels _ _ _ _ _ HC). apply nth_error_Some. congruence. }
    destruct (gather_total data (members ls (Z.of_nat k))) as (rows & E1); [rewrite HD; auto|].
    destruct (gather_total ps (members ls (Z.of_nat k))) as (ss & E2); [rewrite (cl_strengths _ _ _ _ _ HC); auto|].
    destruct (compute_centrality dim inverse_root as_q data ps (members ls (Z.of_nat k))) as [vs|e] eqn:E; eauto. exfalso.
    assert (HL : length rows = length (map as_q ss)) by (rewrite map_length, (gather_length _ _ _ E1), (gather_length _ _ _ E2); auto).
    unfold compute_centrality in E. rewrite E1, E2 in E. cbn [bind] in E. pose proof (average_spec dim rows (map as_q ss) HL) as H.
    destruct (average_of dim rows (map as_q ss)); [discriminate|]. destruct H as [_ H].
    assert (Hlt : x < n) by (rewrite <- (cl_labels _ _ _ _ _ HC); apply nth_error_Some; congruence).
    destruct (cl_full _ _ _ _ _ HC x Hlt) as (y & Hy & El & Ep). { rewrite (nth_error_nth _ _ _ Hx). lia. }
    assert (Hm : In y (members ls (Z.of_nat k))).
    { apply members_in. rewrite (nth_error_nth _ _ _ Hx) in El. rewrite <- El. apply nth_error_nth'. now rewrite (cl_labels _ _ _ _ _ HC). }
    apply gather_values in E2.
    assert (Hin : forall p, In p (members ls (Z.of_nat k)) -> In (nth p ps zero) ss /\ True) by (intros p Hp; split; auto; clear - E2 Hp HB HC;
      revert Hp HB E2; generalize (members ls (Z.of_nat k)); intros l Hp HB E2; induction E2 as [|a b l' l'' E F IH]; [destruct Hp|];
      destruct Hp as [<-|Hp]; [left; symmetry; now apply nth_error_nth|right; apply IH; auto; intros; apply HB; now right]).
    assert (Hall : forall v, In v ss -> exists p, p < n /\ v = nth p ps zero).
    { clear - E2 HB. revert HB E2. generalize (members ls (Z.of_nat k)). intros l HB E2. induction E2 as [|a b l' l'' E F IH]; intros v Hv; [destruct Hv|].
      destruct Hv as [<-|Hv]; [exists a; split; [apply HB; now left|symmetry; now apply nth_error_nth]|]. apply IH; auto. intros; apply HB; now right. }
    assert (HP : (0 < qsum (map as_q ss))%Qc).
    { apply (qsum_positive as_q ss one).
      - intros v Hv. destruct (Hall v Hv) as (p & Hp & ->). destruct (cl_unit _ _ _ _ _ HC p Hp). now apply (sn_pos _ _ _ HS).
      - destruct (Hin y Hm) as [Hi _]. now rewrite Ep in Hi.
      - apply (sn_one _ _ _ HS). }
    rewrite H in HP. now apply Qclt_not_eq in HP.
  Qed.
End Spec.

(** After fitting data without missing values: the centralities of all clusters. *)
Lemma fitted_centralities {W V : WOrd} (dim : nat) (inverse_root : Qc -> W) (as_q : V -> Qc) (lam : W -> V) (LA : LamArith V) (garbage : nat -> V)
    (mst_of : list point -> res (list (edge W))) (A : Arith V NatSize) by_parent (st : settings V NatSize) rows r k :
  setting_ok lam LA A by_parent st -> root_ok st -> 2 <= length rows -> (forall M, mst_of rows = Ok M -> spanning_tree (length rows) M) ->
  strength_number (la_zero LA) (la_one LA) as_q ->
  fast_hdbscan lam LA garbage mst_of A by_parent st rows = Ok r -> (forall e, In e (f_mst r) -> wlt (la_zero LA) (lam (ewt e)) = true) ->
  num_clusters (f_labels r) = Ok k ->
  centralities dim inverse_root as_q rows (f_probabilities r) (map (fun c => members (f_labels r) (Z.of_nat c)) (seq 0 k)) = Ok tt.
Proof.
  intros HK HR Hn HM HS E Hpos Ek. destruct (fast_run lam LA garbage mst_of A by_parent st rows r HK Hn HM E) as ((M & EM & EMr & ER) & _).
  pose proof (HM M EM) as HT. assert (Hpos' : forall e, In e M -> wlt (la_zero LA) (lam (ewt e)) = true) by (intros e He; apply Hpos; rewrite EMr; eapply Permutation_in; [apply sort_mst_perm|exact He]).
  destruct (plain_sizes lam LA A garbage by_parent st (length rows) M _ _ _ HK HR HT Hn Hpos' ER) as [_ (m & Hnum)].
  destruct (plain_total lam LA A garbage by_parent st (length rows) M HK HT Hn) as [(ls & ps & T & E1 & HC & _)|[_ E1]]; [|congruence].
  assert (Q : ls = f_labels r /\ ps = f_probabilities r) by (rewrite ER in E1; now injection E1 as <- <- _). destruct Q as [-> ->].
  assert (G : forall c, c < k -> exists x, nth_error (f_labels r) x = Some (Z.of_nat c)).
  { intros c Hc. unfold num_clusters in Ek. destruct (forallb _ (f_labels r)) eqn:EL; [discriminate|].
    assert (Htop : exists top, zmax (f_labels r) = Ok top /\ k = Z.to_nat (top + 1)) by (destruct (zmax (f_labels r)) as [top|]; [|discriminate]; exists top; split; auto; now injection Ek).
    destruct Htop as (top & Et & ->).
    assert (Hin : In top (f_labels r)).
    { unfold zmax in Et. destruct (f_labels r) as [|a l]; [discriminate|]. injection Et as <-. clear. revert a. induction l as [|b l IH]; intro a; cbn [fold_left]; [left; auto|].
      destruct (IH (Z.max a b)) as [H|H].
      - rewrite <- H. destruct (Z.max_spec a b) as [[_ ->]|[_ ->]]; [right; left|left]; auto.
      - right. right. auto. }
    apply In_nth_error in Hin as (x & Hx). assert (Hlt : x < length rows) by (rewrite <- (cl_labels _ _ _ _ _ HC); apply nth_error_Some; congruence).
    assert (Hr : (0 <= top < Z.of_nat m)%Z). { apply Hnum. split; [lia|]. exists x. split; auto. now apply nth_error_nth. }
    destruct (Hnum (Z.of_nat c)) as [H _]. destruct H as [_ (y & Hy & Ey)]; [lia|]. exists y. rewrite <- Ey. apply nth_error_nth'. now rewrite (cl_labels _ _ _ _ _ HC). }
  assert (G' : forall cs, (forall c, In c cs -> c < k) -> centralities dim inverse_root as_q rows (f_probabilities r) (map (fun c => members (f_labels r) (Z.of_nat c)) cs) = Ok tt).
  { induction cs as [|c cs IH]; intro H; auto. cbn [map centralities]. destruct (G c (H c (or_introl eq_refl))) as (x & Hx).
    destruct (clusters_have_centre dim inverse_root as_q (la_zero LA) (la_one LA) (length rows) (f_labels r) (f_probabilities r) rows HS HC eq_refl c x Hx) as (vs & ->).
    cbn [bind]. apply IH. intros; apply H; now right. }
  apply G'. intros c Hc. apply in_seq in Hc. lia.
Qed.

(** ** Moving the data *)
Lemma take_rows_map {A B} (g : A -> B) (X : list A) index : take_rows (map g X) index = map g (take_rows X index).
Proof. unfold take_rows. induction index as [|i index IH]; auto. cbn [flat_map]. rewrite map_app, <- IH, nth_error_map. destruct (nth_error X i); auto. Qed.
Lemma finite_index_map {A} (ok : A -> bool) (g : A -> A) (X : list A) : (forall x, ok (g x) = ok x) -> finite_index_of ok (map g X) = finite_index_of ok X.
Proof.
  intro H. unfold finite_index_of. rewrite map_length. apply filter_ext. intro i. rewrite nth_error_map. destruct (nth_error X i); cbn; auto.
Qed.
Lemma fit_map {W V : WOrd} {Sz : SOrd} {Row} (zero : V) (ok : Row -> bool) set_list (run : list Row -> res (fitted W V Sz)) (g : Row -> Row) X :
  (forall x, ok (g x) = ok x) -> (forall rows, run (map g rows) = run rows) -> fit zero ok set_list run (map g X) = fit zero ok set_list run X.
Proof.
  intros Ho Hr. unfold fit. rewrite finite_index_map, take_rows_map, !Hr, map_length by auto.
  replace (forallb ok (map g X)) with (forallb ok X) by (clear - Ho; induction X as [|x X IH]; auto; cbn; now rewrite Ho, IH). auto.
Qed.

Section Brute.
  Context {W : WOrd} (D D' : nat -> nat -> W).
  Hypothesis HD : forall i j, D i j = D' i j.
  Lemma brute_core_ext zero n ms i : brute_core zero D n ms i = brute_core zero D' n ms i.
  Proof. unfold brute_core. now rewrite (map_ext (D i) (D' i)). Qed.
  Lemma isort_ext i l : isort (D i) l = isort (D' i) l.
  Proof. rewrite <- (map_id (isort (D' i) l)), <- (isort_map (fun x => x) (D' i) (D i)); [now rewrite map_id|]. intros. now rewrite !HD. Qed.
  Lemma kruskal_brute_ext zero n ms cl : kruskal_mst_brute zero D n ms cl = kruskal_mst_brute zero D' n ms cl.
  Proof.
    assert (E : brute_edges zero D n ms = brute_edges zero D' n ms).
    { unfold brute_edges. apply flat_map_ext. intro i. apply map_ext. intro j. now rewrite !brute_core_ext, HD. }
    unfold kruskal_mst_brute. rewrite E. rewrite (map_ext (brute_core zero D n ms) (brute_core zero D' n ms)) by (intro; apply brute_core_ext).
    rewrite (map_ext (brute_neighbors D n ms) (brute_neighbors D' n ms)) by (intro i; unfold brute_neighbors; now rewrite isort_ext). auto.
  Qed.
End Brute.

Lemma map_res_ext {A B} (f g : A -> res B) l : (forall x, f x = g x) -> map_res f l = map_res g l.
Proof. intro H. induction l as [|x l IH]; auto. cbn. now rewrite H, IH. Qed.

Section Detect.
  Context {W V : WOrd} {Sz : SOrd} {Row : Type}.
  Variables (round : W -> W) (sort_row : list (nat * W) -> list (nat * W)) (average : V -> V -> V) (zero one : V) (no_lens : W)
    (cluster_of : list (edge W) -> res (list Z * list V))
    (propagate : joined V W * list (list nat * sub_result W V) -> res ((nat -> Z) * (nat -> Z))).

  Lemma find_ext labels probs neighbors mst (l1 l2 : nat -> list W) : (forall k, l1 k = l2 k) ->
    find_sub_clusters round sort_row average zero one no_lens cluster_of labels probs neighbors mst l1 =
    find_sub_clusters round sort_row average zero one no_lens cluster_of labels probs neighbors mst l2.
  Proof.
    intro H. unfold find_sub_clusters, sub_clusters_per_cluster. destruct (num_clusters labels) as [k|]; [|auto]. cbn [bind].
    rewrite (map_res_ext (sub_clusters_in_cluster round sort_row one cluster_of labels neighbors mst l1) (sub_clusters_in_cluster round sort_row one cluster_of labels neighbors mst l2))
      by (intro c; unfold sub_clusters_in_cluster; now rewrite H).
    destruct (map_res _ (seq 0 k)) as [rs|]; [|auto]. cbn [bind].
    rewrite (map_ext (piece_of labels l1) (piece_of labels l2)) by (intro kr; unfold piece_of; now rewrite H). auto.
  Qed.

  Lemma detect_rows_map flag (g : Row -> Row) data labels probs neighbors mst (l1 l2 : list nat -> list W) : (forall pts, l1 pts = l2 pts) ->
    detect_rows round sort_row average zero one no_lens cluster_of propagate flag (map g data) labels probs neighbors mst l1 =
    detect_rows round sort_row average zero one no_lens cluster_of propagate flag data labels probs neighbors mst l2.
  Proof.
    intro H. unfold detect_rows. rewrite map_length.
    rewrite (find_ext labels _ neighbors mst (fun k => l1 (members labels (Z.of_nat k))) (fun k => l2 (members labels (Z.of_nat k)))) by auto. auto.
  Qed.

  Lemma detect_map flag (g : Row -> Row) data (T : list (crow V Sz)) labels probs neighbors mst (f : list Row -> list V -> list nat -> list W) :
    (forall data probs pts, f (map g data) probs pts = f data probs pts) ->
    detect round sort_row average zero one no_lens cluster_of propagate flag (map g data) T labels probs neighbors mst (LensCallback f) =
    detect round sort_row average zero one no_lens cluster_of propagate flag data T labels probs neighbors mst (LensCallback f).
  Proof.
    intro H. unfold detect. rewrite map_length. destruct (forallb _ labels); auto. destruct (_ =? 0).
    - cbn [lens_of bind]. now rewrite (detect_rows_map flag g data labels probs neighbors mst _ (f data probs)).
    - rewrite gather_map. destruct (gather data _) as [data'|]; [|auto]. cbn [bind]. destruct (gather labels _) as [labels'|]; [|auto]. cbn [bind].
      destruct (gather probs _) as [probs'|]; [|auto]. cbn [bind lens_of]. now rewrite (detect_rows_map flag g data' labels' probs' neighbors mst _ (f data' probs')).
  Qed.
End Detect.

Section Moved.
  Context {W V : WOrd}.
  Variable complete : point -> bool.
  Variables (dim : nat) (root inverse_root : Qc -> W) (as_q : V -> Qc) (wzero : W) (min_samples : nat).
  Variable f : point -> point.
  Hypothesis Hf : motion dim f.
  Hypothesis Hc : forall p, complete (f p) = complete p.

  Lemma centrality_moved data (probs : list V) points : compute_centrality dim inverse_root as_q (map f data) probs points = compute_centrality dim inverse_root as_q data probs points.
  Proof.
    unfold compute_centrality. rewrite gather_map. destruct (gather data points) as [rows|] eqn:E1; [|auto]. cbn [bind]. destruct (gather probs points) as [ss|] eqn:E2; [|auto]. cbn [bind].
    assert (HL : length rows = length (map as_q ss)) by (rewrite map_length, (gather_length _ _ _ E1), (gather_length _ _ _ E2); auto).
    pose proof (motion_average dim f Hf rows (map as_q ss) HL) as H.
    destruct (average_of dim rows (map as_q ss)), (average_of dim (map f rows) (map as_q ss)); try contradiction; cbn [bind]; [|now subst].
    f_equal. rewrite map_map. apply map_ext. intro r. now rewrite H.
  Qed.
  Lemma euclidean_moved rows i j : euclidean dim root (map f rows) i j = euclidean dim root rows i j.
  Proof. unfold euclidean. rewrite !nth_error_map. destruct (nth_error rows i), (nth_error rows j); auto. cbn [option_map]. now rewrite motion_square. Qed.
  Lemma points_mst_moved rows : points_mst dim root wzero min_samples (map f rows) = points_mst dim root wzero min_samples rows.
  Proof. unfold points_mst. rewrite map_length. apply kruskal_brute_ext. intros. apply euclidean_moved. Qed.

  Variables (lam : W -> V) (LA : LamArith V) (garbage : nat -> V) (A : Arith V NatSize) (by_parent : list (crow V NatSize) -> list (crow V NatSize))
    (st : settings V NatSize) (set_list : list nat -> list nat).
  Variables (round : W -> W) (sort_row : list (nat * W) -> list (nat * W)) (average : V -> V -> V) (one : V) (no_lens : W)
    (cluster_of : list (edge W) -> res (list Z * list V))
    (propagate : joined V W * list (list nat * sub_result W V) -> res ((nat -> Z) * (nat -> Z))).

  Lemma hdbscan_moved X : hdbscan_points complete dim root wzero min_samples lam LA garbage A by_parent st set_list (map f X) =
                          hdbscan_points complete dim root wzero min_samples lam LA garbage A by_parent st set_list X.
  Proof.
    unfold hdbscan_points. apply fit_map; auto. intro rows. unfold fast_hdbscan. rewrite map_length, points_mst_moved. destruct (length rows =? 0); auto.
    destruct (length rows <? 2); auto. unfold degenerate. now rewrite !map_length.
  Qed.

  Lemma branches_moved flag sides X :
    branches_of_points complete dim root inverse_root as_q wzero min_samples lam LA garbage A by_parent st set_list round sort_row average one no_lens cluster_of propagate
      flag sides (map f X) =
    branches_of_points complete dim root inverse_root as_q wzero min_samples lam LA garbage A by_parent st set_list round sort_row average one no_lens cluster_of propagate
      flag sides X.
  Proof.
    unfold branches_of_points. rewrite hdbscan_moved. destruct (hdbscan_points _ _ _ _ _ _ _ _ _ _ _ _ X) as [r|]; [|auto]. cbn [bind].
    replace (filter complete (map f X)) with (map f (filter complete X)) by (clear - Hc; induction X as [|x X IH]; auto; cbn; rewrite Hc; destruct (complete x); cbn; now rewrite IH).
    rewrite points_mst_moved. destruct (points_mst dim root wzero min_samples (filter complete X)) as [m|]; [|auto]. cbn [bind].
    rewrite detect_map by (intros; unfold centrality_lens; now rewrite centrality_moved).
    destruct (detect _ _ _ _ _ _ _ _ _ X _ _ _ _ _ _) as [d|]; [|auto]. cbn [bind].
    replace (centralities dim inverse_root as_q (map f X) (f_probabilities r) (d_points d)) with (centralities dim inverse_root as_q X (f_probabilities r) (d_points d)); auto.
    induction (d_points d) as [|pts l IH]; auto. cbn [centralities]. rewrite centrality_moved. destruct (compute_centrality dim inverse_root as_q X (f_probabilities r) pts); auto.
  Qed.
End Moved.

Section PointsTree.
  Context {W : WOrd}.
  Variables (dim : nat) (root : Qc -> W) (zero : W) (ms : nat).

  Lemma square_minus a b : square dim (minus dim a b) = squared_distance dim a b.
  Proof.
    unfold square, squared_distance. f_equal. apply map_ext_in. intros j Hj. apply in_seq in Hj. unfold minus.
    rewrite (nth_indep _ 0%Qc ((fun j => nth j a 0 - nth j b 0)%Qc 0)) by (rewrite map_length, seq_length; lia).
    rewrite (map_nth (fun j => nth j a 0 - nth j b 0)%Qc). rewrite seq_nth by lia. reflexivity.
  Qed.

  Lemma points_tree rows : 0 < length rows ->
    exists T nbrs core, points_mst dim root zero ms rows = Ok (T, nbrs, core) /\ spanning_tree (length rows) T /\
    forall i j w, In (i, j, w) T -> exists a b, nth_error rows i = Some a /\ nth_error rows j = Some b /\
      w = mrd3 (nth i core winf) (nth j core winf) (root (squared_distance dim a b)).
  Proof.
    intro Hn. destruct (c03_brute zero (euclidean dim root rows) (length rows) ms Hn) as (T & nbrs & core & E & HT & HM).
    exists T, nbrs, core. split; auto. split; auto. intros i j w Hin. apply (msf_incl _ _ HM) in Hin.
    apply brute_edges_in in Hin as (H1 & H2 & ->).
    destruct (nth_error rows i) as [a|] eqn:Ea; [|apply nth_error_None in Ea; lia].
    destruct (nth_error rows j) as [b|] eqn:Eb; [|apply nth_error_None in Eb; lia].
    exists a, b. split; auto. split; auto.
    assert (EC : core = map (brute_core zero (euclidean dim root rows) (length rows) ms) (seq 0 (length rows))).
    { unfold kruskal_mst_brute in E. destruct (run_kruskal_core _ _ _ _) as [[m p]|]; [|discriminate]. cbn [bind] in E.
      destruct (finish_mst _ m p) as [m'|]; [|discriminate]. cbn [bind] in E. congruence. }
    assert (HN : forall k, k < length rows -> nth k core winf = brute_core zero (euclidean dim root rows) (length rows) ms k).
    { intros k Hk. rewrite EC. rewrite (nth_indep _ winf (brute_core zero (euclidean dim root rows) (length rows) ms 0)) by (rewrite map_length, seq_length; lia).
      rewrite map_nth. now rewrite seq_nth by lia. }
    rewrite !HN by lia. f_equal. unfold euclidean. rewrite Ea, Eb. now rewrite square_minus.
  Qed.
End PointsTree.
