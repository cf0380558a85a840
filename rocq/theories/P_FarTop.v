(** Fits of data sets far from each other. *)
From Coq Require Import List Arith Lia Bool Permutation Sorted ZArith.
From Verif Require Import Prelude Order Graph Size Num Forest S_Kruskal M_Kruskal M_KruskalEntry P_KruskalEntry M_Linkage S_Linkage M_Condense S_Condense M_Select S_Select M_Labels S_Labels
  M_Pipeline S_Pipeline P_CTree P_Below P_NodePath P_SameLinkage P_Unique P_LabelsProps P_LabelsTop P_PipelineTop P_PipelineRun P_PipelineMeaning P_PipelineEx
  M_Estimator S_Estimator P_Estimator P_EstimatorEx P_Sort S_Dbscan P_Dbscan S_Level S_Unique P_Level P_LevelTop S_Join P_Join P_JoinTop S_Split P_Split P_SplitTop S_Resize P_Resize S_Parts P_Parts P_PartsTop S_Far P_Far.
Import ListNotations.
Local Open Scope nat_scope.

(** Two samples are connected exactly beyond the height at which their branches
    meet. *)
Lemma parting_tree {W : WOrd} {Sz : SOrd} n (wt : nat -> Sz) (M : list (edge W)) (L : list (lrow W Sz)) : linkage_of n wt M L -> 2 <= n -> distinct_weights M ->
  forall x y, x < n -> y < n -> x <> y -> exists eps, ~ connected (passing (fun w => wlt w eps) M) x y /\
    forall eps', wlt eps eps' = true -> connected (passing (fun w => wlt w eps') M) x y.
Proof.
  intros HL Hn Hd x y Hx Hy Hne. pose proof (proj1 HL) as HD.
  assert (NL : forall u v, u < n -> v < n -> u <> v -> ~ dn n L u v) by (intros u v Hu Hv N K; apply (dn_under n L) in K; auto; apply N; now apply (P_SameLinkage.under_leaf n L u v)).
  destruct (meet n wt M L HL Hn (2 * n - 2) x y) as (i & r & Hr & Hor); [apply (root_dn n L HD); lia|apply (root_dn n L HD); lia|now apply NL|apply NL; auto|].
  assert (HC : exists c d, ((c = l_a r /\ d = l_b r) \/ (c = l_b r /\ d = l_a r)) /\ dn n L c x /\ dn n L d y).
  { destruct Hor as [[H1 H2]|[H1 H2]]; [exists (l_a r), (l_b r)|exists (l_b r), (l_a r)]; auto. }
  destruct HC as (c & d & Ecd & Hc & Hdd). apply (dn_under n L) in Hc; auto. apply (dn_under n L) in Hdd; auto.
  assert (Cc : c = l_a r \/ c = l_b r) by tauto. assert (Cd : d = l_a r \/ d = l_b r) by tauto. exists (l_d r). split.
  - intro K. assert (U : under n L c y) by (apply (side_near n wt M L HL Hn Hd i r c x y); auto).
    destruct Ecd as [[-> ->]|[-> ->]]; eapply (P_NodePath.siblings_apart n L HD i r y); eauto.
  - intros eps' He. apply (node_joined n wt M L HL _ i r); auto; [apply threshold_lt| |]; [destruct Cc as [->| ->]|destruct Cd as [->| ->]]; first [eapply under_a; now eauto|eapply under_b; now eauto].
Qed.

Section Fit.
  Context {W V : WOrd} {Row : Type}.
  Variables (lam : W -> V) (LA : LamArith V) (garbage : nat -> V) (zero : W) (dist : Row -> Row -> W) (ms : nat)
    (finite : Row -> bool) (set_list : list nat -> list nat) (X Y : list Row) (A : Arith V NatSize)
    (by_parent : list (crow V NatSize) -> list (crow V NatSize)) (st : settings V NatSize) (g : W).
  Hypothesis Hset : forall l, Permutation (set_list l) l.
  Hypothesis HK : setting_ok lam LA A by_parent st.
  Hypothesis Sym : forall a b, dist a b = dist b a.
  Hypothesis Self : forall a b, wle (dist a a) (dist a b) = true.
  Hypothesis Least : forall a b, wle zero (dist a b) = true.
  Hypothesis Hfin : forallb finite (X ++ Y) = true.
  Hypothesis Hper : cluster_selection_persistence st = None.
  Hypothesis Heps : cluster_selection_epsilon st = None.
  Hypothesis Hleaf : cluster_selection_method st = Leaf.
  Hypothesis Hpos : forall a b, In a (X ++ Y) -> In b (X ++ Y) -> wlt (la_zero LA) (lam (dist a b)) = true.
  Notation mcs := (min_cluster_size st).
  Hypothesis Hx : mcs <= length X /\ ms < length X.
  Hypothesis Hy : mcs <= length Y /\ ms < length Y.
  Hypothesis Hties : forall Z M, In Z [X; Y; X ++ Y] -> pairs_mst zero dist ms Z = Ok M -> distinct_weights M.
  Notation D Z := (row_distance finite dist Z).
  Notation run Z := (fit (la_zero LA) finite set_list (fast_hdbscan lam LA garbage (pairs_mst zero dist ms) A by_parent st) Z).
  (** The two data sets are in one piece at distance [g], and at least so far from
      each other. *)
  Hypothesis Wx : whole (D X) (length X) ms g.
  Hypothesis Wy : whole (D Y) (length Y) ms g.
  Hypothesis Gap : forall a b, In a X -> In b Y -> wle g (dist a b) = true.

  Lemma one_set Z r : In Z [X; Y; X ++ Y] -> incl Z (X ++ Y) -> mcs <= length Z -> ms < length Z -> run Z = Ok r ->
    (forall P, reported (length Z) (f_labels r) P <-> smallest (part (D Z) (length Z) ms mcs) P) /\
    ((exists i, i < length Z /\ nth i (f_labels r) 0%Z <> (-1)%Z) <-> exists P, part (D Z) (length Z) ms mcs P).
  Proof.
    intros HZ Hin Hm1 Hm2 ER. pose proof (mcs_two lam LA A by_parent st HK) as H2. rewrite forallb_forall in Hfin.
    assert (HF : forallb finite Z = true) by (apply forallb_forall; intros a Ha; apply Hfin; auto).
    pose proof (all_finite_filter _ _ HF) as EF.
    assert (HS : forall P, reported (length Z) (f_labels r) P <-> smallest (part (D Z) (length Z) ms mcs) P).
    { intro P. apply (fit_smallest lam LA garbage zero dist ms finite set_list Z A by_parent st Hset HK Sym Self Least); auto; rewrite ?EF, ?HF; auto; try lia. intros M EM. eapply Hties; eauto. }
    split; auto. split.
    - intros (i & Hi & Li). exists (cluster_of (length Z) (f_labels r) i). apply HS. exists i. split; auto. split; auto. reflexivity.
    - intros (P & eps & x & y & Hx' & Hy' & Gx & Gy & K & _).
      destruct (fit_parted lam LA garbage zero dist ms finite set_list Z A by_parent st Hset HK Sym Self Least) with (r := r) as (p & q & Hp & _ & Lp & _); auto; rewrite ?EF, ?HF; auto; try lia.
      + exists eps, x, y. auto.
      + eauto.
  Qed.

  Lemma rows_far : far_apart (D (X ++ Y)) (D X) (D Y) (length (X ++ Y)) (length X) (length Y) ms (fun i => i) (fun j => length X + j) g.
  Proof.
    pose proof Hfin as HF. rewrite forallb_app in HF. apply andb_true_iff in HF as [FX FY]. rewrite forallb_forall in FX, FY.
    split; [|split; [|split; [|split; [|split; [|split; [|split]]]]]]; auto.
    - split; [intros i Hi; rewrite app_length; lia|]. split; [auto|]. intros i j Hi Hj. unfold row_distance. now rewrite !nth_error_app1.
    - split; [intros i Hi; rewrite app_length; lia|]. split; [intros; lia|]. intros i j Hi Hj. unfold row_distance. rewrite !nth_error_app2 by lia.
      now replace (length X + i - length X) with i by lia; replace (length X + j - length X) with j by lia.
    - intros z Hz. rewrite app_length in Hz. destruct (lt_dec z (length X)); [left; eauto|right; exists (z - length X); split; lia].
    - intros i j Hi Hj. lia.
    - intros i j Hi Hj. unfold row_distance. rewrite nth_error_app1, nth_error_app2 by lia. replace (length X + j - length X) with j by lia.
      destruct (nth_error X i) as [a|] eqn:Ea; [|apply nth_error_None in Ea; lia]. destruct (nth_error Y j) as [b|] eqn:Eb; [|apply nth_error_None in Eb; lia].
      apply nth_error_In in Ea. apply nth_error_In in Eb. rewrite FX, FY by auto. cbn [andb]. auto.
    - intros i j. unfold row_distance. destruct (nth_error (X ++ Y) i), (nth_error (X ++ Y) j); auto. rewrite andb_comm, Sym. reflexivity.
  Qed.

  Lemma rows_parting r : run (X ++ Y) = Ok r -> forall x y, x < length (X ++ Y) -> y < length (X ++ Y) -> x <> y ->
    exists eps, ~ density_connected (D (X ++ Y)) (length (X ++ Y)) ms eps x y /\ forall eps', wlt eps eps' = true -> density_connected (D (X ++ Y)) (length (X ++ Y)) ms eps' x y.
  Proof.
    intros ER. pose proof (mcs_two lam LA A by_parent st HK) as H2. pose proof (all_finite_filter _ _ Hfin) as EF. assert (Hl : 2 <= length (X ++ Y)) by (rewrite app_length; lia).
    assert (Hn : (if forallb finite (X ++ Y) then 2 else 3) <= length (filter finite (X ++ Y))) by (rewrite Hfin, EF; auto).
    destruct (finite_pairs zero dist ms finite (X ++ Y) Sym Self Least Hn) as (M & EM & HM & HC).
    destruct (fit_reduces lam LA garbage zero dist ms finite set_list (X ++ Y) A by_parent st Hset HK Hn M EM HM) as [(ls & ps & T & r' & E1 & _)|[_ E1]]; [|congruence].
    rewrite EF in EM, HM, HC. destruct (c45 lam LA A garbage by_parent st _ M ls ps T HK HM Hl E1) as (L & T0 & C & F & HX).
    intros x y Lx Ly Hne. destruct (parting_tree _ _ M L (xp_linkage _ _ _ _ _ _ _ _ _ _ _ _ _ HX) Hl (Hties _ M ltac:(cbn; auto) EM) x y Lx Ly Hne) as (eps & N & J).
    exists eps. split; [now rewrite <- HC|]. intros eps' He. apply HC. auto.
  Qed.

  Variables (r rx ry : fitted W V NatSize).
  Hypothesis ER : run (X ++ Y) = Ok r.
  Hypothesis Ex : run X = Ok rx.
  Hypothesis Ey : run Y = Ok ry.
  Notation id_place := (fun i => i).
  Notation place := (fun j => length X + j).

  Theorem far_fits :
    separate (length X) id_place (length Y) place (f_labels r) /\
    ((exists i, i < length X /\ nth i (f_labels rx) 0%Z <> (-1)%Z) -> same_clusters_at (length X) id_place (f_labels rx) (f_labels r)) /\
    ((forall i, i < length X -> nth i (f_labels rx) 0%Z = (-1)%Z) -> one_cluster_at (length X) id_place (f_labels r)) /\
    ((exists j, j < length Y /\ nth j (f_labels ry) 0%Z <> (-1)%Z) -> same_clusters_at (length Y) place (f_labels ry) (f_labels r)) /\
    ((forall j, j < length Y -> nth j (f_labels ry) 0%Z = (-1)%Z) -> one_cluster_at (length Y) place (f_labels r)).
  Proof.
    pose proof (mcs_two lam LA A by_parent st HK) as H2. pose proof rows_far as HF. pose proof (far_swap _ _ _ _ _ _ _ _ _ _ HF) as HF'. pose proof (rows_parting r ER) as HP.
    destruct (one_set (X ++ Y) r) as [S1 _]; [cbn; auto|apply incl_refl|rewrite app_length; lia|rewrite app_length; lia|auto|].
    destruct (one_set X rx) as [S2 N2]; [cbn; auto|apply incl_appl, incl_refl|lia|lia|auto|]. destruct (one_set Y ry) as [S3 N3]; [cbn; auto|apply incl_appr, incl_refl|lia|lia|auto|].
    assert (Ha : 0 < length X) by lia. assert (Hb : 0 < length Y) by lia.
    split; [|split; [|split; [|split]]]; intros.
    - apply (never_shared _ _ _ _ _ _ _ _ _ _ _ HF _ _ S1 S2).
    - apply (kept_clusters _ _ _ _ _ _ _ _ _ _ _ HF _ _ S1 S2 N2); auto.
    - apply (one_cluster _ _ _ _ _ _ _ _ _ _ _ HF Ha Hb (proj1 Hx) (proj1 Hy) HP _ _ S1 N2); auto.
    - apply (kept_clusters _ _ _ _ _ _ _ _ _ _ _ HF' _ _ S1 S3 N3); auto.
    - apply (one_cluster _ _ _ _ _ _ _ _ _ _ _ HF' Hb Ha (proj1 Hy) (proj1 Hx) HP _ _ S1 N3); auto.
  Qed.
End Fit.
