(** Reported clusters as parts of density-connected groups, for complete runs. *)
From Coq Require Import List Arith Lia Bool Permutation Sorted ZArith.
From Verif Require Import Prelude Order Graph Size Num Forest M_TreeQuery M_Boruvka S_SpaceTree S_Boruvka P_BoruvkaAgree S_Kruskal M_Kruskal M_KruskalEntry P_KruskalEntry M_Linkage S_Linkage M_Condense S_Condense M_Select S_Select M_Labels S_Labels
  M_Pipeline S_Pipeline P_CTree P_Below P_NodePath P_UniqueTree P_LabelsProps P_LabelsTop P_PipelineTop P_PipelineRun P_PipelineMeaning P_PipelineEx
  M_Estimator S_Estimator P_Estimator P_EstimatorEx P_Sort S_Dbscan P_Dbscan S_Level S_Unique P_Level P_LevelTop S_Join P_Join P_JoinTop S_Split P_Split P_SplitTop S_Resize P_Resize S_Parts P_Parts.
Import ListNotations.
Local Open Scope nat_scope.

Lemma smallest_same (F G : (nat -> Prop) -> Prop) P : (forall Q, F Q <-> G Q) -> (smallest F P <-> smallest G P).
Proof. intro H. split; intros [HF Hm]; (split; [now apply H|]); intros Q HQ; apply Hm; now apply H. Qed.

(** ** From an explained run *)
Section Explained.
  Context {W V : WOrd} {Sz : SOrd}.
  Variables (lam : W -> V) (LA : LamArith V) (st : settings V Sz) (n : nat) (wt : nat -> Sz) (M : list (edge W)) (ls : list Z) (ps : list V)
    (T : list (crow V Sz)) (L : list (lrow W Sz)) (T0 : list (crow V Sz)) (chosen final : list nat).
  Hypothesis HX : explained lam LA st n wt M ls ps T L T0 chosen final.
  Hypothesis Hn : 2 <= n.
  Hypothesis Hus : usable (la_zero LA) st.
  Hypothesis Hz : sle (s := Sz) szero sone = true.
  Hypothesis Hper : cluster_selection_persistence st = None.
  Hypothesis Hnonneg : forall x, x < n -> sle szero (wt x) = true.
  Hypothesis Hdw : distinct_weights M.

  Lemma explained_part P : hierarchy_cluster n T P <-> part_by n wt (min_cluster_size st) M P.
  Proof.
    apply (hierarchy_part n wt (min_cluster_size st) lam M L T); auto; [apply (xp_linkage _ _ _ _ _ _ _ _ _ _ _ _ _ HX)|apply (xp_tree _ _ _ _ _ _ _ _ _ _ _ _ _ HX)|].
    rewrite (same_tree lam LA st n wt M ls ps T L T0 chosen final HX Hper). apply (xp_faithful _ _ _ _ _ _ _ _ _ _ _ _ _ HX).
  Qed.
  Hypothesis Hpos : forall e, In e M -> wlt (la_zero LA) (lam (ewt e)) = true.
  Hypothesis Heps : cluster_selection_epsilon st = None.
  Lemma explained_reported P : allow_single_cluster st = false \/ cluster_selection_method st = Leaf -> reported n ls P -> part_by n wt (min_cluster_size st) M P.
  Proof. intros Hs HP. apply explained_part. eapply reported_cluster; eauto. Qed.
  Lemma explained_smallest P : cluster_selection_method st = Leaf -> (reported n ls P <-> smallest (part_by n wt (min_cluster_size st) M) P).
  Proof.
    intro Hl. rewrite <- (smallest_same (hierarchy_cluster n T)) by apply explained_part.
    eapply (reported_smallest lam LA st n wt M L ls ps T T0 chosen final); eauto.
  Qed.
End Explained.

(** ** Runs on a spanning tree *)
Section Run.
  Context {W V : WOrd}.
  Variables (lam : W -> V) (LA : LamArith V) (A : Arith V NatSize) (garbage : nat -> V)
    (by_parent : list (crow V NatSize) -> list (crow V NatSize)) (st : settings V NatSize) (n : nat) (M : list (edge W)).
  Hypothesis HK : setting_ok lam LA A by_parent st.
  Hypothesis HM : spanning_tree n M.
  Hypothesis Hn : 2 <= n.
  Notation run s := (clusters_from_spanning_tree lam LA A garbage by_parent s M).
  Notation parts := (part_by (Sz := NatSize) n (fun _ => 1) (min_cluster_size st) M).
  Variables (ls : list Z) (ps : list V) (T : list (crow V NatSize)).
  Hypothesis ER : run st = Ok (ls, ps, T).
  Hypothesis Hper : cluster_selection_persistence st = None.
  Hypothesis Hdw : distinct_weights M.

  Lemma plain_hierarchy P : hierarchy_cluster n T P <-> parts P.
  Proof. destruct (c45 lam LA A garbage by_parent st n M ls ps T HK HM Hn ER) as (L & T0 & C & F & HX). eapply explained_part; eauto. Qed.
  Lemma plain_reported P : cluster_selection_epsilon st = None -> allow_single_cluster st = false \/ cluster_selection_method st = Leaf ->
    (forall e, In e M -> wlt (la_zero LA) (lam (ewt e)) = true) -> reported n ls P -> parts P.
  Proof. intros. destruct (c45 lam LA A garbage by_parent st n M ls ps T HK HM Hn ER) as (L & T0 & C & F & HX). eapply explained_reported; eauto. Qed.
  Lemma plain_smallest P : cluster_selection_epsilon st = None -> cluster_selection_method st = Leaf ->
    (forall e, In e M -> wlt (la_zero LA) (lam (ewt e)) = true) -> (reported n ls P <-> smallest parts P).
  Proof.
    intros He Hl Hpos. destruct (c45 lam LA A garbage by_parent st n M ls ps T HK HM Hn ER) as (L & T0 & C & F & HX).
    apply (explained_smallest lam LA st n (fun _ => 1) M ls ps T L T0 C F); auto. apply (so_usable _ _ _ _ _ HK).
  Qed.
End Run.

Section Weighted.
  Context {W V : WOrd} {Sz : SOrd}.
  Variables (lam : W -> V) (LA : LamArith V) (A : Arith V Sz) (garbage : nat -> V)
    (by_parent : list (crow V Sz) -> list (crow V Sz)) (st : settings V Sz) (n : nat) (M : list (edge W)) (ws : list Sz) (ls : list Z) (ps : list V) (T : list (crow V Sz)).
  Hypothesis HK : setting_ok lam LA A by_parent st.
  Hypothesis HM : spanning_tree n M.
  Hypothesis Hn : 2 <= n.
  Hypothesis Hlen : length ws = n.
  Hypothesis Hone : sle (s := Sz) szero sone = true.
  Hypothesis Hws : forall w, In w ws -> sle szero w = true /\ slt w (min_cluster_size st) = true.
  Hypothesis ER : clusters_from_spanning_tree_weighted lam LA A garbage by_parent st M ws = Ok (ls, ps, T).
  Hypothesis Hper : cluster_selection_persistence st = None.
  Hypothesis Hdw : distinct_weights M.
  Notation parts := (part_by n (fun x => nth x ws szero) (min_cluster_size st) M).

  Lemma weighted_nonneg x : x < n -> sle (s := Sz) szero (nth x ws szero) = true.
  Proof. intro Hx. apply Hws, nth_In. lia. Qed.
  Lemma weighted_smallest P : cluster_selection_epsilon st = None -> cluster_selection_method st = Leaf ->
    (forall e, In e M -> wlt (la_zero LA) (lam (ewt e)) = true) -> (reported n ls P <-> smallest parts P).
  Proof.
    intros He Hl Hpos. destruct (c45_weighted lam LA A garbage by_parent st n M ws ls ps T HK HM Hn Hlen Hone ltac:(intros w H; now apply Hws) ER) as (L & T0 & C & F & HX).
    apply (explained_smallest lam LA st n _ M ls ps T L T0 C F); auto; [apply (so_usable _ _ _ _ _ HK)|exact weighted_nonneg].
  Qed.
End Weighted.

(** ** In terms of the samples *)
Lemma part_data {W : WOrd} (D : nat -> nat -> W) n ms k (M : list (edge W)) P :
  (forall eps x y, connected (passing (fun w => wlt w eps) M) x y <-> density_connected D n ms eps x y) ->
  (part_by (Sz := NatSize) n (fun _ => 1) k M P <-> part D n ms k P).
Proof.
  intros HC. split; intros (eps & x & y & Hx & Hy & Cx & Cy & K & J & HP); exists eps, x, y; (split; [auto|]); (split; [auto|]);
    (split; [now apply (gathered_data D n ms k M x eps HC)|]); (split; [now apply (gathered_data D n ms k M y eps HC)|]);
    (split; [intro K'; apply K; now apply HC|]); (split; [intros eps' He; apply HC; auto|]); intro z; rewrite HP; split; intros [Hz K']; split; auto; now apply HC.
Qed.
Lemma part_range {W : WOrd} (D : nat -> nat -> W) n ms k P z : part D n ms k P -> P z -> z < n.
Proof. intros (eps & x & y & _ & _ & _ & _ & _ & _ & HP) H. now apply HP in H. Qed.

(** ** fit *)
Section Fit.
  Context {W V : WOrd} {Row : Type}.
  Variables (lam : W -> V) (LA : LamArith V) (garbage : nat -> V) (zero : W) (dist : Row -> Row -> W) (ms : nat)
    (finite : Row -> bool) (set_list : list nat -> list nat) (X : list Row) (A : Arith V NatSize)
    (by_parent : list (crow V NatSize) -> list (crow V NatSize)) (st : settings V NatSize).
  Hypothesis Hset : forall l, Permutation (set_list l) l.
  Hypothesis HK : setting_ok lam LA A by_parent st.
  Hypothesis Sym : forall a b, dist a b = dist b a.
  Hypothesis Self : forall a b, wle (dist a a) (dist a b) = true.
  Hypothesis Least : forall a b, wle zero (dist a b) = true.
  Notation F := (filter finite X).
  Hypothesis Hn : (if forallb finite X then 2 else 3) <= length F.
  Notation Dx := (row_distance finite dist X).
  Notation Df := (row_distance finite dist F).
  Notation mcs := (min_cluster_size st).
  Notation run := (fit (la_zero LA) finite set_list (fast_hdbscan lam LA garbage (pairs_mst zero dist ms) A by_parent st) X).
  Notation image pos P := (fun p => exists i, i < length F /\ p = pos i /\ P i).

  Section Places.
    Variable pos : nat -> nat.
    Hypothesis HPl : places finite X pos.
    Lemma dc_places eps i j : i < length F -> j < length F -> (density_connected Dx (length X) ms eps (pos i) (pos j) <-> density_connected Df (length F) ms eps i j).
    Proof.
      intros Hi Hj. split; [|now apply dc_to_places]. intro K. destruct (dc_from_places finite dist X ms eps pos HPl i _ Hi K) as (k & Hk & E & K2).
      apply (pos_inj finite X pos HPl) in E; auto. now subst k.
    Qed.
    Lemma dc_image eps i p : i < length F -> (p < length X /\ density_connected Dx (length X) ms eps (pos i) p <-> image pos (fun k => k < length F /\ density_connected Df (length F) ms eps i k) p).
    Proof.
      intro Hi. split.
      - intros [_ K]. destruct (dc_from_places finite dist X ms eps pos HPl i _ Hi K) as (k & Hk & E & K2). exists k. auto.
      - intros (k & Hk & -> & _ & K). split; [eapply pos_range; eauto|now apply dc_places].
    Qed.
    Lemma part_places P : part Dx (length X) ms mcs P -> exists P', part Df (length F) ms mcs P' /\ forall p, P p <-> image pos P' p.
    Proof.
      pose proof (mcs_two lam LA A by_parent st HK) as H2.
      intros (eps & x & y & Hx & Hy & Gx & Gy & K & J & HP). destruct (gathered_present dist ms finite X Hn pos x _ eps HPl H2 Gx) as (i & Hi & ->).
      destruct (gathered_present dist ms finite X Hn pos y _ eps HPl H2 Gy) as (j & Hj & ->). exists (fun k => k < length F /\ density_connected Df (length F) ms eps i k). split.
      - exists eps, i, j. split; auto. split; auto. split; [apply (gathered_pos dist ms finite X pos HPl i mcs eps Hi); exact Gx|].
        split; [apply (gathered_pos dist ms finite X pos HPl j mcs eps Hj); exact Gy|]. split; [now rewrite <- dc_places|]. split; [|tauto].
        intros eps' He. apply dc_places; auto.
      - intro p. rewrite HP. now apply dc_image.
    Qed.
    Lemma places_part P P' : part Df (length F) ms mcs P' -> (forall p, P p <-> image pos P' p) -> part Dx (length X) ms mcs P.
    Proof.
      intros (eps & x & y & Hx & Hy & Gx & Gy & K & J & HP') HP. exists eps, (pos x), (pos y). split; [eapply pos_range; eauto|]. split; [eapply pos_range; eauto|].
      split; [apply (gathered_pos dist ms finite X pos HPl x mcs eps Hx); exact Gx|]. split; [apply (gathered_pos dist ms finite X pos HPl y mcs eps Hy); exact Gy|].
      split; [now rewrite dc_places|]. split; [intros; apply dc_places; auto|]. intro p. rewrite HP, dc_image by auto.
      split; intros (k & Hk & -> & H); exists k; (split; [auto|]); (split; [auto|]); now apply HP'.
    Qed.
    Lemma in_image (P : nat -> Prop) i : (forall k, P k -> k < length F) -> i < length F -> (image pos P (pos i) <-> P i).
    Proof. intros Hr Hi. split; [|eauto]. intros (k & Hk & E & H). apply (pos_inj finite X pos HPl) in E; auto. now subst k. Qed.
    Lemma smallest_places P : smallest (part Dx (length X) ms mcs) P <-> exists P', smallest (part Df (length F) ms mcs) P' /\ forall p, P p <-> image pos P' p.
    Proof.
      split.
      - intros [HP Hm]. destruct (part_places P HP) as (P' & HP' & E). exists P'. split; auto. split; auto. intros Q HQ Hsub z Hz.
        pose proof (part_range _ _ _ _ _ _ HP' Hz) as Hzl. pose proof (fun k => part_range _ _ _ _ Q k HQ) as RQ. apply (in_image Q z RQ Hzl). apply (Hm (image pos Q)).
        + apply (places_part _ Q HQ). reflexivity.
        + intros p (k & Hk & -> & Hq). apply E. exists k. auto.
        + apply E. exists z. auto.
      - intros (P' & [HP' Hm] & E). split; [eapply places_part; eauto|]. intros Q HQ Hsub z Hz. destruct (part_places Q HQ) as (Q' & HQ' & EQ).
        apply EQ. apply E in Hz as (k & Hk & -> & Hk'). exists k. split; auto. split; auto. apply (Hm Q'); auto. intros u Hu.
        pose proof (part_range _ _ _ _ _ _ HQ' Hu) as Hul. apply (in_image P' u); auto; [intros v Hv; exact (part_range _ _ _ _ _ _ HP' Hv)|]. apply E, Hsub, EQ. exists u. auto.
    Qed.
    Lemma reported_places ls ls' P : (forall i, i < length F -> nth (pos i) ls' 0%Z = nth i ls 0%Z) ->
      (forall p, p < length X -> nth p ls' 0%Z <> (-1)%Z -> exists i, i < length F /\ pos i = p) ->
      (reported (length X) ls' P <-> exists P', reported (length F) ls P' /\ forall p, P p <-> image pos P' p).
    Proof.
      intros Hlab Hfrom.
      assert (HI : forall i p, i < length F -> nth i ls 0%Z <> (-1)%Z -> (cluster_of (length X) ls' (pos i) p <-> image pos (cluster_of (length F) ls i) p)).
      { intros i p Hi Li. unfold cluster_of. rewrite Hlab by auto. split.
        - intros [Hp E]. destruct (Hfrom p Hp) as (k & Hk & <-); [congruence|]. rewrite Hlab in E by auto. exists k. auto.
        - intros (k & Hk & -> & _ & E). rewrite Hlab by auto. split; auto. eapply pos_range; eauto. }
      split.
      - intros (x & Hx & Lx & HP). destruct (Hfrom x Hx Lx) as (i & Hi & <-). rewrite Hlab in Lx by auto. exists (cluster_of (length F) ls i). split.
        + exists i. split; auto. split; auto. reflexivity.
        + intro p. rewrite HP. now apply HI.
      - intros (P' & (i & Hi & Li & HP') & E). exists (pos i). split; [eapply pos_range; eauto|]. split; [now rewrite Hlab|]. intro p. rewrite E, HI by auto.
        split; intros (k & Hk & -> & H); exists k; (split; [auto|]); (split; [auto|]); now apply HP'.
    Qed.
  End Places.

  Hypothesis Hper : cluster_selection_persistence st = None.
  Hypothesis Heps : cluster_selection_epsilon st = None.
  Hypothesis Hms : ms < length F.
  Hypothesis Hpos : forall a b, In a X -> In b X -> finite a = true -> finite b = true -> wlt (la_zero LA) (lam (dist a b)) = true.
  Hypothesis Hdw : forall M, pairs_mst zero dist ms F = Ok M -> distinct_weights M.

  Theorem fit_reported r P : run = Ok r -> allow_single_cluster st = false \/ cluster_selection_method st = Leaf ->
    reported (length X) (f_labels r) P -> part Dx (length X) ms mcs P.
  Proof.
    intros E Hs HP. assert (H2 : 2 <= length F) by (destruct (forallb finite X); lia). destruct (finite_pairs zero dist ms finite X Sym Self Least Hn) as (M & EM & HM & HC).
    destruct (fit_reduces lam LA garbage zero dist ms finite set_list X A by_parent st Hset HK Hn M EM HM) as [(ls & ps & T & r' & E1 & E2 & Hl & pos & HPl & Hlab & Hfrom)|[_ E1]]; [|congruence].
    assert (r' = r) by congruence. subst r'. apply (reported_places pos HPl ls _ P Hlab Hfrom) in HP as (P' & HP' & EP). apply (places_part pos HPl P P'); auto.
    apply (part_data _ _ _ _ M _ HC). eapply (plain_reported lam LA A garbage by_parent st (length F) M HK HM H2 ls ps T E1 Hper (Hdw M EM)); eauto.
    apply (weights_pos lam LA zero dist ms finite X A by_parent st HK Least Hn Hms Hpos M EM).
  Qed.
  Theorem fit_smallest r P : run = Ok r -> cluster_selection_method st = Leaf ->
    (reported (length X) (f_labels r) P <-> smallest (part Dx (length X) ms mcs) P).
  Proof.
    intros E Hs. assert (H2 : 2 <= length F) by (destruct (forallb finite X); lia). destruct (finite_pairs zero dist ms finite X Sym Self Least Hn) as (M & EM & HM & HC).
    destruct (fit_reduces lam LA garbage zero dist ms finite set_list X A by_parent st Hset HK Hn M EM HM) as [(ls & ps & T & r' & E1 & E2 & Hl & pos & HPl & Hlab & Hfrom)|[_ E1]]; [|congruence].
    assert (r' = r) by congruence. subst r'. rewrite (reported_places pos HPl ls _ P Hlab Hfrom), (smallest_places pos HPl P).
    assert (HI : forall P', reported (length F) ls P' <-> smallest (part Df (length F) ms mcs) P').
    { intro P'. rewrite <- (smallest_same _ _ P' (fun Q => part_data Df (length F) ms mcs M Q HC)).
      apply (plain_smallest lam LA A garbage by_parent st (length F) M HK HM H2 ls ps T E1 Hper (Hdw M EM)); auto.
      apply (weights_pos lam LA zero dist ms finite X A by_parent st HK Least Hn Hms Hpos M EM). }
    split; intros (P' & H1 & H3); exists P'; split; auto; now apply HI.
  Qed.
End Fit.

(** ** The tree of the parallel search *)
Lemma boruvka_smallest {W V : WOrd} (lam : W -> V) (LA : LamArith V) (garbage : nat -> V) (A : Arith V NatSize)
    (by_parent : list (crow V NatSize) -> list (crow V NatSize)) (st : settings V NatSize) t n (rd lb : nat -> nat -> W) zero root mode ms :
  setting_ok lam LA A by_parent st -> cluster_selection_persistence st = None -> cluster_selection_epsilon st = None ->
  tree_shape t n -> lower_bounds t rd lb ->
  (forall i j, i < n -> j < n -> rd i j = rd j i) ->
  (forall i j, i < n -> j < n -> wfinite (rd i j) = true) ->
  wfinite zero = true -> (forall i, i < n -> wle (rd i i) zero = true) ->
  (forall x y, wle x y = true -> wle (root x) (root y) = true) ->
  2 <= n -> ms < n -> threads_available mode ->
  (forall i j, i < n -> j < n -> wle zero (rd i j) = true) ->
  exists M nbrs core, parallel_boruvka t n rd lb zero root mode ms = Ok (M, nbrs, core) /\
    forall ls ps T, clusters_from_spanning_tree lam LA A garbage by_parent st M = Ok (ls, ps, T) -> distinct_weights M ->
    (forall e, In e M -> wlt (la_zero LA) (lam (ewt e)) = true) ->
    forall P, (allow_single_cluster st = false \/ cluster_selection_method st = Leaf -> reported n ls P -> part (fun i j => root (rd i j)) n ms (min_cluster_size st) P) /\
      (cluster_selection_method st = Leaf -> (reported n ls P <-> smallest (part (fun i j => root (rd i j)) n ms (min_cluster_size st)) P)).
Proof.
  intros HK Hp He Sh Lb Sym Fi Zf Self0 Mo Hn Hms Th Least.
  destruct (tree_boruvka_reported t n rd lb zero root mode ms Sh Lb Sym Fi Zf Self0 Mo Hn Hms Th) as (M & nbrs & core & E & _ & ST & _).
  exists M, nbrs, core. split; auto. intros ls ps T ER Hd Hpos P.
  assert (HC : forall eps x y, connected (passing (fun w => wlt w eps) M) x y <-> density_connected (fun i j => root (rd i j)) n ms eps x y).
  { intros eps. apply (boruvka_dc t n rd lb zero root mode ms eps Sh Lb Sym Fi Zf Self0 Mo Hn Hms Th Least M nbrs core E). }
  split.
  - intros Hs HP. apply (part_data _ n ms _ M P HC). eapply plain_reported; eauto.
  - intro Hl. rewrite <- (smallest_same _ _ P (fun Q => part_data _ n ms (min_cluster_size st) M Q HC)). eapply plain_smallest; eauto.
Qed.
