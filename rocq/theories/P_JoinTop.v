(** Leaving densities and strengths of complete runs. *)
From Coq Require Import List Arith Lia Bool Permutation Sorted ZArith.
From Verif Require Import Prelude Order Graph Size Num S_Kruskal M_Kruskal M_KruskalEntry P_KruskalEntry M_Linkage S_Linkage M_Condense S_Condense M_Select S_Select M_Labels S_Labels
  M_Pipeline S_Pipeline P_CTree P_Below P_UniqueTree P_LabelsProps P_PipelineRun P_PipelineMeaning P_PipelineEx M_TreeQuery M_Boruvka S_SpaceTree S_Boruvka P_BoruvkaAgree
  M_Estimator S_Estimator P_Estimator P_EstimatorEx P_Sort S_Dbscan P_Dbscan S_Level P_Level P_LevelTop S_Join P_Join.
Import ListNotations.
Local Open Scope nat_scope.

Lemma all_ones n mcs : mcs <= n -> sle (s := NatSize) mcs (ssum (map (fun _ => 1 : NatSize) (seq 0 n))) = true.
Proof. intro H. rewrite ssum_ones, seq_length. now apply Nat.leb_le. Qed.

Lemma plain_density {W V : WOrd} (lam : W -> V) (LA : LamArith V) A garbage by_parent (st : settings V NatSize) n M ls ps T :
  setting_ok lam LA A by_parent st -> spanning_tree n M -> 2 <= n -> min_cluster_size st <= n ->
  clusters_from_spanning_tree lam LA A garbage by_parent st M = Ok (ls, ps, T) ->
  cluster_selection_persistence st = None ->
  forall q, In q T -> c_child q < n -> exists d, joins_by (Sz := NatSize) n (fun _ => 1) (min_cluster_size st) M (c_child q) d /\ c_lam q = lam d.
Proof.
  intros HK HM Hn Hm ER Hp. destruct (c45 lam LA A garbage by_parent st n M ls ps T HK HM Hn ER) as (L & T0 & S & E & HX).
  eapply density_of; eauto. now apply all_ones.
Qed.
Lemma weighted_density {W V : WOrd} (lam : W -> V) (LA : LamArith V) {Sz : SOrd} A garbage by_parent (st : settings V Sz) n M ws ls ps T :
  setting_ok lam LA A by_parent st -> spanning_tree n M -> 2 <= n -> length ws = n -> sle (s := Sz) szero sone = true ->
  (forall w, In w ws -> sle szero w = true /\ slt w (min_cluster_size st) = true) -> sle (min_cluster_size st) (ssum ws) = true ->
  clusters_from_spanning_tree_weighted lam LA A garbage by_parent st M ws = Ok (ls, ps, T) ->
  cluster_selection_persistence st = None ->
  forall q, In q T -> c_child q < n -> exists d, joins_by n (fun x => nth x ws szero) (min_cluster_size st) M (c_child q) d /\ c_lam q = lam d.
Proof.
  intros HK HM Hn Hw Hs Hm Hall ER Hp. destruct (c45_weighted lam LA A garbage by_parent st n M ws ls ps T HK HM Hn Hw Hs ltac:(intros w H; now apply Hm) ER) as (L & T0 & S & E & HX).
  eapply density_of; eauto.
  - intros x Hx. apply Hm. apply nth_In. lia.
  - replace (map (fun x => nth x ws szero) (seq 0 n)) with ws; auto. subst n. clear. induction ws as [|w l IH]; auto. cbn [length seq map nth]. f_equal. rewrite <- seq_shift, map_map. exact IH.
Qed.
Lemma plain_strength {W V : WOrd} (lam : W -> V) (LA : LamArith V) A garbage by_parent (st : settings V NatSize) n M ls ps T :
  setting_ok lam LA A by_parent st -> spanning_tree n M -> 2 <= n -> min_cluster_size st <= n ->
  clusters_from_spanning_tree lam LA A garbage by_parent st M = Ok (ls, ps, T) ->
  cluster_selection_persistence st = None -> cluster_selection_epsilon st = None -> allow_single_cluster st = false ->
  (forall e, In e M -> wlt (la_zero LA) (lam (ewt e)) = true) ->
  forall x, x < n -> nth x ls 0%Z <> (-1)%Z ->
  exists d m, joins_by (Sz := NatSize) n (fun _ => 1) (min_cluster_size st) M x d /\ relative LA m (lam d) (nth x ps (la_zero LA)) /\
    (m = la_zero LA \/ exists y e, y < n /\ nth y ls 0%Z = nth x ls 0%Z /\ joins_by (Sz := NatSize) n (fun _ => 1) (min_cluster_size st) M y e /\ m = lam e) /\
    (cluster_selection_method st = Leaf -> m <> la_zero LA /\
       forall y e, y < n -> nth y ls 0%Z = nth x ls 0%Z -> joins_by (Sz := NatSize) n (fun _ => 1) (min_cluster_size st) M y e -> wle (lam e) m = true).
Proof.
  intros HK HM Hn Hm ER Hp He Hs Hpos x Hx Hl. destruct (c45 lam LA A garbage by_parent st n M ls ps T HK HM Hn ER) as (L & T0 & S & E & HX).
  eapply strength_of; eauto; try apply HK. now apply all_ones.
Qed.

(** In terms of the samples. *)
Lemma joins_data {W : WOrd} (D : nat -> nat -> W) n ms k (M : list (edge W)) x :
  (forall eps x y, connected (passing (fun w => wlt w eps) M) x y <-> density_connected D n ms eps x y) ->
  forall d, joins_by (Sz := NatSize) n (fun _ => 1) k M x d -> joins_at D n ms k x d.
Proof.
  intros HC d (_ & (xs & N & U & Hm) & H2) eps. split.
  - intros (ys & N' & L & U'). destruct (wlt d eps) eqn:E; auto. exfalso. apply H2. exists ys. split; auto. split.
    + intros y Hy. destruct (U' y Hy) as [Hyn K]. split; auto. apply HC in K. revert K. apply connected_incl. intros e He. apply in_passing in He as [He Hw].
      apply in_passing. split; auto. eapply wlt_le_trans; [exact Hw|]. unfold wlt in E. now apply negb_false_iff in E.
    + rewrite ssum_ones, L. now apply Nat.leb_le.
  - intro Hd. rewrite ssum_ones in Hm. apply Nat.leb_le in Hm. exists (firstn k xs). split; [|split].
    + rewrite <- (firstn_skipn k xs) in N. apply NoDup_app_iff in N. tauto.
    + rewrite firstn_length. lia.
    + intros y Hy. assert (Hin : In y xs) by (rewrite <- (firstn_skipn k xs); apply in_or_app; auto). destruct (U y Hin) as [Hyn K]. split; auto. apply HC.
      revert K. apply connected_incl. intros e He. apply in_passing in He as [He Hw]. apply in_passing. split; auto. eapply wle_lt_trans; eauto.
Qed.

Lemma joins_at_le {W : WOrd} (D : nat -> nat -> W) n ms k x d d' : joins_at D n ms k x d -> joins_at D n ms k x d' -> wle d d' = true.
Proof. intros H H'. apply wlt_false. destruct (wlt d' d) eqn:E; auto. apply (H' d) in E. apply (H d) in E. apply wlt_nle in E. now rewrite wle_refl in E. Qed.

Lemma run_joins {W V : WOrd} {Row} (lam : W -> V) (LA : LamArith V) garbage (mst_of : list Row -> res (list (edge W))) A by_parent (st : settings V NatSize) F M r D ms :
  setting_ok lam LA A by_parent st -> mst_of F = Ok M -> spanning_tree (length F) M -> 2 <= length F -> min_cluster_size st <= length F ->
  (forall eps x y, connected (passing (fun w => wlt w eps) M) x y <-> density_connected D (length F) ms eps x y) ->
  fast_hdbscan lam LA garbage mst_of A by_parent st F = Ok r -> cluster_selection_persistence st = None ->
  condensed (Sz := NatSize) (length F) (fun _ => 1) (min_cluster_size st) (f_condensed r) /\
  length (f_labels r) = length F /\ length (f_probabilities r) = length F /\
  (forall q, In q (f_condensed r) -> c_child q < length F -> exists d, joins_at D (length F) ms (min_cluster_size st) (c_child q) d /\ c_lam q = lam d) /\
  (cluster_selection_epsilon st = None -> allow_single_cluster st = false -> (forall e, In e M -> wlt (la_zero LA) (lam (ewt e)) = true) ->
   forall x, x < length F -> nth x (f_labels r) 0%Z <> (-1)%Z ->
   exists d m, joins_at D (length F) ms (min_cluster_size st) x d /\ relative LA m (lam d) (nth x (f_probabilities r) (la_zero LA)) /\
     (m = la_zero LA \/ exists y e, y < length F /\ nth y (f_labels r) 0%Z = nth x (f_labels r) 0%Z /\ joins_at D (length F) ms (min_cluster_size st) y e /\ m = lam e) /\
     (cluster_selection_method st = Leaf -> m <> la_zero LA /\
        forall y e, y < length F -> nth y (f_labels r) 0%Z = nth x (f_labels r) 0%Z -> joins_at D (length F) ms (min_cluster_size st) y e -> wle (lam e) m = true)).
Proof.
  intros HK EM HM Hn Hm HC E Hp.
  destruct (fast_run lam LA garbage mst_of A by_parent st F r HK Hn ltac:(intros M' E'; congruence) E) as ((M' & R2 & _ & R1) & _ & _ & R5 & _).
  assert (M' = M) by congruence. subst M'.
  destruct (plain_total lam LA A garbage by_parent st (length F) M HK HM Hn) as [(ls & ps & T & E' & Hc & _)|[Hf _]]; [|congruence].
  rewrite R1 in E'. injection E' as E1 E2 E3. rewrite <- E1, <- E2 in Hc. split; [exact R5|]. split; [apply Hc|]. split; [apply Hc|].
  assert (HJ := fun x => joins_data D (length F) ms (min_cluster_size st) M x HC). split.
  - intros q Hq Hcq. destruct (plain_density lam LA A garbage by_parent st (length F) M _ _ _ HK HM Hn Hm R1 Hp q Hq Hcq) as (d & Hd & Ed). eauto.
  - intros He Hs Hpos x Hx Hl.
    destruct (plain_strength lam LA A garbage by_parent st (length F) M _ _ _ HK HM Hn Hm R1 Hp He Hs Hpos x Hx Hl) as (d & m & H1 & H2 & H3 & H4).
    exists d, m. split; auto. split; auto. split.
    + destruct H3 as [|(y & e & Hy & Ey & K & ->)]; auto. right. exists y, e. auto.
    + intro El. destruct (H4 El) as [K1 K2]. split; auto. intros y e Hy Ey He'.
      destruct (sample_row (Sz := NatSize) (length F) (fun _ => 1) (min_cluster_size st) _ R5 y Hy) as (q & Hq & Eq).
      destruct (plain_density lam LA A garbage by_parent st (length F) M _ _ _ HK HM Hn Hm R1 Hp q Hq ltac:(lia)) as (d' & Hd' & Ed'). rewrite Eq in Hd'.
      eapply wle_trans; [|apply (K2 y d'); auto]. apply (so_antitone _ _ _ _ _ HK). eapply joins_at_le; eauto.
Qed.

(** ** fit *)
Section Fit.
  Context {W V : WOrd} {Row : Type}.
  Variables (lam : W -> V) (LA : LamArith V) (garbage : nat -> V) (zero : W) (dist : Row -> Row -> W) (ms : nat)
    (finite : Row -> bool) (set_list : list nat -> list nat) (X : list Row) (A : Arith V NatSize)
    (by_parent : list (crow V NatSize) -> list (crow V NatSize)) (st : settings V NatSize) (r : fitted W V NatSize).
  Hypothesis Hset : forall l, Permutation (set_list l) l.
  Hypothesis HK : setting_ok lam LA A by_parent st.
  Hypothesis Sym : forall a b, dist a b = dist b a.
  Hypothesis Self : forall a b, wle (dist a a) (dist a b) = true.
  Hypothesis Least : forall a b, wle zero (dist a b) = true.
  Notation F := (filter finite X).
  Hypothesis Hn : (if forallb finite X then 2 else 3) <= length F.
  Hypothesis Hm : min_cluster_size st <= length F.
  Hypothesis Hper : cluster_selection_persistence st = None.
  Hypothesis E : fit (la_zero LA) finite set_list (fast_hdbscan lam LA garbage (pairs_mst zero dist ms) A by_parent st) X = Ok r.
  Notation label p := (nth p (f_labels r) 0%Z).
  Notation strength p := (nth p (f_probabilities r) (la_zero LA)).
  Notation Dx := (row_distance finite dist X).
  Notation Df := (row_distance finite dist F).
  Notation mcs := (min_cluster_size st).

  Lemma gathered_pos pos : places finite X pos -> forall i k eps, i < length F ->
    (gathered Dx (length X) ms k eps (pos i) <-> gathered Df (length F) ms k eps i).
  Proof.
    clear Hm Hn. intros HP i k eps Hi. split.
    - intros (xs & N & Lx & U). destruct (preimages finite X pos xs N) as (l' & N' & L' & H').
      + intros q Hq. destruct (U q Hq) as [_ K]. destruct (dc_from_places finite dist X ms eps pos HP i q Hi K) as (j & Hj & -> & _). eauto.
      + exists l'. split; auto. split; [lia|]. intros j Hj. destruct (H' j Hj) as [Hjf Hin]. split; auto. destruct (U _ Hin) as [_ K].
        destruct (dc_from_places finite dist X ms eps pos HP i _ Hi K) as (j' & Hj' & Ej & K'). apply (pos_inj finite X pos HP) in Ej; auto. now subst j'.
    - intros (xs & N & Lx & U). exists (map pos xs). split; [|split; [now rewrite map_length|]].
      + apply NoDup_map_in; auto. intros a b Ha Hb. apply (pos_inj finite X pos HP); now apply U.
      + intros y Hy. apply in_map_iff in Hy as (j & <- & Hj). destruct (U j Hj) as [Hjf K]. split; [eapply pos_range; eauto|]. apply dc_to_places; auto.
  Qed.
  Lemma joins_pos pos : places finite X pos -> forall i d, i < length F -> (joins_at Dx (length X) ms mcs (pos i) d <-> joins_at Df (length F) ms mcs i d).
  Proof. intros HP i d Hi. split; intros H eps; rewrite <- (H eps); [symmetry|]; now apply gathered_pos. Qed.

  Lemma finite_pairs : exists M, pairs_mst zero dist ms F = Ok M /\ spanning_tree (length F) M /\
    forall eps x y, connected (passing (fun w => wlt w eps) M) x y <-> density_connected Df (length F) ms eps x y.
  Proof.
    clear Hm. assert (H2 : 2 <= length F) by (destruct (forallb finite X); lia).
    assert (HFF : forallb finite F = true) by (apply forallb_forall; intros x Hx; apply filter_In in Hx; tauto).
    destruct (pairs_ok zero dist ms F ltac:(lia)) as (M & EM & HM). exists M. split; auto. split; auto.
    intros eps. now destruct (pairs_dc zero dist finite ms eps F M Sym Self Least HFF ltac:(lia) EM) as [_ HC].
  Qed.

  Theorem fit_density p a : nth_error X p = Some a -> finite a = true ->
    exists d, joins_at Dx (length X) ms mcs p d /\ (exists q, In q (f_condensed r) /\ c_child q = p) /\
      forall q, In q (f_condensed r) -> c_child q = p -> c_lam q = lam d.
  Proof.
    intros Ea Fa. assert (H2 : 2 <= length F) by (destruct (forallb finite X); lia). destruct finite_pairs as (M & EM & HM & HC).
    assert (HF : forallb finite X = true \/ forallb finite X = false) by (destruct (forallb finite X); auto). destruct HF as [HF|HF].
    - pose proof E as E1. unfold fit in E1. rewrite HF in E1. rewrite (all_finite_filter _ _ HF) in *.
      destruct (run_joins lam LA garbage (pairs_mst zero dist ms) A by_parent st X M r (row_distance finite dist X) ms HK EM HM H2 Hm HC E1 Hper) as (H1 & _ & _ & H3 & _).
      assert (Hp : p < length X) by (apply nth_error_Some; congruence).
      destruct (sample_row (Sz := NatSize) (length X) (fun _ => 1) mcs _ H1 p Hp) as (q & Hq & Eq).
      destruct (H3 q Hq ltac:(lia)) as (d & Hd & Ed). rewrite Eq in Hd. exists d. split; auto. split; [eauto|]. intros q' Hq' Eq'.
      assert (q' = q) as -> by (eapply (row_eq (Sz := NatSize) (length X) (fun _ => 1) mcs _ H1); eauto; congruence). auto.
    - pose proof Hn as Hn3. rewrite HF in Hn3.
      destruct (fit_plain lam LA garbage (pairs_mst zero dist ms) finite set_list X Hset HF Hn3 A by_parent st M HK EM HM)
        as [(r0 & r' & pos & others & E0 & E' & EMr & HO & HP & Ex)|[_ E']]; [|congruence].
      assert (r' = r) by congruence. subst r'.
      destruct (run_joins lam LA garbage (pairs_mst zero dist ms) A by_parent st F M r0 Df ms HK EM HM H2 Hm HC E0 Hper) as (H1 & _ & _ & H3 & _).
      pose proof HP as (_ & HP1 & HP2). destruct (HP2 p a Ea Fa) as (i & Hi & <-).
      destruct (sample_row (Sz := NatSize) (length F) (fun _ => 1) mcs _ H1 i Hi) as (q & Hq & Eq).
      destruct (H3 q Hq ltac:(lia)) as (d & Hd & Ed). rewrite Eq in Hd. exists d. split; [now apply joins_pos|].
      assert (Hrow : exists q', In q' (f_condensed r) /\ c_child q' = pos i /\ c_lam q' = c_lam q).
      { eexists {| c_parent := _; c_child := pos i; c_lam := c_lam q; c_size := c_size q |}. split; [|auto]. apply (ex_rows _ _ _ _ _ _ _ _ _ Ex). right. exists q. split; auto.
        split; [reflexivity|]. split; auto. split; auto. cbn [c_child]. rewrite Eq. destruct (Nat.ltb_spec i (length F)); [reflexivity|lia]. }
      destruct Hrow as (q' & Hq' & Eq' & El'). split; [eauto|]. intros q2 Hq2 Eq2. destruct (ex_condensed _ _ _ _ _ _ _ _ _ Ex) as [HT _].
      assert (q2 = q') as -> by (eapply (row_eq (Sz := NatSize) (length X) (fun _ => 1) mcs _ HT); eauto; congruence). congruence.
  Qed.

  Theorem fit_strength : cluster_selection_epsilon st = None -> allow_single_cluster st = false -> ms < length F ->
    (forall a b, In a X -> In b X -> finite a = true -> finite b = true -> wlt (la_zero LA) (lam (dist a b)) = true) ->
    forall p, p < length X -> label p <> (-1)%Z ->
    exists d m, joins_at Dx (length X) ms mcs p d /\ relative LA m (lam d) (strength p) /\
      (m = la_zero LA \/ exists q e, q < length X /\ label q = label p /\ joins_at Dx (length X) ms mcs q e /\ m = lam e) /\
      (cluster_selection_method st = Leaf -> m <> la_zero LA /\
         forall q e, q < length X -> label q = label p -> joins_at Dx (length X) ms mcs q e -> wle (lam e) m = true).
  Proof.
    intros He Hs Hms Hd p Hp Hl. assert (H2 : 2 <= length F) by (destruct (forallb finite X); lia). destruct finite_pairs as (M & EM & HM & HC).
    assert (Hpos : forall e, In e M -> wlt (la_zero LA) (lam (ewt e)) = true).
    { apply (pairs_weights zero dist ms F M (fun w => wlt (la_zero LA) (lam w) = true)); auto.
      - intros _. destruct F as [|a l] eqn:EF; [cbn in H2; lia|]. assert (Ha : In a F) by (rewrite EF; now left). apply filter_In in Ha as [Ha Hfa].
        eapply wlt_le_trans; [apply (Hd a a); auto|]. now apply (so_antitone _ _ _ _ _ HK).
      - intros a b Ha Hb. apply filter_In in Ha as [Ha Hfa]. apply filter_In in Hb as [Hb Hfb]. auto. }
    assert (HF : forallb finite X = true \/ forallb finite X = false) by (destruct (forallb finite X); auto). destruct HF as [HF|HF].
    - pose proof E as E1. unfold fit in E1. rewrite HF in E1. rewrite (all_finite_filter _ _ HF) in *.
      destruct (run_joins lam LA garbage (pairs_mst zero dist ms) A by_parent st X M r (row_distance finite dist X) ms HK EM HM H2 Hm HC E1 Hper) as (_ & _ & _ & _ & H3).
      apply H3; auto.
    - pose proof Hn as Hn3. rewrite HF in Hn3.
      destruct (fit_plain lam LA garbage (pairs_mst zero dist ms) finite set_list X Hset HF Hn3 A by_parent st M HK EM HM)
        as [(r0 & r' & pos & others & E0 & E' & EMr & HO & HP & Ex)|[_ E']]; [|congruence].
      assert (r' = r) by congruence. subst r'.
      destruct (run_joins lam LA garbage (pairs_mst zero dist ms) A by_parent st F M r0 Df ms HK EM HM H2 Hm HC E0 Hper) as (_ & HL0 & HP0 & _ & H3).
      destruct (ex_labels _ _ _ _ _ _ _ _ _ Ex) as (L1 & L2 & L3). destruct (ex_strengths _ _ _ _ _ _ _ _ _ Ex) as (S1 & S2 & _).
      assert (Hlab : forall i, i < length F -> label (pos i) = nth i (f_labels r0) 0%Z).
      { intros i Hi. specialize (L2 i Hi). rewrite (nth_error_nth' (f_labels r0) 0%Z) in L2 by lia. now apply nth_error_nth. }
      assert (Hstr : forall i, i < length F -> strength (pos i) = nth i (f_probabilities r0) (la_zero LA)).
      { intros i Hi. specialize (S2 i Hi). rewrite (nth_error_nth' (f_probabilities r0) (la_zero LA)) in S2 by lia. now apply nth_error_nth. }
      assert (Hfrom : forall q, q < length X -> label q <> (-1)%Z -> exists i, i < length F /\ pos i = q).
      { intros q Hq Hlq. destruct (nth_error X q) as [a|] eqn:Ea; [|apply nth_error_None in Ea; lia]. destruct (finite a) eqn:Fa.
        - destruct HP as (_ & _ & HP). apply (HP q a); auto.
        - exfalso. apply Hlq. assert (Ho : In q others) by (apply HO; eauto). apply nth_error_nth. auto. }
      destruct (Hfrom p Hp Hl) as (i & Hi & <-). rewrite Hlab in Hl by auto. destruct (H3 He Hs Hpos i Hi Hl) as (d & m & J1 & J2 & J3 & J4).
      exists d, m. split; [now apply joins_pos|]. split; [now rewrite Hstr|]. rewrite Hlab by auto. split.
      + destruct J3 as [|(y & e & Hy & Ey & K & ->)]; auto. right. exists (pos y), e. split; [eapply pos_range; eauto|]. split; [now rewrite Hlab|]. split; auto. now apply joins_pos.
      + intro El. destruct (J4 El) as [K1 K2]. split; auto. intros q e Hq Eq Hj. destruct (Hfrom q Hq ltac:(congruence)) as (j & Hj' & <-). rewrite Hlab in Eq by auto.
        apply (K2 j e); auto. eapply joins_pos; eauto.
  Qed.
End Fit.

(** ** The tree of the parallel search *)
Lemma boruvka_density {W V : WOrd} (lam : W -> V) (LA : LamArith V) (garbage : nat -> V) (A : Arith V NatSize)
    (by_parent : list (crow V NatSize) -> list (crow V NatSize)) (st : settings V NatSize) t n (rd lb : nat -> nat -> W) zero root mode ms :
  setting_ok lam LA A by_parent st -> min_cluster_size st <= n -> cluster_selection_persistence st = None ->
  tree_shape t n -> lower_bounds t rd lb ->
  (forall i j, i < n -> j < n -> rd i j = rd j i) ->
  (forall i j, i < n -> j < n -> wfinite (rd i j) = true) ->
  wfinite zero = true -> (forall i, i < n -> wle (rd i i) zero = true) ->
  (forall x y, wle x y = true -> wle (root x) (root y) = true) ->
  2 <= n -> ms < n -> threads_available mode ->
  (forall i j, i < n -> j < n -> wle zero (rd i j) = true) ->
  exists M nbrs core, parallel_boruvka t n rd lb zero root mode ms = Ok (M, nbrs, core) /\
    forall ls ps T, clusters_from_spanning_tree lam LA A garbage by_parent st M = Ok (ls, ps, T) ->
    forall q, In q T -> c_child q < n -> exists d, joins_at (fun i j => root (rd i j)) n ms (min_cluster_size st) (c_child q) d /\ c_lam q = lam d.
Proof.
  intros HK Hm Hp Sh Lb Sym Fi Zf Self0 Mo Hn Hms Th Least.
  destruct (tree_boruvka_reported t n rd lb zero root mode ms Sh Lb Sym Fi Zf Self0 Mo Hn Hms Th) as (M & nbrs & core & E & _ & ST & _).
  exists M, nbrs, core. split; auto. intros ls ps T ER q Hq Hc.
  destruct (plain_density lam LA A garbage by_parent st n M ls ps T HK ST Hn Hm ER Hp q Hq Hc) as (d & Hd & Ed). exists d. split; auto.
  eapply joins_data; [|exact Hd]. intros eps. apply (boruvka_dc t n rd lb zero root mode ms eps Sh Lb Sym Fi Zf Self0 Mo Hn Hms Th Least M nbrs core E).
Qed.
