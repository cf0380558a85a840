(** Reported clusters as density-connected groups of the data. *)
From Coq Require Import List Arith Lia Bool Permutation Sorted ZArith.
From Verif Require Import Prelude Order Graph Size Num S_Kruskal S_Precomputed M_Kruskal M_Precomputed M_KruskalEntry P_Kruskal P_Forest P_Precomputed2 P_KruskalRun P_KruskalEntry
  M_Linkage S_Linkage M_Condense S_Condense M_Select M_Labels S_Labels M_Pipeline S_Pipeline P_PipelineRun P_PipelineMeaning P_PipelineEx
  M_TreeQuery M_Boruvka S_SpaceTree S_Boruvka P_BoruvkaAgree M_Estimator S_Estimator P_Estimator P_EstimatorEx S_Dbscan P_Dbscan S_Level P_Level.
Import ListNotations.
Local Open Scope nat_scope.

Lemma plain_level {W V : WOrd} (lam : W -> V) (LA : LamArith V) A garbage by_parent (st : settings V NatSize) n M ls ps T :
  setting_ok lam LA A by_parent st -> spanning_tree n M -> 2 <= n ->
  clusters_from_spanning_tree lam LA A garbage by_parent st M = Ok (ls, ps, T) ->
  (forall e, In e M -> wlt (la_zero LA) (lam (ewt e)) = true) -> one_root st ->
  forall x, x < n -> nth x ls 0%Z <> (-1)%Z -> exists d, level n M (fun y => y < n /\ nth y ls 0%Z = nth x ls 0%Z) d.
Proof.
  intros HK HM Hn ER Hp Hr. destruct (c45 lam LA A garbage by_parent st n M ls ps T HK HM Hn ER) as (L & T0 & S & E & HX).
  eapply cluster_at_level; eauto; apply HK.
Qed.
Lemma weighted_level {W V : WOrd} (lam : W -> V) (LA : LamArith V) {Sz : SOrd} A garbage by_parent (st : settings V Sz) n M ws ls ps T :
  setting_ok lam LA A by_parent st -> spanning_tree n M -> 2 <= n -> length ws = n -> sle (s := Sz) szero sone = true ->
  (forall w, In w ws -> slt w (min_cluster_size st) = true) ->
  clusters_from_spanning_tree_weighted lam LA A garbage by_parent st M ws = Ok (ls, ps, T) ->
  (forall e, In e M -> wlt (la_zero LA) (lam (ewt e)) = true) -> one_root st ->
  forall x, x < n -> nth x ls 0%Z <> (-1)%Z -> exists d, level n M (fun y => y < n /\ nth y ls 0%Z = nth x ls 0%Z) d.
Proof.
  intros HK HM Hn Hw Hs Hm ER Hp Hr. destruct (c45_weighted lam LA A garbage by_parent st n M ws ls ps T HK HM Hn Hw Hs Hm ER) as (L & T0 & S & E & HX).
  eapply cluster_at_level; eauto; apply HK.
Qed.

Lemma level_group {W : WOrd} (D : nat -> nat -> W) n ms (M : list (edge W)) A d :
  (forall eps x y, connected (passing (fun w => wlt w eps) M) x y <-> density_connected D n ms eps x y) ->
  wlt d winf = true -> level n M A d -> dense_group D n ms A d.
Proof.
  intros HC Hd (_ & H1 & H2). split; auto. split.
  - intros eps x y He Hx Hy. apply HC. eapply connected_incl; [|apply (H1 x y Hx Hy)]. intros e Hin. apply in_passing in Hin as [Hin Hw].
    apply in_passing. split; auto. eapply wle_lt_trans; eauto.
  - intros eps x y He Hx Hy Hny K. apply HC in K. apply (H2 x y Hx Hy Hny). eapply connected_incl; [|exact K]. intros e Hin. apply in_passing in Hin as [Hin Hw].
    apply in_passing. split; auto. eapply wlt_le_trans; eauto.
Qed.

Lemma positive_finite {W V : WOrd} (lam : W -> V) (zero : V) w : (forall x y, wle x y = true -> wle (lam y) (lam x) = true) ->
  wle (lam winf) zero = true -> wlt zero (lam w) = true -> wlt w winf = true.
Proof.
  intros Ha Hi Hp. apply wlt_nle. destruct (wle winf w) eqn:E; auto. apply Ha in E. apply wlt_nle in Hp. rewrite (wle_trans _ _ _ _ E Hi) in Hp. discriminate.
Qed.

(** Edge weights of the spanning tree of all pairs. *)
Lemma pairs_weights {W : WOrd} {Row} (zero : W) (dist : Row -> Row -> W) ms (F : list Row) M (P : W -> Prop) :
  ms < length F -> pairs_mst zero dist ms F = Ok M -> (ms <= 1 -> P zero) -> (forall a b, In a F -> In b F -> P (dist a b)) -> forall e, In e M -> P (ewt e).
Proof.
  intros Hms. unfold pairs_mst. cbv zeta. set (D := fun i j => match nth_error F i with Some x => _ | None => _ end). intros EM H0 HP e He.
  assert (HD : forall i j, i < length F -> j < length F -> P (D i j)).
  { intros i j Hi Hj. unfold D. destruct (nth_error F i) as [a|] eqn:Ea; [|apply nth_error_None in Ea; lia]. destruct (nth_error F j) as [b|] eqn:Eb; [|apply nth_error_None in Eb; lia].
    apply HP; eapply nth_error_In; eauto. }
  destruct (brute_ok zero D (length F) ms CLNone no_constraint ltac:(lia)) as (T & nbrs & core & E & C & B); [intros x y; simpl; tauto|].
  rewrite E in EM. cbn [bind fst] in EM. injection EM as <-.
  destruct (bridged_connected (length F) _ T (brute_connected zero D (length F) ms) (brute_edges_range zero D (length F) ms) B) as [MSF ST].
  assert (Hin : In e (brute_edges zero D (length F) ms)) by (eapply msf_incl; eauto).
  destruct e as [[i j] w]. apply brute_edges_in in Hin as (H1 & H2 & ->). unfold ewt. cbn [snd].
  assert (HCc : forall k, k < length F -> P (brute_core zero D (length F) ms k)).
  { intros k Hk. destruct (brute_core_ok zero D (length F) ms k) as (K1 & K2 & _). destruct (le_lt_dec ms 1) as [Hm|Hm]; [rewrite K1 by auto; auto|].
    destruct (K2 Hm Hms) as (K & _). apply in_map_iff in K as (q & <- & Hq). apply in_seq in Hq. apply HD; lia. }
  destruct (mrd3_ok (brute_core zero D (length F) ms i) (brute_core zero D (length F) ms j) (D i j)) as ([->|[->| ->]] & _); [apply HCc|apply HCc|apply HD]; lia.
Qed.

(** ** Rows with missing values *)
Lemma dc_to_places {W : WOrd} {Row} (finite : Row -> bool) (dist : Row -> Row -> W) X ms eps pos : places finite X pos -> forall i j, i < length (filter finite X) ->
  density_connected (row_distance finite dist (filter finite X)) (length (filter finite X)) ms eps i j ->
  density_connected (row_distance finite dist X) (length X) ms eps (pos i) (pos j).
Proof.
  intros HP i j Hi H. induction H as [|y z H IH Hy Hz Cy Cz L]; [constructor|]. eapply dc_next; [exact IH|..].
  - eapply pos_range; eauto.
  - eapply pos_range; eauto.
  - eapply core_pos; eauto.
  - eapply core_pos; eauto.
  - rewrite (pos_dist finite dist X pos HP); auto.
Qed.
Lemma dc_from_places {W : WOrd} {Row} (finite : Row -> bool) (dist : Row -> Row -> W) X ms eps pos : places finite X pos -> forall i q, i < length (filter finite X) ->
  density_connected (row_distance finite dist X) (length X) ms eps (pos i) q ->
  exists j, j < length (filter finite X) /\ q = pos j /\ density_connected (row_distance finite dist (filter finite X)) (length (filter finite X)) ms eps i j.
Proof.
  intros HP i q Hi H. induction H as [|y z H IH Hy Hz Cy Cz L]; [exists i; split; auto; split; auto; constructor|].
  destruct IH as (j & Hj & -> & K). destruct (near_present finite dist X eps pos HP _ _ L) as (j' & k & Hj' & Hk & Ej & <-).
  apply (pos_inj finite X pos HP) in Ej; auto. subst j'. exists k. split; auto. split; auto. eapply dc_next; [exact K|auto..].
  - eapply core_pos; eauto.
  - eapply core_pos; eauto.
  - rewrite <- (pos_dist finite dist X pos HP); auto.
Qed.

Lemma run_level {W V : WOrd} {Row} (lam : W -> V) (LA : LamArith V) garbage (mst_of : list Row -> res (list (edge W))) A by_parent (st : settings V NatSize) F M r :
  setting_ok lam LA A by_parent st -> mst_of F = Ok M -> spanning_tree (length F) M -> 2 <= length F ->
  fast_hdbscan lam LA garbage mst_of A by_parent st F = Ok r ->
  (forall e, In e M -> wlt (la_zero LA) (lam (ewt e)) = true) -> one_root st ->
  length (f_labels r) = length F /\
  forall x, x < length F -> nth x (f_labels r) 0%Z <> (-1)%Z -> exists d, level (length F) M (fun y => y < length F /\ nth y (f_labels r) 0%Z = nth x (f_labels r) 0%Z) d.
Proof.
  intros HK EM HM Hn E Hp Hr. unfold fast_hdbscan in E. destruct (Nat.eqb_spec (length F) 0) as [|_]; [lia|]. destruct (Nat.ltb_spec (length F) 2) as [|_]; [lia|].
  rewrite EM in E. cbn [bind] in E. destruct (mst_to_linkage_tree (sort_mst M)) as [L|] eqn:EL; [|discriminate]. cbn [bind] in E.
  destruct (clusters_from_linkage_tree lam LA A garbage by_parent st (fun _ => 1) (length M + 1) L) as [[[ls ps] T]|] eqn:EC; [|discriminate]. cbn [bind fst snd] in E.
  injection E as <-. cbn [f_labels].
  assert (ER : clusters_from_spanning_tree lam LA A garbage by_parent st M = Ok (ls, ps, T)) by (unfold clusters_from_spanning_tree; rewrite EL; cbn [bind]; exact EC).
  split; [|eapply plain_level; eauto].
  destruct (plain_total lam LA A garbage by_parent st (length F) M HK HM Hn) as [(ls' & ps' & T' & E' & Hc & _)|[_ E']]; rewrite ER in E'; [|discriminate].
  injection E' as <- <- <-. apply Hc.
Qed.

(** ** fit *)
Section Fit.
  Context {W V : WOrd} {Row : Type}.
  Variables (lam : W -> V) (LA : LamArith V) (garbage : nat -> V) (zero : W) (dist : Row -> Row -> W) (ms : nat)
    (finite : Row -> bool) (set_list : list nat -> list nat) (X : list Row) (A : Arith V NatSize)
    (by_parent : list (crow V NatSize) -> list (crow V NatSize)) (st : settings V NatSize) (r : fitted W V NatSize).
  Hypothesis Hset : forall l, Permutation (set_list l) l.
  Hypothesis HK : setting_ok lam LA A by_parent st.
  Hypothesis Sym : forall a b, dist a b = dist b a.
  Hypothesis Self : forall a b, wle (dist a a) (dist a b) = true.
  Hypothesis Least : forall a b, wle zero (dist a b) = true.
  Hypothesis Hn : (if forallb finite X then 2 else 3) <= length (filter finite X).
  Hypothesis Hms : ms < length (filter finite X).
  Hypothesis Hinf : wle (lam winf) (la_zero LA) = true.
  Hypothesis Hd : forall a b, In a X -> In b X -> finite a = true -> finite b = true -> wlt (la_zero LA) (lam (dist a b)) = true.
  Hypothesis Hroot : one_root st.
  Hypothesis E : fit (la_zero LA) finite set_list (fast_hdbscan lam LA garbage (pairs_mst zero dist ms) A by_parent st) X = Ok r.
  Notation F := (filter finite X).
  Notation label p := (nth p (f_labels r) 0%Z).

  Lemma finite_levels r0 : fast_hdbscan lam LA garbage (pairs_mst zero dist ms) A by_parent st F = Ok r0 ->
    length (f_labels r0) = length F /\
    forall x, x < length F -> nth x (f_labels r0) 0%Z <> (-1)%Z ->
      exists d, dense_group (row_distance finite dist F) (length F) ms (fun y => y < length F /\ nth y (f_labels r0) 0%Z = nth x (f_labels r0) 0%Z) d.
  Proof.
    intro E0. assert (H2 : 2 <= length F) by (destruct (forallb finite X); lia).
    assert (HFF : forallb finite F = true) by (apply forallb_forall; intros x Hx; apply filter_In in Hx; tauto).
    destruct (pairs_ok zero dist ms F ltac:(lia)) as (M & EM & HM).
    assert (Hp : forall e, In e M -> wlt (la_zero LA) (lam (ewt e)) = true).
    { apply (pairs_weights zero dist ms F M (fun w => wlt (la_zero LA) (lam w) = true)); auto.
      - intros _. destruct F as [|a l] eqn:EF; [cbn in H2; lia|]. assert (Ha : In a F) by (rewrite EF; now left). apply filter_In in Ha as [Ha Hfa].
        eapply wlt_le_trans; [apply (Hd a a); auto|]. now apply (so_antitone _ _ _ _ _ HK).
      - intros a b Ha Hb. apply filter_In in Ha as [Ha Hfa]. apply filter_In in Hb as [Hb Hfb]. auto. }
    destruct (run_level lam LA garbage (pairs_mst zero dist ms) A by_parent st F M r0 HK EM HM H2 E0 Hp Hroot) as [HL Hlev]. split; auto.
    intros x Hx Hlx. destruct (Hlev x Hx Hlx) as [d Hd']. exists d. pose proof Hd' as ((e & He & Ee) & _). eapply level_group; [| |exact Hd'].
    - intros eps. now destruct (pairs_dc zero dist finite ms eps F M Sym Self Least HFF ltac:(lia) EM) as [_ HC].
    - rewrite <- Ee. apply (positive_finite lam (la_zero LA)); auto. apply (so_antitone _ _ _ _ _ HK).
  Qed.

  Theorem fit_groups p : p < length X -> label p <> (-1)%Z ->
    exists d, dense_group (row_distance finite dist X) (length X) ms (fun q => q < length X /\ label q = label p) d.
  Proof.
    intros Hp Hl. assert (HF : forallb finite X = true \/ forallb finite X = false) by (destruct (forallb finite X); auto). destruct HF as [HF|HF].
    - pose proof E as E1. unfold fit in E1. rewrite HF in E1. pose proof (finite_levels r) as H. rewrite (all_finite_filter _ _ HF) in H. destruct (H E1) as [_ H']. auto.
    - pose proof Hn as Hn3. rewrite HF in Hn3. destruct (pairs_ok zero dist ms F ltac:(lia)) as (M & EM & HM).
      destruct (fit_plain lam LA garbage (pairs_mst zero dist ms) finite set_list X Hset HF Hn3 A by_parent st M HK EM HM)
        as [(r0 & r' & pos & others & E0 & E' & EMr & HO & HP & Ex)|[_ E']]; [|congruence].
      assert (r' = r) by congruence. subst r'. destruct (finite_levels r0 E0) as [HL0 H].
      destruct (ex_labels _ _ _ _ _ _ _ _ _ Ex) as (L1 & L2 & L3).
      assert (Hlab : forall i, i < length F -> label (pos i) = nth i (f_labels r0) 0%Z).
      { intros i Hi. specialize (L2 i Hi). pose proof (nth_error_nth' (f_labels r0) 0%Z (n := i)) as K. rewrite K in L2 by lia.
        now apply nth_error_nth. }
      assert (Hfrom : forall q, q < length X -> label q <> (-1)%Z -> exists i, i < length F /\ pos i = q).
      { intros q Hq Hlq. destruct (nth_error X q) as [a|] eqn:Ea; [|apply nth_error_None in Ea; lia]. destruct (finite a) eqn:Fa.
        - destruct HP as (_ & _ & HP). apply (HP q a); auto.
        - exfalso. apply Hlq. assert (Ho : In q others) by (apply HO; eauto). apply nth_error_nth. auto. }
      destruct (Hfrom p Hp Hl) as (i0 & Hi0 & <-). rewrite Hlab in Hl by auto. destruct (H i0 Hi0 Hl) as (d & D1 & D2 & D3). exists d. split; auto. rewrite Hlab by auto. split.
      + intros eps x y He [Hx Lx] [Hy Ly]. destruct (Hfrom x Hx ltac:(congruence)) as (i & Hi & <-). destruct (Hfrom y Hy ltac:(congruence)) as (j & Hj & <-).
        rewrite Hlab in Lx, Ly by auto. apply dc_to_places; auto.
      + intros eps x y He [Hx Lx] Hy Hny K. destruct (Hfrom x Hx ltac:(congruence)) as (i & Hi & <-).
        destruct (dc_from_places finite dist X ms eps pos HP i y Hi K) as (j & Hj & -> & K'). rewrite Hlab in Lx by auto. apply (D3 eps i j); auto.
        intros [_ Lj]. apply Hny. split; auto. now rewrite Hlab.
  Qed.

  (** The same in terms of [dbscan_clustering]. *)
  Theorem fit_groups_at_cuts p : p < length X -> label p <> (-1)%Z ->
    exists d, wlt d winf = true /\ forall eps, exists labels, dbscan_clustering r eps ms = Ok labels /\ length labels = length X /\
      (wlt d eps = true -> forall q, q < length X -> label q = label p -> nth q labels (-2)%Z = nth p labels (-2)%Z) /\
      (wle eps d = true -> forall q q', q < length X -> q' < length X -> label q = label p -> label q' <> label p ->
         nth q labels (-2)%Z = nth q' labels (-2)%Z -> nth q labels (-2)%Z = (-1)%Z).
  Proof.
    intros Hp Hl. destruct (fit_groups p Hp Hl) as (d & D1 & D2 & D3). exists d. split; auto. intro eps.
    destruct (fit_cut W V Row lam LA garbage zero dist ms finite set_list X A by_parent st r eps Hset HK Sym Self Least Hn E) as (labels & EL & DS).
    exists labels. split; auto. split; [apply DS|].
    assert (Dec : forall x, x < length X -> nth x labels (-2)%Z = (-1)%Z \/ (0 <= nth x labels (-2))%Z).
    { intros x Hx. destruct (ds_size _ _ _ _ _ DS x Hx) as (xs & _ & _ & S1 & S2). destruct (le_lt_dec ms (length xs)); auto. }
    split.
    - intros He q Hq Lq. assert (K : density_connected (row_distance finite dist X) (length X) ms eps q p) by (apply (D2 eps q p); auto).
      destruct (Dec q Hq) as [N|N].
      + destruct (Dec p Hp) as [N'|N']; [congruence|]. symmetry. apply (ds_same _ _ _ _ _ DS); auto.
      + apply (ds_same _ _ _ _ _ DS); auto.
    - intros He q q' Hq Hq' Lq Lq' Eq. destruct (Dec q Hq) as [N|N]; auto. exfalso. apply (ds_same _ _ _ _ _ DS) in Eq; auto.
      apply (D3 eps q q'); auto. intros [_ K]. congruence.
  Qed.
End Fit.

(** ** The tree of the parallel search *)
Lemma boruvka_groups {W V : WOrd} (lam : W -> V) (LA : LamArith V) (garbage : nat -> V) (A : Arith V NatSize)
    (by_parent : list (crow V NatSize) -> list (crow V NatSize)) (st : settings V NatSize) t n (rd lb : nat -> nat -> W) zero root mode ms :
  setting_ok lam LA A by_parent st -> one_root st ->
  tree_shape t n -> lower_bounds t rd lb ->
  (forall i j, i < n -> j < n -> rd i j = rd j i) ->
  (forall i j, i < n -> j < n -> wfinite (rd i j) = true) ->
  wfinite zero = true -> (forall i, i < n -> wle (rd i i) zero = true) ->
  (forall x y, wle x y = true -> wle (root x) (root y) = true) ->
  2 <= n -> ms < n -> threads_available mode ->
  (forall i j, i < n -> j < n -> wle zero (rd i j) = true) ->
  wle (lam winf) (la_zero LA) = true -> (forall i j, i < n -> j < n -> wlt (la_zero LA) (lam (root (rd i j))) = true) ->
  exists M nbrs core, parallel_boruvka t n rd lb zero root mode ms = Ok (M, nbrs, core) /\
    forall ls ps T, clusters_from_spanning_tree lam LA A garbage by_parent st M = Ok (ls, ps, T) ->
    forall x, x < n -> nth x ls 0%Z <> (-1)%Z ->
      exists d, dense_group (fun i j => root (rd i j)) n ms (fun y => y < n /\ nth y ls 0%Z = nth x ls 0%Z) d.
Proof.
  intros HK Hroot Sh Lb Sym Fi Zf Self0 Mo Hn Hms Th Least Hinf Hd. set (D := fun i j => root (rd i j)).
  destruct (tree_boruvka_reported t n rd lb zero root mode ms Sh Lb Sym Fi Zf Self0 Mo Hn Hms Th) as (M & nbrs & core & E & (Lc & C1 & C2) & ST & (MSF & EQ) & _).
  exists M, nbrs, core. split; auto. intros ls ps T ER x Hx Hl.
  assert (Ha : forall x y, wle x y = true -> wle (lam y) (lam x) = true) by apply HK.
  assert (Hdz : forall w i j, i < n -> j < n -> wle w (D i j) = true -> wlt (la_zero LA) (lam w) = true).
  { intros w i j Hi Hj Hw. eapply wlt_le_trans; [apply (Hd i j); auto|]. now apply Ha. }
  assert (Hp : forall e, In e M -> wlt (la_zero LA) (lam (ewt e)) = true).
  { intros e He. destruct (st_range _ _ ST e He) as [R1 R2]. destruct (EQ e He) as [Q1 _].
    eapply wlt_le_trans; [|apply Ha; exact Q1]. unfold mutual.
    assert (HCc : forall k, k < n -> wlt (la_zero LA) (lam (nth k core winf)) = true).
    { intros k Hk. destruct (le_lt_dec ms 1) as [Hm|Hm].
      - rewrite C1 by auto. apply (Hdz _ k k); auto. apply Mo. now apply Least.
      - destruct (C2 Hm k Hk) as (K & _). apply in_map_iff in K as (q & K & Hq). apply in_seq in Hq. rewrite <- K. apply Hd; lia. }
    pose proof (wmax_cases (wmax (D (esrc e) (edst e)) (nth (esrc e) core winf)) (nth (edst e) core winf)) as EW.
    pose proof (wmax_cases (D (esrc e) (edst e)) (nth (esrc e) core winf)) as EW'. unfold D in EW, EW'.
    destruct EW as [-> | ->]; auto. destruct EW' as [-> | ->]; auto. }
  destruct (plain_level lam LA A garbage by_parent st n M ls ps T HK ST Hn ER Hp Hroot x Hx Hl) as [d Hlev]. exists d.
  pose proof Hlev as ((e & He & Ee) & _). eapply level_group; [| |exact Hlev].
  - intros eps. apply (boruvka_dc t n rd lb zero root mode ms eps Sh Lb Sym Fi Zf Self0 Mo Hn Hms Th Least M nbrs core E).
  - rewrite <- Ee. apply (positive_finite lam (la_zero LA)); auto.
Qed.
