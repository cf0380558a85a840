(** Which data have clusters, for complete runs. *)
From Coq Require Import List Arith Lia Bool Permutation Sorted ZArith.
From Verif Require Import Prelude Order Graph Size Num Forest M_TreeQuery M_Boruvka S_SpaceTree S_Boruvka P_BoruvkaAgree S_Kruskal M_Kruskal M_KruskalEntry P_KruskalEntry M_Linkage S_Linkage M_Condense S_Condense M_Select S_Select M_Labels S_Labels
  M_Pipeline S_Pipeline P_CTree P_Below P_NodePath P_UniqueTree P_LabelsProps P_LabelsTop P_PipelineTop P_PipelineRun P_PipelineMeaning P_PipelineEx P_PersistEmpty
  M_Estimator S_Estimator P_Estimator P_EstimatorEx P_Sort S_Dbscan P_Dbscan S_Level S_Unique P_Level P_LevelTop S_Join P_Join P_JoinTop S_Split P_Split.
Import ListNotations.
Local Open Scope nat_scope.

(** ** From an explained run *)
Section Explained.
  Context {W V : WOrd} {Sz : SOrd}.
  Variables (lam : W -> V) (LA : LamArith V) (st : settings V Sz) (n : nat) (wt : nat -> Sz) (M : list (edge W)) (ls : list Z) (ps : list V)
    (T : list (crow V Sz)) (L : list (lrow W Sz)) (T0 : list (crow V Sz)) (chosen final : list nat).
  Hypothesis HX : explained lam LA st n wt M ls ps T L T0 chosen final.
  Hypothesis Hn : 2 <= n.
  Notation mcs := (min_cluster_size st).
  Notation label x := (nth x ls 0%Z).
  Let HT : condensed n wt mcs T := proj1 (xp_tree _ _ _ _ _ _ _ _ _ _ _ _ _ HX).

  Lemma no_rows_noise : cluster_rows n T = [] -> ls = repeat (-1)%Z n.
  Proof.
    intro E. pose proof (xp_unsplit _ _ _ _ _ _ _ _ _ _ _ _ _ HX E) as Ec.
    assert (Ef : final = []) by (rewrite (xp_no_epsilon _ _ _ _ _ _ _ _ _ _ _ _ _ HX); auto; right; rewrite Ec; cbn; lia).
    apply (xp_all_noise _ _ _ _ _ _ _ _ _ _ _ _ _ HX Ef).
  Qed.

  Hypothesis Hper : cluster_selection_persistence st = None.
  Hypothesis Hnonneg : forall x, x < n -> sle szero (wt x) = true.

  Lemma parted_rows : parted_by n wt mcs M -> cluster_rows n T <> [].
  Proof.
    intro H. assert (HF : faithful n L wt mcs None lam T) by (rewrite (same_tree lam LA st n wt M ls ps T L T0 chosen final HX Hper); apply (xp_faithful _ _ _ _ _ _ _ _ _ _ _ _ _ HX)).
    eapply (parted_splits n wt mcs lam M L T); eauto. apply (xp_linkage _ _ _ _ _ _ _ _ _ _ _ _ _ HX).
  Qed.
  Lemma rows_parted : distinct_weights M -> cluster_rows n T <> [] -> parted_by n wt mcs M.
  Proof.
    intros Hdw H. assert (HF : faithful n L wt mcs None lam T) by (rewrite (same_tree lam LA st n wt M ls ps T L T0 chosen final HX Hper); apply (xp_faithful _ _ _ _ _ _ _ _ _ _ _ _ _ HX)).
    eapply (splits_parted n wt mcs lam M L T); eauto. apply (xp_linkage _ _ _ _ _ _ _ _ _ _ _ _ _ HX).
  Qed.

  Hypothesis Hpos : forall e, In e M -> wlt (la_zero LA) (lam (ewt e)) = true.
  Hypothesis Heps : cluster_selection_epsilon st = None.
  Hypothesis Hsingle : allow_single_cluster st = false \/ cluster_selection_method st = Leaf.

  (** Below every cluster there is one without sub-clusters. *)
  Lemma leaf_below c : is_cluster n T c -> exists l, leaf_cluster n T l /\ (l = c \/ descends n T c l).
  Proof.
    assert (HB : forall k c, n + 1 + length (cluster_rows n T) <= c + k -> is_cluster n T c -> exists l, leaf_cluster n T l /\ (l = c \/ descends n T c l)).
    { induction k as [|k IH]; intros d Hk Hd.
      - apply (is_cluster_iff n wt mcs T HT) in Hd. unfold top_id in Hd. lia.
      - destruct (existsb (fun r => Nat.eqb (c_parent r) d) (cluster_rows n T)) eqn:Ex.
        + apply existsb_exists in Ex as (r & Hr & E). apply Nat.eqb_eq in E. pose proof (parent_lt_child n wt mcs T HT r Hr). pose proof (ct_in n T r Hr) as Hr'.
          assert (Hc : is_cluster n T (c_child r)) by (right; split; [lia|eauto]).
          destruct (IH (c_child r) ltac:(lia) Hc) as (l & Hl & Hor). exists l. split; auto. right. rewrite <- E. destruct Hor as [->|Hor]; [constructor; auto; lia|].
          eapply desc_trans; [|exact Hor]. constructor; auto. lia.
        + exists d. split; auto. split; auto. intros r Hr Ep Hge. apply (in_ct n T) in Hr; auto.
          assert (Ht : existsb (fun r => Nat.eqb (c_parent r) d) (cluster_rows n T) = true) by (apply existsb_exists; exists r; split; auto; now apply Nat.eqb_eq). congruence. }
    intro Hc. apply (HB (n + 1 + length (cluster_rows n T))); auto. lia.
  Qed.
  Lemma has_below c : is_cluster n T c -> exists x, below n T c x.
  Proof.
    assert (HF : faithful n L wt mcs None lam T) by (rewrite (same_tree lam LA st n wt M ls ps T L T0 chosen final HX Hper); apply (xp_faithful _ _ _ _ _ _ _ _ _ _ _ _ _ HX)).
    pose proof (proj1 (xp_linkage _ _ _ _ _ _ _ _ _ _ _ _ _ HX)) as HD. destruct HF as (top & _ & Hbel & _ & Hclu). intro Hc.
    destruct Hc as [->|(Hge & q & Hq & E)]; [exists 0; apply (below_root n wt mcs T HT); lia|]. destruct (Hclu q Hq ltac:(lia)) as (i & r & _ & Hr & _ & _ & Hv & _).
    destruct (P_NodePath.has_sample n L HD (top (c_child q))) as [x Hx]; [eapply (child_node n L HD); eauto|]. exists x. rewrite <- E. apply Hbel; auto. right. split; [lia|eauto].
  Qed.
  Lemma sibling r : In r (cluster_rows n T) -> exists q, In q (cluster_rows n T) /\ c_parent q = c_parent r /\ c_child q <> c_child r.
  Proof.
    intro Hr. destruct (even_length n wt mcs T HT) as [s Hs]. pose proof (ct_child_NoDup n wt mcs T HT) as HN. apply In_nth_error in Hr as [k Hk].
    assert (Hkl : k < length (cluster_rows n T)) by (apply nth_error_Some; congruence).
    assert (HP : forall j r q, nth_error (cluster_rows n T) (2 * j) = Some r -> nth_error (cluster_rows n T) (2 * j + 1) = Some q -> c_child q <> c_child r).
    { intros j a b Ha Hb E. rewrite NoDup_nth_error in HN.
      assert (2 * j = 2 * j + 1); [|lia]. apply HN; [rewrite map_length; apply nth_error_Some; congruence|]. rewrite !nth_error_map, Ha, Hb. cbn. congruence. }
    destruct (Nat.Even_or_Odd k) as [[j ->]|[j ->]].
    - destruct (nth_error (cluster_rows n T) (2 * j + 1)) as [q|] eqn:E; [|apply nth_error_None in E; lia]. exists q. split; [eapply nth_error_In; eauto|].
      destruct (ct_pairs _ _ _ _ HT j r q Hk E) as [E' _]. split; auto. eapply HP; eauto.
    - destruct (nth_error (cluster_rows n T) (2 * j)) as [q|] eqn:E; [|apply nth_error_None in E; lia]. exists q. split; [eapply nth_error_In; eauto|].
      destruct (ct_pairs _ _ _ _ HT j q r E Hk) as [E' _]. split; auto. intro Ec. eapply HP; eauto.
  Qed.
  Lemma over_root_child r s : In r (cluster_rows n T) -> c_parent r = n -> In (c_child r) (sub (children_of (cluster_rows n T)) (top_id n T) s) -> s = c_child r \/ s = n.
  Proof.
    intros Hr E H. destruct (Nat.eq_dec (c_child r) s) as [|Hne]; auto. right.
    destruct (sub_up _ _ (ct_up n wt mcs T HT) (ct_bound n wt mcs T HT) s _ H Hne) as (p & Hp & Hps). apply ch_in in Hp as (q & Hq & Ep & Ec).
    assert (q = r) as -> by (eapply (ct_row_eq n wt mcs T HT); eauto). rewrite <- Ep, E in Hps. destruct (sub_range n wt mcs T HT s n Hps); [auto|lia].
  Qed.

  Lemma rows_enough : cluster_rows n T <> [] -> sle mcs (ssum (map wt (seq 0 n))) = true.
  Proof.
    intro HR. destruct (root_children n wt mcs T HT HR) as (r & Hr & _). pose proof (ct_child_in n wt mcs T HT r Hr) as Hc.
    destruct (ct_sizes _ _ _ _ HT r (ct_in n T r Hr) ltac:(lia)) as (Hm & xs & N & U & E). rewrite E in Hm. eapply sle_trans; [exact Hm|]. apply ssum_incl; auto; [| |apply seq_NoDup].
    - intros x Hx. apply in_seq. apply U, (below_lt n T) in Hx. lia.
    - intros y Hy. apply in_seq in Hy. apply Hnonneg. lia.
  Qed.

  Lemma two_clusters : cluster_rows n T <> [] -> exists x y, x < n /\ y < n /\ label x <> (-1)%Z /\ label y <> (-1)%Z /\ label x <> label y.
  Proof.
    intro HR. pose proof (rows_enough HR) as Hall. destruct (root_children n wt mcs T HT HR) as (r & Hr & Er). destruct (sibling r Hr) as (q & Hq & Eq & Hne). rewrite Er in Eq.
    assert (Hroot : ~ In n final) by (eapply root_not_final; eauto).
    assert (HC : forall r, In r (cluster_rows n T) -> exists s x, In s final /\ below n T s x /\ below n T (c_child r) x).
    { intros r0 Hr0. pose proof (ct_child_in n wt mcs T HT r0 Hr0) as Hb. assert (Hc : is_cluster n T (c_child r0)) by (right; split; [lia|exists r0; split; auto; now apply (ct_in n T)]).
      destruct (leaf_below _ Hc) as (l & Hl & Hor). destruct (has_below l (proj1 Hl)) as [x Hx].
      assert (Hcov : exists s, In s final /\ (s = l \/ descends n T s l)).
      { assert (Efc : final = chosen) by (eapply final_chosen; eauto). rewrite Efc. destruct (cluster_selection_method st) eqn:Em.
        - destruct (xp_eom _ _ _ _ _ _ _ _ _ _ _ _ _ HX Em HR) as (_ & _ & K). apply K; auto.
        - exists l. split; auto. now apply (xp_leaf _ _ _ _ _ _ _ _ _ _ _ _ _ HX Em HR). }
      assert (Hup : forall c, l = c \/ descends n T c l -> below n T c x).
      { intros c [->|H]; auto. apply (descends_sub n wt mcs T HT) in H as [H _]. eapply (below_up n wt mcs T HT); eauto. }
      destruct Hcov as (s & Hs & Hsl). exists s, x. split; auto. split; apply Hup; auto. destruct Hsl; auto. }
    destruct (HC r Hr) as (s1 & x & Hs1 & X1 & X2). destruct (HC q Hq) as (s2 & y & Hs2 & Y1 & Y2).
    pose proof (below_lt n T s1 x X1) as Hx. pose proof (below_lt n T s2 y Y1) as Hy. exists x, y. split; auto. split; auto.
    assert (Lx : label x = Z.of_nat (position final s1)) by (eapply member; eauto). assert (Ly : label y = Z.of_nat (position final s2)) by (eapply member; eauto).
    split; [lia|]. split; [lia|]. rewrite Lx, Ly. intro E. apply Nat2Z.inj in E. apply position_inj in E; auto; [|apply (xp_disjoint _ _ _ _ _ _ _ _ _ _ _ _ _ HX)]. subst s2.
    assert (Hin : forall r0 z, In r0 (cluster_rows n T) -> c_parent r0 = n -> below n T s1 z -> below n T (c_child r0) z -> In s1 (sub (children_of (cluster_rows n T)) (top_id n T) (c_child r0))).
    { intros r0 z H0 E0 Z1 Z2. destruct (below_nested n wt mcs T HT _ _ z Z1 Z2) as [K|K]; auto. destruct (over_root_child r0 s1 H0 E0 K) as [K'|K']; [|rewrite K' in Hs1; contradiction].
      rewrite <- K' in K |- *. exact K. }
    pose proof (below_up n wt mcs T HT _ _ x (Hin r x Hr Er X1 X2) X1) as B1. pose proof (below_up n wt mcs T HT _ _ x (Hin q y Hq Eq Y1 Y2) X1) as B2.
    pose proof (ct_child_in n wt mcs T HT r Hr). pose proof (ct_child_in n wt mcs T HT q Hq).
    destruct (below_nested n wt mcs T HT _ _ x B1 B2) as [K|K]; [destruct (over_root_child r _ Hr Er K)|destruct (over_root_child q _ Hq Eq K)]; lia.
  Qed.
End Explained.

(** ** Runs on a spanning tree *)
Section Run.
  Context {W V : WOrd}.
  Variables (lam : W -> V) (LA : LamArith V) (A : Arith V NatSize) (garbage : nat -> V)
    (by_parent : list (crow V NatSize) -> list (crow V NatSize)) (st : settings V NatSize) (n : nat) (M : list (edge W)).
  Hypothesis HK : setting_ok lam LA A by_parent st.
  Hypothesis HM : spanning_tree n M.
  Hypothesis Hn : 2 <= n.
  Notation mcs := (min_cluster_size st).
  Notation run s := (clusters_from_spanning_tree lam LA A garbage by_parent s M).
  Notation parted_tree := (parted_by (Sz := NatSize) n (fun _ => 1) mcs M).

  Lemma run_rows ls ps T : run st = Ok (ls, ps, T) -> cluster_selection_persistence st = None ->
    (parted_tree -> cluster_rows n T <> []) /\ (distinct_weights M -> cluster_rows n T <> [] -> parted_tree).
  Proof.
    intros ER Hp. destruct (c45 lam LA A garbage by_parent st n M ls ps T HK HM Hn ER) as (L & T0 & C & F & HX). split.
    - eapply parted_rows; eauto.
    - intros. eapply rows_parted; eauto.
  Qed.
  Lemma run_noise ls ps T : run st = Ok (ls, ps, T) -> cluster_rows n T = [] -> ls = repeat (-1)%Z n.
  Proof. intros ER E. destruct (c45 lam LA A garbage by_parent st n M ls ps T HK HM Hn ER) as (L & T0 & C & F & HX). eapply no_rows_noise; eauto. Qed.
  Lemma run_two ls ps T : run st = Ok (ls, ps, T) -> cluster_selection_persistence st = None -> cluster_selection_epsilon st = None ->
    allow_single_cluster st = false \/ cluster_selection_method st = Leaf -> (forall e, In e M -> wlt (la_zero LA) (lam (ewt e)) = true) ->
    cluster_rows n T <> [] -> exists x y, x < n /\ y < n /\ nth x ls 0%Z <> (-1)%Z /\ nth y ls 0%Z <> (-1)%Z /\ nth x ls 0%Z <> nth y ls 0%Z.
  Proof.
    intros ER Hp He Hs Hpos HR. destruct (c45 lam LA A garbage by_parent st n M ls ps T HK HM Hn ER) as (L & T0 & C & F & HX).
    eapply two_clusters; eauto.
  Qed.

  Lemma parted_two ls ps T : run st = Ok (ls, ps, T) -> cluster_selection_persistence st = None -> cluster_selection_epsilon st = None ->
    allow_single_cluster st = false \/ cluster_selection_method st = Leaf -> (forall e, In e M -> wlt (la_zero LA) (lam (ewt e)) = true) ->
    parted_tree -> exists x y, x < n /\ y < n /\ nth x ls 0%Z <> (-1)%Z /\ nth y ls 0%Z <> (-1)%Z /\ nth x ls 0%Z <> nth y ls 0%Z.
  Proof. intros ER Hp He Hs Hpos HP. eapply run_two; eauto. eapply run_rows; eauto. Qed.
  Lemma unparted_noise ls ps T : run st = Ok (ls, ps, T) -> cluster_selection_persistence st = None -> distinct_weights M -> ~ parted_tree -> ls = repeat (-1)%Z n.
  Proof.
    intros ER Hp Hd HP. eapply run_noise; eauto. destruct (cluster_rows n T) as [|q l] eqn:E; auto. exfalso. apply HP.
    eapply run_rows; eauto. rewrite E. discriminate.
  Qed.
  Lemma never_one ls ps T x : run st = Ok (ls, ps, T) -> cluster_selection_persistence st = None -> cluster_selection_epsilon st = None ->
    allow_single_cluster st = false \/ cluster_selection_method st = Leaf -> (forall e, In e M -> wlt (la_zero LA) (lam (ewt e)) = true) ->
    x < n -> nth x ls 0%Z <> (-1)%Z -> exists y, y < n /\ nth y ls 0%Z <> (-1)%Z /\ nth y ls 0%Z <> nth x ls 0%Z.
  Proof.
    intros ER Hp He Hs Hpos Hx Hl. assert (HR : cluster_rows n T <> []).
    { intro E. apply Hl. rewrite (run_noise ls ps T ER E), nth_indep with (d' := (-1)%Z); [apply nth_repeat|now rewrite repeat_length]. }
    destruct (run_two ls ps T ER Hp He Hs Hpos HR) as (a & b & Ha & Hb & La & Lb & Hab). destruct (Z.eq_dec (nth a ls 0%Z) (nth x ls 0%Z)) as [E|E].
    - exists b. split; auto. split; auto. congruence.
    - exists a. auto.
  Qed.

  (** With a persistence threshold. *)
  Definition unfiltered : settings V NatSize :=
    {| min_cluster_size := mcs; cluster_selection_method := cluster_selection_method st; max_cluster_size := max_cluster_size st;
       allow_single_cluster := allow_single_cluster st; cluster_selection_epsilon := cluster_selection_epsilon st; cluster_selection_persistence := None |}.
  Lemma unfiltered_ok : setting_ok lam LA A by_parent unfiltered.
  Proof. destruct HK as [[U1 U2 U3 U4] H2 H3 H4 H5 H6]. constructor; auto. constructor; auto. intros p Hp. discriminate. Qed.
  Lemma persistence_run persists : cluster_selection_persistence st = Some persists ->
    (parted_tree -> exists ls ps T, run st = Ok (ls, ps, T) /\ clustering (la_zero LA) (la_one LA) n ls ps) /\
    (distinct_weights M -> ~ parted_tree -> run st = Err IndexError).
  Proof.
    intro Hp. destruct (linkage_plain n M HM) as (L & EL & HL). pose proof (us_size _ _ (so_usable _ _ _ _ _ HK)) as Hs.
    destruct (unsplit_fails lam LA A garbage by_parent st unfiltered n (fun _ => 1 : NatSize) M L HK unfiltered_ok eq_refl eq_refl persists Hp HL Hn) as (ls0 & ps0 & T0 & E0 & F1 & F2); auto.
    { intros x _. apply slt_true in Hs. auto. }
    assert (EQ : forall s, run s = clusters_from_linkage_tree lam LA A garbage by_parent s (fun _ => 1 : NatSize) n L).
    { intro s. unfold clusters_from_spanning_tree. rewrite EL. cbn [bind]. now rewrite (facts_length n M HM). }
    rewrite <- EQ in E0, F1, F2.
    destruct (c45 lam LA A garbage by_parent unfiltered n M ls0 ps0 T0 unfiltered_ok HM Hn E0) as (L' & T1 & C & F & HX). split.
    - intro K. apply F2. eapply parted_rows; eauto.
    - intros Hd K. apply F1. destruct (cluster_rows n T0) as [|q l] eqn:E; auto. exfalso. apply K.
      eapply (rows_parted lam LA unfiltered); eauto. rewrite E. discriminate.
  Qed.
End Run.

(** With sample weights. *)
Section Weighted.
  Context {W V : WOrd} {Sz : SOrd}.
  Variables (lam : W -> V) (LA : LamArith V) (A : Arith V Sz) (garbage : nat -> V)
    (by_parent : list (crow V Sz) -> list (crow V Sz)) (st : settings V Sz) (n : nat) (M : list (edge W)) (ws : list Sz) (ls : list Z) (ps : list V) (T : list (crow V Sz)).
  Hypothesis HK : setting_ok lam LA A by_parent st.
  Hypothesis HM : spanning_tree n M.
  Hypothesis Hn : 2 <= n.
  Hypothesis Hlen : length ws = n.
  Hypothesis Hone : sle (s := Sz) szero sone = true.
  Hypothesis Hws : forall w, In w ws -> sle szero w = true /\ slt w (min_cluster_size st) = true.
  Hypothesis ER : clusters_from_spanning_tree_weighted lam LA A garbage by_parent st M ws = Ok (ls, ps, T).
  Hypothesis Hper : cluster_selection_persistence st = None.
  Notation parted_tree := (parted_by n (fun x => nth x ws szero) (min_cluster_size st) M).

  Lemma ws_nonneg x : x < n -> sle (s := Sz) szero (nth x ws szero) = true.
  Proof. intro Hx. apply Hws, nth_In. lia. Qed.
  Lemma weighted_two : cluster_selection_epsilon st = None -> allow_single_cluster st = false \/ cluster_selection_method st = Leaf ->
    (forall e, In e M -> wlt (la_zero LA) (lam (ewt e)) = true) -> parted_tree ->
    exists x y, x < n /\ y < n /\ nth x ls 0%Z <> (-1)%Z /\ nth y ls 0%Z <> (-1)%Z /\ nth x ls 0%Z <> nth y ls 0%Z.
  Proof.
    intros He Hs Hpos HP. destruct (c45_weighted lam LA A garbage by_parent st n M ws ls ps T HK HM Hn Hlen Hone ltac:(intros w H; now apply Hws) ER) as (L & T0 & C & F & HX).
    pose proof ws_nonneg. eapply two_clusters; eauto. eapply parted_rows; eauto.
  Qed.
  Lemma weighted_noise : distinct_weights M -> ~ parted_tree -> ls = repeat (-1)%Z n.
  Proof.
    intros Hd HP. destruct (c45_weighted lam LA A garbage by_parent st n M ws ls ps T HK HM Hn Hlen Hone ltac:(intros w H; now apply Hws) ER) as (L & T0 & C & F & HX).
    pose proof ws_nonneg. eapply no_rows_noise; eauto. destruct (cluster_rows n T) as [|q l] eqn:E; auto. exfalso. apply HP.
    eapply rows_parted; eauto. rewrite E. discriminate.
  Qed.
End Weighted.

(** ** In terms of the samples *)
Lemma gathered_data {W : WOrd} (D : nat -> nat -> W) n ms k (M : list (edge W)) x eps :
  (forall eps x y, connected (passing (fun w => wlt w eps) M) x y <-> density_connected D n ms eps x y) ->
  (crowd (Sz := NatSize) n (fun _ => 1) k (connected (passing (fun w => wlt w eps) M) x) <-> gathered D n ms k eps x).
Proof.
  intros HC. split.
  - intros (xs & N & U & Hm). rewrite ssum_ones in Hm. apply Nat.leb_le in Hm. exists (firstn k xs). split; [|split].
    + rewrite <- (firstn_skipn k xs) in N. apply NoDup_app_iff in N. tauto.
    + rewrite firstn_length. lia.
    + intros y Hy. assert (Hin : In y xs) by (rewrite <- (firstn_skipn k xs); apply in_or_app; auto). destruct (U y Hin) as [Hyn K]. split; auto. now apply HC.
  - intros (xs & N & E & U). exists xs. split; auto. split; [|rewrite ssum_ones, E; now apply Nat.leb_le]. intros y Hy. destruct (U y Hy). split; auto. now apply HC.
Qed.
Lemma parted_data {W : WOrd} (D : nat -> nat -> W) n ms k (M : list (edge W)) :
  (forall eps x y, connected (passing (fun w => wlt w eps) M) x y <-> density_connected D n ms eps x y) ->
  (parted_by (Sz := NatSize) n (fun _ => 1) k M <-> parted D n ms k).
Proof.
  intros HC. split; intros (eps & x & y & Hx & Hy & Cx & Cy & K); exists eps, x, y; (split; [auto|]); (split; [auto|]);
    (split; [now apply (gathered_data D n ms k M x eps HC)|]); (split; [now apply (gathered_data D n ms k M y eps HC)|]); intro K'; apply K; now apply HC.
Qed.

(** fast_hdbscan ends as the clustering of its spanning tree does. *)
Lemma fast_prefix {W V : WOrd} {Row} (lam : W -> V) (LA : LamArith V) garbage (mst_of : list Row -> res (list (edge W))) A by_parent (st : settings V NatSize) rows M :
  2 <= length rows -> mst_of rows = Ok M -> forall v, clusters_from_spanning_tree lam LA A garbage by_parent st M = v ->
  match v with
  | Ok _ => exists r, fast_hdbscan lam LA garbage mst_of A by_parent st rows = Ok r
  | Err e => fast_hdbscan lam LA garbage mst_of A by_parent st rows = Err e
  end.
Proof.
  intros Hn EM v <-. unfold fast_hdbscan, clusters_from_spanning_tree.
  destruct (Nat.eqb_spec (length rows) 0) as [|_]; [lia|]. destruct (Nat.ltb_spec (length rows) 2) as [|_]; [lia|]. rewrite EM. cbn [bind].
  destruct (mst_to_linkage_tree (sort_mst M)) as [L|]; [|reflexivity]. cbn [bind].
  destruct (clusters_from_linkage_tree lam LA A garbage by_parent st (fun _ => 1) (length M + 1) L) as [[r T]|]; [|reflexivity]. cbn [bind]. eauto.
Qed.

(** ** fit *)
Section Fit.
  Context {W V : WOrd} {Row : Type}.
  Variables (lam : W -> V) (LA : LamArith V) (garbage : nat -> V) (zero : W) (dist : Row -> Row -> W) (ms : nat)
    (finite : Row -> bool) (set_list : list nat -> list nat) (X : list Row) (A : Arith V NatSize)
    (by_parent : list (crow V NatSize) -> list (crow V NatSize)) (st : settings V NatSize).
  Hypothesis Hset : forall l, Permutation (set_list l) l.
  Hypothesis HK : setting_ok lam LA A by_parent st.
  Hypothesis Sym : forall a b, dist a b = dist b a.
  Hypothesis Self : forall a b, wle (dist a a) (dist a b) = true.
  Hypothesis Least : forall a b, wle zero (dist a b) = true.
  Notation F := (filter finite X).
  Hypothesis Hn : (if forallb finite X then 2 else 3) <= length F.
  Notation Dx := (row_distance finite dist X).
  Notation Df := (row_distance finite dist F).
  Notation mcs := (min_cluster_size st).
  Notation run := (fit (la_zero LA) finite set_list (fast_hdbscan lam LA garbage (pairs_mst zero dist ms) A by_parent st) X).

  Lemma mcs_two : 2 <= mcs.
  Proof. pose proof (us_size _ _ (so_usable _ _ _ _ _ HK)) as Hs. apply slt_true in Hs. apply Nat.leb_gt in Hs. exact Hs. Qed.
  Lemma dc_present pos p q eps : places finite X pos -> density_connected Dx (length X) ms eps p q -> p = q \/ exists i, i < length F /\ p = pos i.
  Proof.
    intros HP H. induction H as [|y z H IH Hy Hz Cy Cz Lt]; auto. destruct IH as [<-|]; auto. right.
    destruct (near_present finite dist X eps pos HP _ _ Lt) as (j & k & Hj & Hk & Ej & _). eauto.
  Qed.
  Lemma gathered_present pos p k eps : places finite X pos -> 2 <= k -> gathered Dx (length X) ms k eps p -> exists i, i < length F /\ p = pos i.
  Proof.
    intros HP Hk (xs & N & E & U). assert (exists y, In y xs /\ y <> p) as (y & Hy & Hne).
    { destruct xs as [|a [|b l]]; cbn in E; try lia. destruct (Nat.eq_dec a p) as [->|]; [|exists a; split; [now left|auto]].
      exists b. split; [right; now left|]. intros ->. inversion_clear N. apply H. now left. }
    destruct (U y Hy) as [_ K]. destruct (dc_present pos p y eps HP K) as [->|]; [contradiction|auto].
  Qed.
  Lemma parted_pos pos : places finite X pos -> (parted Dx (length X) ms mcs <-> parted Df (length F) ms mcs).
  Proof.
    intro HP. pose proof mcs_two. split.
    - intros (eps & x & y & Hx & Hy & Gx & Gy & K). destruct (gathered_present pos x _ eps HP ltac:(eassumption) Gx) as (i & Hi & ->).
      destruct (gathered_present pos y _ eps HP ltac:(eassumption) Gy) as (j & Hj & ->). exists eps, i, j. split; auto. split; auto.
      split; [apply (gathered_pos dist ms finite X pos HP i mcs eps Hi); exact Gx|]. split; [apply (gathered_pos dist ms finite X pos HP j mcs eps Hj); exact Gy|]. intro K'. apply K. now apply dc_to_places.
    - intros (eps & x & y & Hx & Hy & Gx & Gy & K). exists eps, (pos x), (pos y). split; [eapply pos_range; eauto|]. split; [eapply pos_range; eauto|].
      split; [apply (gathered_pos dist ms finite X pos HP x mcs eps Hx); exact Gx|]. split; [apply (gathered_pos dist ms finite X pos HP y mcs eps Hy); exact Gy|]. intro K'. apply K.
      destruct (dc_from_places finite dist X ms eps pos HP x _ Hx K') as (j & Hj & E & K2). apply (pos_inj finite X pos HP) in E; auto. now subst j.
  Qed.

  (** What fit reports, in terms of the run on the rows without missing values. *)
  Lemma fit_reduces M : pairs_mst zero dist ms F = Ok M -> spanning_tree (length F) M ->
    (exists ls ps T r, clusters_from_spanning_tree lam LA A garbage by_parent st M = Ok (ls, ps, T) /\ run = Ok r /\ length (f_labels r) = length X /\
       exists pos, places finite X pos /\ (forall i, i < length F -> nth (pos i) (f_labels r) 0%Z = nth i ls 0%Z) /\
       (forall p, p < length X -> nth p (f_labels r) 0%Z <> (-1)%Z -> exists i, i < length F /\ pos i = p)) \/
    (clusters_from_spanning_tree lam LA A garbage by_parent st M = Err IndexError /\ run = Err IndexError).
  Proof.
    intros EM HM. assert (H2 : 2 <= length F) by (destruct (forallb finite X); lia).
    destruct (plain_total lam LA A garbage by_parent st (length F) M HK HM H2) as [(ls & ps & T & E' & Hc & _)|[Hf E']].
    - left. exists ls, ps, T.
      assert (HF : forallb finite X = true \/ forallb finite X = false) by (destruct (forallb finite X); auto). destruct HF as [HF|HF].
      + destruct (fast_prefix lam LA garbage (pairs_mst zero dist ms) A by_parent st F M H2 EM _ E') as (r & E0).
        destruct (fast_run lam LA garbage (pairs_mst zero dist ms) A by_parent st F r HK H2 ltac:(intros M' EE; congruence) E0) as ((M' & R2 & _ & R1) & _).
        assert (M' = M) by congruence. subst M'. rewrite R1 in E'. assert (E1 : f_labels r = ls) by congruence.
        exists r. split; [congruence|]. rewrite (all_finite_filter _ _ HF) in *. split; [unfold fit; now rewrite HF|]. rewrite E1. split; [apply Hc|].
        exists (fun i => i). split; [split; [intros; lia|split]|split; eauto].
        * intros i Hi. now rewrite (all_finite_filter _ _ HF).
        * intros p a Ha _. exists p. split; auto. apply nth_error_Some. rewrite (all_finite_filter _ _ HF). congruence.
      + pose proof Hn as Hn3. rewrite HF in Hn3.
        destruct (fast_prefix lam LA garbage (pairs_mst zero dist ms) A by_parent st F M H2 EM _ E') as (r0 & E0).
        destruct (fast_run lam LA garbage (pairs_mst zero dist ms) A by_parent st F r0 HK H2 ltac:(intros M' EE; congruence) E0) as ((M' & R2 & _ & R1) & R3 & R4 & R5 & R6).
        assert (M' = M) by congruence. subst M'. rewrite R1 in E'. assert (E2 : f_labels r0 = ls) by congruence. assert (E3 : f_probabilities r0 = ps) by congruence.
        destruct (fit_extends (la_zero LA) finite set_list (fast_hdbscan lam LA garbage (pairs_mst zero dist ms) A by_parent st) X (fun _ => 1) (fun _ => 1) mcs Hset HF Hn3)
          with (r0 := r0) as (r & others & E1 & HO & HP & Ex & _); auto.
        { rewrite E2. apply (cl_labels _ _ _ _ _ Hc). } { rewrite E3. apply (cl_strengths _ _ _ _ _ Hc). }
        exists r. split; [congruence|]. split; auto. destruct (ex_labels _ _ _ _ _ _ _ _ _ Ex) as (L1 & L2 & L3). split; auto. eexists. split; [exact HP|]. split.
        * intros i Hi. specialize (L2 i Hi). rewrite E2, (nth_error_nth' ls 0%Z) in L2 by (rewrite (cl_labels _ _ _ _ _ Hc); lia). now apply nth_error_nth.
        * intros q Hq Hlq. destruct (nth_error X q) as [a|] eqn:Ea; [|apply nth_error_None in Ea; lia]. destruct (finite a) eqn:Fa.
          -- destruct HP as (_ & _ & HP). apply (HP q a); auto.
          -- exfalso. apply Hlq. assert (Ho : In q others) by (apply HO; eauto). apply nth_error_nth. auto.
    - right. split; auto. pose proof (fast_prefix lam LA garbage (pairs_mst zero dist ms) A by_parent st F M H2 EM _ E') as E0.
      assert (HF : forallb finite X = true \/ forallb finite X = false) by (destruct (forallb finite X); auto). destruct HF as [HF|HF].
      + unfold fit. rewrite HF. now rewrite (all_finite_filter _ _ HF) in E0.
      + now apply fit_fails.
  Qed.

  Notation Fpairs := (pairs_mst zero dist ms F).
  Lemma fit_tree : exists M, Fpairs = Ok M /\ spanning_tree (length F) M /\ (parted_by (Sz := NatSize) (length F) (fun _ => 1) mcs M <-> parted Dx (length X) ms mcs).
  Proof.
    destruct (finite_pairs zero dist ms finite X Sym Self Least Hn) as (M & EM & HM & HC). exists M. split; auto. split; auto.
    rewrite (parted_pos _ (index_places finite X)). now apply parted_data.
  Qed.

  Theorem fit_unparted r : run = Ok r -> cluster_selection_persistence st = None -> (forall M, Fpairs = Ok M -> distinct_weights M) ->
    ~ parted Dx (length X) ms mcs -> f_labels r = repeat (-1)%Z (length X).
  Proof.
    intros E Hp Hd HP. assert (H2 : 2 <= length F) by (destruct (forallb finite X); lia). destruct fit_tree as (M & EM & HM & HI).
    destruct (fit_reduces M EM HM) as [(ls & ps & T & r' & E1 & E2 & Hl & pos & HPl & Hlab & Hfrom)|[_ E1]]; [|congruence]. assert (r' = r) by congruence. subst r'.
    pose proof (unparted_noise lam LA A garbage by_parent st (length F) M HK HM H2 ls ps T E1 Hp (Hd M EM) ltac:(tauto)) as En.
    apply (nth_ext _ _ 0%Z (-1)%Z); [now rewrite repeat_length|]. intros p Hlt. rewrite nth_repeat. destruct (Z.eq_dec (nth p (f_labels r) 0%Z) (-1)%Z) as [|Hne]; auto.
    destruct (Hfrom p ltac:(lia) Hne) as (i & Hi & <-). rewrite Hlab, En by auto. rewrite nth_indep with (d' := (-1)%Z); [apply nth_repeat|now rewrite repeat_length].
  Qed.

  Theorem fit_persistence persists : cluster_selection_persistence st = Some persists ->
    (parted Dx (length X) ms mcs -> exists r, run = Ok r) /\
    ((forall M, Fpairs = Ok M -> distinct_weights M) -> ~ parted Dx (length X) ms mcs -> run = Err IndexError).
  Proof.
    intro Hp. assert (H2 : 2 <= length F) by (destruct (forallb finite X); lia). destruct fit_tree as (M & EM & HM & HI).
    destruct (persistence_run lam LA A garbage by_parent st (length F) M HK HM H2 persists Hp) as [K1 K2]. split.
    - intro HP. destruct K1 as (ls & ps & T & E & _); [tauto|]. destruct (fit_reduces M EM HM) as [(ls' & ps' & T' & r & _ & E2 & _)|[E1 _]]; [eauto|congruence].
    - intros Hd HP. specialize (K2 (Hd M EM) ltac:(tauto)). destruct (fit_reduces M EM HM) as [(ls' & ps' & T' & r & E1 & _)|[_ E1]]; [congruence|auto].
  Qed.

  Hypothesis Hper : cluster_selection_persistence st = None.
  Hypothesis Heps : cluster_selection_epsilon st = None.
  Hypothesis Hsingle : allow_single_cluster st = false \/ cluster_selection_method st = Leaf.
  Hypothesis Hms : ms < length F.
  Hypothesis Hpos : forall a b, In a X -> In b X -> finite a = true -> finite b = true -> wlt (la_zero LA) (lam (dist a b)) = true.
  Lemma weights_pos M : Fpairs = Ok M -> forall e, In e M -> wlt (la_zero LA) (lam (ewt e)) = true.
  Proof.
    intro EM. assert (H2 : 2 <= length F) by (destruct (forallb finite X); lia).
    apply (pairs_weights zero dist ms F M (fun w => wlt (la_zero LA) (lam w) = true)); auto.
    - intros _. destruct F as [|a l] eqn:EF; [cbn in H2; lia|]. assert (Ha : In a F) by (rewrite EF; now left). apply filter_In in Ha as [Ha Hfa].
      eapply wlt_le_trans; [apply (Hpos a a); auto|]. now apply (so_antitone _ _ _ _ _ HK).
    - intros a b Ha Hb. apply filter_In in Ha as [Ha Hfa]. apply filter_In in Hb as [Hb Hfb]. auto.
  Qed.
  Theorem fit_parted r : run = Ok r -> parted Dx (length X) ms mcs ->
    exists p q, p < length X /\ q < length X /\ nth p (f_labels r) 0%Z <> (-1)%Z /\ nth q (f_labels r) 0%Z <> (-1)%Z /\ nth p (f_labels r) 0%Z <> nth q (f_labels r) 0%Z.
  Proof.
    intros E HP. assert (H2 : 2 <= length F) by (destruct (forallb finite X); lia). destruct fit_tree as (M & EM & HM & HI).
    destruct (fit_reduces M EM HM) as [(ls & ps & T & r' & E1 & E2 & Hl & pos & HPl & Hlab & Hfrom)|[_ E1]]; [|congruence]. assert (r' = r) by congruence. subst r'.
    destruct (parted_two lam LA A garbage by_parent st (length F) M HK HM H2 ls ps T E1 Hper Heps Hsingle (weights_pos M EM) ltac:(tauto)) as (x & y & Hx & Hy & Lx & Ly & Hxy).
    exists (pos x), (pos y). rewrite !Hlab by auto. split; [eapply pos_range; eauto|]. split; [eapply pos_range; eauto|]. auto.
  Qed.
  Theorem fit_never_one r p : run = Ok r -> p < length X -> nth p (f_labels r) 0%Z <> (-1)%Z ->
    exists q, q < length X /\ nth q (f_labels r) 0%Z <> (-1)%Z /\ nth q (f_labels r) 0%Z <> nth p (f_labels r) 0%Z.
  Proof.
    intros E Hp Hlp. assert (H2 : 2 <= length F) by (destruct (forallb finite X); lia). destruct fit_tree as (M & EM & HM & HI).
    destruct (fit_reduces M EM HM) as [(ls & ps & T & r' & E1 & E2 & Hl & pos & HPl & Hlab & Hfrom)|[_ E1]]; [|congruence]. assert (r' = r) by congruence. subst r'.
    destruct (Hfrom p Hp Hlp) as (i & Hi & <-). rewrite Hlab in Hlp |- * by auto.
    destruct (never_one lam LA A garbage by_parent st (length F) M HK HM H2 ls ps T i E1 Hper Heps Hsingle (weights_pos M EM) Hi Hlp) as (y & Hy & Ly & Hyx).
    exists (pos y). rewrite Hlab by auto. split; [eapply pos_range; eauto|]. auto.
  Qed.
End Fit.

(** ** The tree of the parallel search *)
Lemma boruvka_parted {W V : WOrd} (lam : W -> V) (LA : LamArith V) (garbage : nat -> V) (A : Arith V NatSize)
    (by_parent : list (crow V NatSize) -> list (crow V NatSize)) (st : settings V NatSize) t n (rd lb : nat -> nat -> W) zero root mode ms :
  setting_ok lam LA A by_parent st -> cluster_selection_persistence st = None ->
  tree_shape t n -> lower_bounds t rd lb ->
  (forall i j, i < n -> j < n -> rd i j = rd j i) ->
  (forall i j, i < n -> j < n -> wfinite (rd i j) = true) ->
  wfinite zero = true -> (forall i, i < n -> wle (rd i i) zero = true) ->
  (forall x y, wle x y = true -> wle (root x) (root y) = true) ->
  2 <= n -> ms < n -> threads_available mode ->
  (forall i j, i < n -> j < n -> wle zero (rd i j) = true) ->
  exists M nbrs core, parallel_boruvka t n rd lb zero root mode ms = Ok (M, nbrs, core) /\
    forall ls ps T, clusters_from_spanning_tree lam LA A garbage by_parent st M = Ok (ls, ps, T) ->
    (cluster_selection_epsilon st = None -> allow_single_cluster st = false \/ cluster_selection_method st = Leaf ->
     (forall e, In e M -> wlt (la_zero LA) (lam (ewt e)) = true) -> parted (fun i j => root (rd i j)) n ms (min_cluster_size st) ->
     exists x y, x < n /\ y < n /\ nth x ls 0%Z <> (-1)%Z /\ nth y ls 0%Z <> (-1)%Z /\ nth x ls 0%Z <> nth y ls 0%Z) /\
    (distinct_weights M -> ~ parted (fun i j => root (rd i j)) n ms (min_cluster_size st) -> ls = repeat (-1)%Z n).
Proof.
  intros HK Hp Sh Lb Sym Fi Zf Self0 Mo Hn Hms Th Least.
  destruct (tree_boruvka_reported t n rd lb zero root mode ms Sh Lb Sym Fi Zf Self0 Mo Hn Hms Th) as (M & nbrs & core & E & _ & ST & _).
  exists M, nbrs, core. split; auto. intros ls ps T ER.
  assert (HC : forall eps x y, connected (passing (fun w => wlt w eps) M) x y <-> density_connected (fun i j => root (rd i j)) n ms eps x y).
  { intros eps. apply (boruvka_dc t n rd lb zero root mode ms eps Sh Lb Sym Fi Zf Self0 Mo Hn Hms Th Least M nbrs core E). }
  pose proof (parted_data _ n ms (min_cluster_size st) M HC) as HI. split.
  - intros He Hs Hpos K. eapply parted_two; eauto. now apply HI.
  - intros Hd K. eapply unparted_noise; eauto. intro K'. apply K. now apply HI.
Qed.
