(** clusters_from_spanning_tree from the spanning tree to the labels. *)
From Coq Require Import List Arith Lia Bool ZArith Permutation Sorted QArith Qcanon.
From Verif Require Import Prelude Order Graph Size Num Forest P_Sort S_Kruskal S_Precomputed M_Kruskal P_Kruskal M_Linkage S_Linkage P_LinkageTop M_Condense S_Condense
  P_CondenseTop M_Select S_Select P_CTree P_Below P_Eom P_EomTop P_EomValue P_SelectTop M_Labels S_Labels P_Labels P_LabelsTop P_LabelsProps P_LabelsEx
  M_Epsilon S_Epsilon P_EpsilonTop M_Simplify S_Simplify P_SimplifyTop P_Faithful M_Pipeline S_Pipeline P_Pipeline P_PipelineTop.
Import ListNotations.
Local Open Scope nat_scope.

Lemma sort_mst_perm {W : WOrd} (M : list (edge W)) : Permutation M (sort_mst M).
Proof.
  unfold sort_mst. eapply Permutation_trans; [|apply isort_perm].
  eapply Permutation_trans; [|apply nsort_perm]. apply nsort_perm.
Qed.
Lemma spanning_perm {W} n (M M' : list (edge W)) : Permutation M M' -> spanning_tree n M -> spanning_tree n M'.
Proof.
  intros HP [H1 H2 H3 H4]. constructor.
  - intros e He. apply H1. eapply Permutation_in; [apply Permutation_sym; eauto|auto].
  - eapply acyclic_perm; eauto.
  - intros x y Hx Hy. apply (connected_perm _ _ HP). auto.
  - now rewrite <- (Permutation_length HP).
Qed.

Section Linkage.
  Context {W V : WOrd} {Sz : SOrd}.
  Variables (lam : W -> V) (LA : LamArith V) (sel : list (crow V Sz) -> res (list nat)) (garbage : nat -> V)
    (by_parent : list (crow V Sz) -> list (crow V Sz)) (st : settings V Sz).
  Variables (n : nat) (wt : nat -> Sz) (L : list (lrow W Sz)).
  Notation zero := (la_zero LA).
  Notation mcs := (min_cluster_size st).
  Hypothesis HL : LamLaws LA.
  Hypothesis HU : usable zero st.
  Hypothesis HB : sorts_by_parent by_parent.
  Hypothesis Hsel : forall T, condensed n wt mcs T -> (forall r, In r T -> wle zero (c_lam r) = true) ->
    exists S, sel T = Ok S /\ selects st n T S.
  Hypothesis Hsz : sle (s := Sz) szero sone = true.
  Hypothesis Hn : 2 <= n.
  Hypothesis Hlam : forall x y, wle x y = true -> wle (lam y) (lam x) = true.
  Hypothesis Hpos : forall w, wle zero (lam w) = true.
  Hypothesis HD : dendrogram n L.
  Hypothesis HS : sizes_are n wt L.
  Hypothesis HH : heights_sorted L.
  Hypothesis Hwt : forall x, x < n -> sle mcs (wt x) = false.
  (** A run with the selection [sel]. *)
  Definition run_with : res (list Z * list V * list (crow V Sz)) :=
    let* T := condensed_tree_of lam garbage st wt L in
    let* selected := sel T in
    let* selected := epsilon_clusters_of by_parent st T selected in
    let* ls := labels_and_strengths_of LA st T n selected in
    Ok (ls, T).
  Notation run := run_with.
  Notation out := (outcome LA sel by_parent st n).

  Definition good_run : Prop := exists T S E ls ps,
    condensed_tree_of lam garbage st wt L = Ok T /\ run = Ok (ls, ps, T) /\ out T S E ls ps /\
    condensed n wt mcs T /\ splits_once n T /\
    (forall r, In r T -> wle zero (c_lam r) = true) /\
    ((forall r, In r L -> wlt zero (lam (l_d r)) = true) -> forall r, In r T -> wlt zero (c_lam r) = true) /\
    (cluster_selection_persistence st = None -> faithful n L wt mcs None lam T).

  Lemma finish_run T S E ls ps : condensed_tree_of lam garbage st wt L = Ok T -> out T S E ls ps -> run = Ok (ls, ps, T).
  Proof.
    intros ET HX. unfold run_with. rewrite ET. cbn [bind]. destruct HX. rewrite oc_select. cbn [bind].
    rewrite oc_epsilon. cbn [bind]. rewrite oc_labels. reflexivity.
  Qed.

  Lemma linkage_cases : good_run \/ (cluster_selection_persistence st <> None /\ run = Err IndexError /\
    exists T0, condense_tree L lam mcs None wt = Ok T0 /\ cluster_rows n T0 = []).
  Proof.
    destruct (c24 W V Sz n L wt mcs None lam HD HS HH Hlam Hwt Hn) as (T0 & ET0 & HT0 & HF & HO0). specialize (HO0 eq_refl).
    pose proof (us_size _ _ HU) as Hone. assert (Hn0 : 0 < n) by lia.
    assert (Hp0 : forall r, In r T0 -> wle zero (c_lam r) = true).
    { intros r Hr. destruct (row_height n L wt mcs lam T0 HF r Hr) as (q & _ & ->). auto. }
    assert (Hs0 : (forall r, In r L -> wlt zero (lam (l_d r)) = true) -> forall r, In r T0 -> wlt zero (c_lam r) = true).
    { intros H r Hr. destruct (row_height n L wt mcs lam T0 HF r Hr) as (q & Hq & ->). auto. }
    assert (HT0ne : T0 <> []) by (apply (rows_nonempty _ _ _ _ HT0 Hn0)).
    destruct (cluster_selection_persistence st) as [persists|] eqn:Ep.
    - assert (EC : condensed_tree_of lam garbage st wt L = simplify_hierarchy persists garbage T0).
      { unfold condensed_tree_of. rewrite ET0. cbn [bind]. rewrite Ep. destruct T0; [congruence|auto]. }
      destruct (cluster_rows n T0) as [|r0 l0] eqn:ECT.
      + right. split; [discriminate|]. split; [|eauto]. unfold run_with. rewrite EC.
        rewrite (c31_empty V Sz persists garbage n wt mcs T0 HT0 Hone ECT). reflexivity.
      + left. assert (Hne : cluster_rows n T0 <> []) by (rewrite ECT; discriminate).
        destruct (c31 V Sz persists garbage n wt mcs T0 HT0 HO0 Hone Hsz Hne (us_persist _ _ HU persists Ep))
          as (T & new & ES & HT & HO & Hnn & _ & Hcl & _ & Hkept & Hsam & _).
        assert (Hlams : forall p : V -> bool, (forall r, In r T0 -> p (c_lam r) = true) -> forall r, In r T -> p (c_lam r) = true).
        { intros p Hp r Hr. destruct (Nat.lt_ge_cases (c_child r) n) as [Hc|Hc].
          - destruct (sample_row n wt mcs T0 HT0 (c_child r) Hc) as (r0' & Hr0 & Ec).
            destruct (Hsam r0' Hr0 ltac:(lia)) as (r' & c & Hr' & Ec' & Hst & _ & Hlow1 & Hlow2).
            assert (r' = r) as -> by (eapply row_eq; eauto; congruence).
            destruct (p (c_lam r)) eqn:Epr; auto.
            assert (Hnl : ~ lowered persists n T0 (c_parent r0')).
            { intro Hlow. assert (exists o, In o T0 /\ c_child o = c_parent r0') as (o & Ho & Eo).
              { destruct Hlow as (d & v & w & (ro & qo & Ho & _ & _ & _ & Eo & _) & _). eauto. }
              rewrite (Hlow2 Hlow o Ho Eo), Hp in Epr by auto. discriminate. }
            rewrite (Hlow1 Hnl), Hp in Epr by auto. discriminate.
          - assert (Hic : is_cluster n T (c_child r)) by (right; eauto). apply Hcl in Hic as (c & Hc0 & Ec).
            assert (Hcr : In r (cluster_rows n T)) by (apply filter_In; split; auto; now apply Nat.leb_le).
            pose proof (ct_child_in _ _ _ _ HT r Hcr) as Hr1.
            destruct Hc0 as [->|Hk].
            { lia. }
            pose proof (proj1 Hk) as [->|[_ (r0' & Hr0 & Er0)]]; [lia|]. rewrite <- Er0 in Hk.
            destruct (Hkept r0' Hr0 Hk) as (r' & c' & Hr' & Ec' & El & _).
            assert (r' = r) as -> by (eapply row_eq; eauto; congruence). rewrite El. auto. }
        assert (Hp1 : forall r, In r T -> wle zero (c_lam r) = true) by (apply (Hlams (fun v => wle zero v)); auto).
        rewrite ES in EC.
        destruct (run_ok LA sel by_parent st n wt T HL HU HB HT HO Hn0 Hp1 (Hsel T HT Hp1)) as (S & E & ls & ps & HX).
        exists T, S, E, ls, ps. split; auto. split; [eapply finish_run; eauto|]. split; auto. split; auto. split; auto. split; auto.
        split; [|congruence]. intros H r Hr. apply (Hlams (fun v => wlt zero v)); auto.
    - left. assert (EC : condensed_tree_of lam garbage st wt L = Ok T0).
      { unfold condensed_tree_of. rewrite ET0. cbn [bind]. rewrite Ep. destruct T0; auto. }
      destruct (run_ok LA sel by_parent st n wt T0 HL HU HB HT0 HO0 Hn0 Hp0 (Hsel T0 HT0 Hp0)) as (S & E & ls & ps & HX).
      exists T0, S, E, ls, ps. split; auto. split; [eapply finish_run; eauto|]. split; auto.
  Qed.

  Lemma linkage_run : good_run \/ (cluster_selection_persistence st <> None /\ run = Err IndexError).
  Proof. destruct linkage_cases as [H|(H1 & H2 & _)]; auto. Qed.

  (** Any complete run is a good one. *)
  Lemma run_good ls ps T : run = Ok (ls, ps, T) -> exists S E, out T S E ls ps /\
    condensed n wt mcs T /\ splits_once n T /\
    (forall r, In r T -> wle zero (c_lam r) = true) /\
    ((forall r, In r L -> wlt zero (lam (l_d r)) = true) -> forall r, In r T -> wlt zero (c_lam r) = true) /\
    (cluster_selection_persistence st = None -> faithful n L wt mcs None lam T).
  Proof.
    intro ER. destruct linkage_run as [(T' & S & E & ls' & ps' & _ & ER' & H)|[_ ER']]; [|congruence].
    rewrite ER in ER'. injection ER' as <- <- <-. eauto.
  Qed.

  (** C28. *)

  Lemma linkage_sizes ls ps T : run = Ok (ls, ps, T) -> (forall r, In r L -> wlt zero (lam (l_d r)) = true) ->
    (forall x, x < n -> sle szero (wt x) = true) -> root_ok st -> large_clusters n wt mcs ls /\ numbered n ls.
  Proof.
    intros ER Hfin Hw Hroot. destruct (run_good ls ps T ER) as (S & E & HX & HT & HO & _ & HF & Hfa). specialize (HF Hfin).
    assert (HR : allow_single_cluster st = true -> cluster_selection_method st = Eom -> cluster_selection_epsilon st = None /\
      forall q q0, In q T -> In q0 T -> n <= c_child q0 -> c_parent q = n -> c_parent q0 = n -> wle (c_lam q) (c_lam q0) = true).
    { intros H1 H2. destruct (Hroot H1 H2) as [H3 H4]. split; auto. intros q q0 Hq Hq0 Hc E1 E2.
      apply (split_densest n L wt mcs lam T HD HH Hlam (Hfa H4)); auto. congruence. }
    split; [eapply sizes_ok|eapply numbered_ok]; eauto; lia.
  Qed.

  (** Clusters of a run without persistence never join samples across a merge at
      density zero. *)
  Section Together.
    Variables (A : Arith V Sz) (Z N P : num A -> Prop).
    Hypothesis Hplain : forall T, sel T = selected_clusters_of A st T n.
    Hypothesis HSL : ScoreLaws lam A zero Z N P.

    (** No cluster below [s] is born at density zero, if [s] is labelled and has
        a sample of positive density. *)
    Lemma labelled_not_zero T S E ls ps : out T S E ls ps -> condensed n wt mcs T -> (forall r, In r T -> exists d, c_lam r = lam d) -> (forall r, In r T -> wle zero (c_lam r) = true) ->
      (forall q q0, In q T -> In q0 T -> n <= c_child q0 -> c_parent q = c_parent q0 ->
        wle (c_lam q0) zero = true -> wle (c_lam q) zero = true) ->
      forall s, In s E -> forall r, In r T -> c_child r < n -> below n T s (c_child r) -> wlt zero (c_lam r) = true ->
      forall q, In q T -> n <= c_child q -> descends n T s (c_child q) -> wlt zero (c_lam q) = true.
    Proof.
      intros HX HT Hrow Hp Hfa s Hs r Hr Hx Hb Hlr q Hq Hcq Hd.
      pose proof (us_size _ _ HU) as Hone.
      destruct (oc_E_from _ _ _ _ _ _ _ _ _ _ HX s Hs) as [HsS|(lt_eps & inv & Ee & Hm)].
      - destruct (cluster_selection_method st) eqn:Em.
        + destruct (wlt zero (c_lam q)) eqn:Eq; auto. exfalso. apply wlt_false in Eq.
          pose proof (oc_select _ _ _ _ _ _ _ _ _ _ HX) as ES. rewrite Hplain in ES. unfold selected_clusters_of in ES. rewrite Em, (us_max _ _ HU) in ES.
          assert (H := selected_not_zero lam A n wt mcs T zero Z N P HSL HT Hrow Hone ltac:(lia) Hp
            Hfa (allow_single_cluster st) S ES s q HsS
            (oc_E_clusters _ _ _ _ _ _ _ _ _ _ HX s Hs) Hq Hcq Hd Eq r Hr Hx Hb).
          unfold at0 in H. apply wlt_nle in Hlr. congruence.
        + exfalso. destruct (oc_S_leaf _ _ _ _ _ _ _ _ _ _ HX Em s HsS) as [_ Hleaf].
          assert (Hfirst : forall c d, descends n T c d -> exists q, In q T /\ n <= c_child q /\ c_parent q = c).
          { clear. induction 1 as [q Hq Hc|c d e H1 IH1 H2 IH2]; eauto. }
          destruct (Hfirst _ _ Hd) as (q1 & Hq1 & Hc1 & Ep1). apply (Hleaf q1); auto.
      - destruct Hm as (_ & _ & Hm & _). destruct (Hm _ Hd) as (q' & Hq' & _ & Eq' & Hlt).
        assert (q' = q) as -> by (eapply row_eq; eauto). apply (us_eps _ _ HU lt_eps inv Ee). auto.
    Qed.

    (** Samples with one label are below one final cluster, with positive density. *)
    Lemma share_cluster T S E ls ps : out T S E ls ps -> condensed n wt mcs T -> (forall r, In r T -> wle zero (c_lam r) = true) ->
      forall x y, x < n -> y < n -> nth x ls 0%Z <> (-1)%Z -> nth x ls 0%Z = nth y ls 0%Z ->
      exists t rx ry, In t E /\ In rx T /\ In ry T /\ c_child rx = x /\ c_child ry = y /\
        wlt zero (c_lam rx) = true /\ wlt zero (c_lam ry) = true /\ below n T t x /\ below n T t y.
    Proof.
      intros HX HT Hp x y Hx Hy Hl Exy.
      destruct (list_eq_dec Nat.eq_dec E []) as [E0|HEne].
      { exfalso. apply Hl. rewrite (oc_noise _ _ _ _ _ _ _ _ _ _ HX E0). apply (repeat_spec n). apply nth_In. now rewrite repeat_length. }
      assert (HOT := condensed_ordered _ _ _ _ HT). assert (Hn0 : 0 < n) by lia.
      (* every labelled sample has its home in E *)
      assert (Hhome : forall z, z < n -> nth z ls 0%Z <> (-1)%Z -> exists r t, In r T /\ c_child r = z /\ wlt zero (c_lam r) = true /\
        In t E /\ below n T t z /\ (E <> [n] -> nth z ls 0%Z = Z.of_nat (position E t)) ).
      { intros z Hz Hlz. destruct (sample_row n wt mcs T HT z Hz) as (r & Hr & <-).
        destruct (oc_right _ _ _ _ _ _ _ _ _ _ HX HEne r Hr Hz) as [Hz0 HR].
        assert (Hnz : ~ at_zero zero r) by (intro H; apply Hlz; auto). destruct (HR Hnz) as (t & Ht & H1 & H2 & _).
        assert (Hlr : wlt zero (c_lam r) = true).
        { unfold wlt. destruct (wle (c_lam r) zero) eqn:E1; auto. exfalso. apply Hnz. split; auto. }
        pose proof (home_sample_below n T E HOT Hn0 (oc_E_clusters _ _ _ _ _ _ _ _ _ _ HX) _ _ Hz Ht) as Hb.
        exists r, t. split; auto. split; auto. split; auto.
        destruct (Nat.eq_dec t n) as [Et|Et].
        - destruct (list_eq_dec Nat.eq_dec E [n]) as [EE|EE]; [|exfalso; apply Hlz; auto].
          split; [rewrite EE, Et; simpl; auto|]. split; auto.
        - split; [destruct (home_range n T E _ _ Ht); [contradiction|auto]|]. auto. }
      destruct (Hhome x Hx Hl) as (rx & t & Hrx & Ex & Hlx & Ht & Hbx & Hpx).
      destruct (Hhome y Hy ltac:(congruence)) as (ry & t' & Hry & Ey & Hly & Ht' & Hby & Hpy).
      assert (t' = t) as ->.
      { destruct (list_eq_dec Nat.eq_dec E [n]) as [EE|EE].
        - rewrite EE in Ht, Ht'. destruct Ht as [<-|[]], Ht' as [<-|[]]. auto.
        - apply (position_inj E); auto; [apply (oc_E_nodup _ _ _ _ _ _ _ _ _ _ HX)|]. apply Nat2Z.inj. rewrite <- Hpx, <- Hpy; auto. }
      exists t, rx, ry. rewrite Ex, Ey. auto 10.
    Qed.

    Lemma linkage_together ls ps T : cluster_selection_persistence st = None -> run = Ok (ls, ps, T) ->
      forall x y, x < n -> y < n -> nth x ls 0%Z <> (-1)%Z -> nth x ls 0%Z = nth y ls 0%Z ->
      exists i r, nth_error L i = Some r /\ wlt zero (lam (l_d r)) = true /\ under n L (n + i) x /\ under n L (n + i) y.
    Proof.
      intros Hnone ER x y Hx Hy Hl Exy. destruct (run_good ls ps T ER) as (S & E & HX & HT & HO & Hp & _ & Hfa). specialize (Hfa Hnone).
      destruct (share_cluster T S E ls ps HX HT Hp x y Hx Hy Hl Exy) as (t & rx & ry & Ht & Hrx & Hry & Ex & Ey & Hlx & Hly & Hbx & Hby).
      assert (Hspl : forall q q0, In q T -> In q0 T -> n <= c_child q0 -> c_parent q = c_parent q0 ->
        wle (c_lam q0) zero = true -> wle (c_lam q) zero = true).
      { intros q q0 Hq Hq0 Hc Ep H0. apply (wle_trans V _ (c_lam q0)); auto. apply (split_densest n L wt mcs lam T HD HH Hlam Hfa); auto. }
      assert (Hrow : forall r, In r T -> exists d, c_lam r = lam d).
      { intros r Hr. destruct (row_height n L wt mcs lam T Hfa r Hr) as (q & _ & ->). eauto. }
      assert (Hdz := labelled_not_zero T S E ls ps HX HT Hrow Hp Hspl t Ht rx Hrx ltac:(lia) ltac:(rewrite Ex; auto) Hlx).
      apply (leave_together n L wt mcs lam T HD Hfa t x y (fun v => wlt zero v = true)
        (oc_E_clusters _ _ _ _ _ _ _ _ _ _ HX t Ht)); auto.
      - intros q Hq Ep [Ec|[Hc Hb]].
        + assert (q = rx) as -> by (eapply row_eq; eauto; congruence). auto.
        + apply (Hdz q); auto. rewrite <- Ep. now constructor.
      - intros q Hq Ep [Ec|[Hc Hb]].
        + assert (q = ry) as -> by (eapply row_eq; eauto; congruence). auto.
        + apply (Hdz q); auto. rewrite <- Ep. now constructor.
    Qed.
  End Together.
End Linkage.

(** Samples under one merge are connected by edges no heavier than it. *)
Lemma under_connected {W : WOrd} {Sz : SOrd} n (L : list (lrow W Sz)) (M : list (edge W)) (p : W -> bool) :
  threshold p -> sorted_by ewt M -> map l_d L = map ewt M ->
  (forall i e x, nth_error M i = Some e -> (under n L (n + i) x <-> x < n /\ connected (firstn (S i) M) (esrc e) x)) ->
  forall i r x y, nth_error L i = Some r -> p (l_d r) = true -> under n L (n + i) x -> under n L (n + i) y ->
  connected (passing p M) x y.
Proof.
  intros Hp HS Em HU i r x y Hr Hpr Hx Hy.
  assert (exists e, nth_error M i = Some e /\ ewt e = l_d r) as (e & He & Ew).
  { assert (H : nth_error (map ewt M) i = Some (l_d r)) by (rewrite <- Em, nth_error_map, Hr; auto).
    rewrite nth_error_map in H. destruct (nth_error M i) as [e|]; [|discriminate]. injection H as H. eauto. }
  apply (HU i e x He) in Hx as [_ Hx]. apply (HU i e y He) in Hy as [_ Hy].
  assert (Hincl : incl (firstn (S i) M) (passing p M)).
  { intros f Hf. apply in_passing. split.
    - rewrite <- (firstn_skipn (S i) M). apply in_or_app; auto.
    - apply (Hp _ (l_d r)); auto. rewrite <- Ew. clear - HS He Hf.
      revert i He Hf. induction M as [|a l IH]; intros i He Hf; [destruct i; discriminate|].
      unfold sorted_by in *. inversion_clear HS as [|? ? HS' HF]. destruct i as [|i].
      + cbn in He, Hf. injection He as <-. destruct Hf as [<-|[]]. apply wle_refl.
      + cbn [nth_error] in He. cbn [firstn] in Hf. destruct Hf as [<-|Hf].
        * rewrite Forall_forall in HF. apply HF. eapply nth_error_In; eauto.
        * apply (IH HS' i); auto. }
  apply (connected_incl _ _ Hincl). eapply connected_trans; [apply connected_sym; exact Hx|exact Hy].
Qed.

(** The linkage step of both variants. *)
Definition linkage_facts {W : WOrd} {Sz : SOrd} (n : nat) (wt : nat -> Sz) (M : list (edge W)) (L : list (lrow W Sz)) : Prop :=
  dendrogram n L /\ sizes_are n wt L /\ heights_sorted L /\ map l_d L = map ewt (sort_mst M) /\
  (forall i e x, nth_error (sort_mst M) i = Some e -> (under n L (n + i) x <-> x < n /\ connected (firstn (S i) (sort_mst M)) (esrc e) x)).

Lemma linkage_plain {W : WOrd} n (M : list (edge W)) : spanning_tree n M ->
  exists L, mst_to_linkage_tree (sort_mst M) = Ok L /\ linkage_facts (Sz := NatSize) n (fun _ => 1) M L.
Proof.
  intro HM. pose proof (spanning_perm n _ _ (sort_mst_perm M) HM) as HM'.
  destruct (c21 W n (sort_mst M) HM' ltac:(apply isort_sorted)) as (L & E & H1 & H2 & H3 & H4 & _ & H5).
  exists L. split; auto. repeat (split; auto).
Qed.
Lemma linkage_weighted {W : WOrd} {Sz : SOrd} n (M : list (edge W)) (ws : list Sz) : spanning_tree n M -> length ws = n ->
  exists L, mst_to_linkage_tree_w_sample_weights (sort_mst M) ws = Ok L /\ linkage_facts n (fun x => nth x ws szero) M L.
Proof.
  intros HM Hw. pose proof (spanning_perm n _ _ (sort_mst_perm M) HM) as HM'.
  destruct (c21_weighted W Sz n (sort_mst M) ws HM' ltac:(apply isort_sorted) Hw) as (L & E & H1 & H2 & H3 & H4 & _ & H5).
  exists L. split; auto. repeat (split; auto).
Qed.

Lemma facts_heights {W : WOrd} {Sz : SOrd} n (wt : nat -> Sz) (M : list (edge W)) L (p : W -> Prop) : linkage_facts n wt M L ->
  (forall e, In e M -> p (ewt e)) -> forall r, In r L -> p (l_d r).
Proof.
  intros (_ & _ & _ & Em & _) H r Hr. assert (Hi : In (l_d r) (map ewt (sort_mst M))) by (rewrite <- Em; now apply in_map).
  apply in_map_iff in Hi as (e & <- & He). apply H. eapply Permutation_in; [apply Permutation_sym, sort_mst_perm|auto].
Qed.

Lemma facts_connected {W : WOrd} {Sz : SOrd} n (wt : nat -> Sz) (M : list (edge W)) (L : list (lrow W Sz)) p : linkage_facts n wt M L -> threshold p ->
  forall i r x y, nth_error L i = Some r -> p (l_d r) = true -> under n L (n + i) x -> under n L (n + i) y -> connected (passing p M) x y.
Proof.
  intros (_ & _ & _ & Em & HU) Hp i r x y Hr Hpr Hx Hy.
  pose proof (under_connected n L (sort_mst M) p Hp ltac:(apply isort_sorted) Em HU i r x y Hr Hpr Hx Hy) as H.
  eapply connected_incl; [|exact H]. intros e He. apply in_passing in He as [He Hpe]. apply in_passing. split; auto.
  eapply Permutation_in; [apply Permutation_sym, sort_mst_perm|auto].
Qed.

Lemma facts_length {W} n (M : list (edge W)) : spanning_tree n M -> length M + 1 = n.
Proof. intros [_ _ _ H]. lia. Qed.

(** ** Results *)
(** What the settings and the arithmetic must be like. *)

(** The unsupervised selection. *)
Definition plain_sel {V : WOrd} {Sz : SOrd} (A : Arith V Sz) (st : settings V Sz) (n : nat) (T : list (crow V Sz)) : res (list nat) :=
  selected_clusters_of A st T n.
Lemma plain_selects {V : WOrd} {Sz : SOrd} (LA : LamArith V) (A : Arith V Sz) (st : settings V Sz) n wt :
  usable (la_zero LA) st -> num_lt A (num_zero A) (num_zero A) = false -> 2 <= n ->
  forall T, condensed n wt (min_cluster_size st) T -> (forall r, In r T -> wle (la_zero LA) (c_lam r) = true) ->
  exists S, plain_sel A st n T = Ok S /\ selects st n T S.
Proof. intros HU HA Hn T HT _. apply (base_ok LA A st n wt T HU HA HT). lia. Qed.
Lemma plain_run {W V : WOrd} {Sz : SOrd} (lam : W -> V) (LA : LamArith V) (A : Arith V Sz) garbage by_parent st n wt (L : list (lrow W Sz)) :
  clusters_from_linkage_tree lam LA A garbage by_parent st wt n L = run_with lam LA (plain_sel A st n) garbage by_parent st n wt L.
Proof. reflexivity. Qed.

Section Results.
  Context {W V : WOrd} {Sz : SOrd}.
  Variables (lam : W -> V) (LA : LamArith V) (A : Arith V Sz) (garbage : nat -> V)
    (by_parent : list (crow V Sz) -> list (crow V Sz)) (st : settings V Sz).
  Variables (n : nat) (wt : nat -> Sz) (M : list (edge W)) (L : list (lrow W Sz)).
  Notation zero := (la_zero LA).
  Notation mcs := (min_cluster_size st).
  Hypothesis HK : setting_ok lam LA A by_parent st.
  Hypothesis HL : linkage_facts n wt M L.
  Hypothesis Hn : 2 <= n.
  Hypothesis Hsz : sle (s := Sz) szero sone = true.
  Hypothesis Hwt : forall x, x < n -> sle mcs (wt x) = false.
  Notation run := (clusters_from_linkage_tree lam LA A garbage by_parent st wt n L).

  Lemma res_total : (exists ls ps T, run = Ok (ls, ps, T) /\ clustering zero (la_one LA) n ls ps /\
      condensed n wt mcs T /\ splits_once n T /\ (cluster_rows n T = [] -> ls = repeat (-1)%Z n)) \/
    (cluster_selection_persistence st <> None /\ run = Err IndexError).
  Proof.
    destruct HK as [H1 H2 H3 H4 H5 H6]. destruct HL as (L1 & L2 & L3 & _).
    destruct (linkage_run lam LA (plain_sel A st n) garbage by_parent st n wt L H2 H1 H3 (plain_selects LA A st n wt H1 H4 Hn) Hsz Hn H5 H6 L1 L2 L3 Hwt) as [(T & S & E & ls & ps & _ & ER & HX & HT & HO & _)|H]; [left|auto].
    exists ls, ps, T. split; auto. split; [apply (oc_clustering _ _ _ _ _ _ _ _ _ _ HX)|]. split; auto. split; auto.
    intro Hc. apply (oc_noise _ _ _ _ _ _ _ _ _ _ HX). apply (oc_E_empty _ _ _ _ _ _ _ _ _ _ HX Hc).
  Qed.

  Lemma res_sizes ls ps T : run = Ok (ls, ps, T) -> (forall e, In e M -> wlt zero (lam (ewt e)) = true) ->
    (forall x, x < n -> sle szero (wt x) = true) -> root_ok st -> large_clusters n wt mcs ls /\ numbered n ls.
  Proof.
    intros ER Hf Hw Hr. destruct HK as [H1 H2 H3 H4 H5 H6]. pose proof HL as (L1 & L2 & L3 & _).
    eapply (linkage_sizes lam LA (plain_sel A st n) garbage by_parent st n wt L H2 H1 H3 (plain_selects LA A st n wt H1 H4 Hn) Hsz Hn H5 H6 L1 L2 L3 Hwt); eauto.
    apply (facts_heights n wt M L (fun w => wlt zero (lam w) = true) HL). auto.
  Qed.

  Lemma res_together Z N P ls ps T : ScoreLaws lam A zero Z N P -> cluster_selection_persistence st = None ->
    run = Ok (ls, ps, T) ->
    forall x y, x < n -> y < n -> nth x ls 0%Z <> (-1)%Z -> nth x ls 0%Z = nth y ls 0%Z ->
    connected (passing (fun w => wlt zero (lam w)) M) x y.
  Proof.
    intros HS Hnone ER x y Hx Hy Hl E. destruct HK as [H1 H2 H3 H4 H5 H6]. pose proof HL as (L1 & L2 & L3 & _).
    destruct (linkage_together lam LA (plain_sel A st n) garbage by_parent st n wt L H2 H1 H3 (plain_selects LA A st n wt H1 H4 Hn) Hsz Hn H5 H6 L1 L2 L3 Hwt A Z N P (fun T => eq_refl) HS ls ps T Hnone ER x y Hx Hy Hl E)
      as (i & r & Hr & Hlr & Ux & Uy).
    apply (facts_connected n wt M L (fun w => wlt zero (lam w)) HL) with (i := i) (r := r); auto.
    intros a b Hab Hb. unfold wlt in *. apply negb_true_iff in Hb. apply negb_true_iff.
    destruct (wle (lam a) zero) eqn:Ea; auto. rewrite (wle_trans V (lam b) (lam a) zero) in Hb; auto.
  Qed.
End Results.

(** Cannot-link pairs. *)
Lemma bridged_apart {W V : WOrd} (lam : W -> V) (zero : V) n CL (E M : list (edge W)) :
  wlt zero (lam winf) = false -> bridged_result n CL E M -> forall x y, CL x y -> ~ connected (passing (fun w => wlt zero (lam w)) M) x y.
Proof.
  intros Hinf (F & B & -> & HF & _ & HB) x y Hxy Hc. apply (cf_respects _ _ _ HF x y Hxy).
  eapply connected_incl; [|exact Hc]. intros e He. apply in_passing in He as [He Hp]. apply in_app_or in He as [|He]; auto.
  rewrite Forall_forall in HB. destruct (HB e He) as [Ew _]. rewrite Ew in Hp. congruence.
Qed.
