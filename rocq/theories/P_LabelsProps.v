(** C27, C28, C29: labels, cluster sizes, membership strengths. *)
From Coq Require Import List Arith Lia Bool ZArith QArith Qcanon Permutation Sorted.
From Verif Require Import Prelude Order Graph UF Size Num M_DisjointSet P_DisjointSet M_Kruskal P_Sort M_Linkage P_Cut
  M_Condense S_Condense M_Select S_Select P_CTree P_Below P_Eom M_Labels S_Labels P_Labels P_LabelsTop.
Import ListNotations.
Local Open Scope nat_scope.

Lemma condensed_ordered {V : WOrd} {Sz : SOrd} n (wt : nat -> Sz) mcs (T : list (crow V Sz)) :
  condensed n wt mcs T -> ordered_tree n T.
Proof.
  intro H. constructor.
  - apply (ct_samples _ _ _ _ H).
  - destruct (ct_ids _ _ _ _ H) as (s & ->). apply seq_NoDup.
  - intro Hi. apply in_map_iff in Hi as (r & E & Hr). destruct (ct_ids _ _ _ _ H) as (s & Es).
    assert (Hc : In n (map c_child (cluster_rows n T))).
    { rewrite <- E. apply in_map, filter_In. split; auto. apply Nat.leb_le. lia. }
    rewrite Es in Hc. apply in_seq in Hc. lia.
  - apply (ct_order _ _ _ _ H).
Qed.

Section Members.
  Context {V : WOrd} {Sz : SOrd} (LA : LamArith V).
  Variables (n : nat) (T : list (crow V Sz)) (S : list nat) (eps : option V).
  Hypothesis HT : ordered_tree n T.
  Hypothesis Hn : 0 < n.
  Hypothesis HC : forall s, In s S -> is_cluster n T s.
  Hypothesis HN : NoDup S.

  (** C27 for pairwise disjoint clusters without the root. *)
  Lemma c27_members ls : disjoint_clusters n T S -> ~ In n S -> length S <> 1 ->
    get_cluster_label_vector LA T S eps n = Ok ls ->
    forall r, In r T -> c_child r < n ->
      (forall s, In s S -> (nth (c_child r) ls 0%Z = Z.of_nat (position S s) <-> below n T s (c_child r) /\ ~ at_zero (la_zero LA) r)) /\
      (nth (c_child r) ls 0%Z = (-1)%Z <-> at_zero (la_zero LA) r \/ forall s, In s S -> ~ below n T s (c_child r)).
  Proof.
    intros HD Hroot H1 E r Hr Hx.
    destruct (list_eq_dec Nat.eq_dec S []) as [E0|Hne].
    { rewrite E0 in *. rewrite labels_nothing in E. injection E as <-.
      split; [intros s []|]. split; [intros _; right; intros s []|]. intros _.
      apply (repeat_spec n). apply nth_In. now rewrite repeat_length. }
    destruct (labels_ok LA n T S HT Hn HC HN eps Hne) as (ls' & E' & _ & HL); [lia|].
    rewrite E in E'. injection E' as <-. specialize (HL r Hr Hx). destruct HL as [Hz Hnz].
    assert (Hne1 : S <> [n]) by (intros ->; apply H1; auto).
    assert (Hdec : at_zero (la_zero LA) r \/ ~ at_zero (la_zero LA) r).
    { rewrite <- zero_at. destruct (veq (c_lam r) (la_zero LA)); auto. }
    destruct Hdec as [Haz|Haz].
    - rewrite (Hz Haz). split; [|tauto]. intros s Hs. split; [lia|tauto].
    - destruct (Hnz Haz) as (t & Ht & Ht1 & Ht2 & _).
      assert (Hsame : forall s, In s S -> below n T s (c_child r) -> s = t).
      { intros s Hs Hb. eapply (home_det n T S HT (S_ge n T S HC)); eauto. now apply (disjoint_home n T S HT Hn HC). }
      destruct (Nat.eq_dec t n) as [->|Htn].
      + rewrite (Ht2 eq_refl Hne1). split.
        * intros s Hs. split; [lia|]. intros [Hb _]. apply Hsame in Hb; [subst s; contradiction|auto].
        * split; auto. intros _. right. intros s Hs Hb. apply Hsame in Hb; [subst s; contradiction|auto].
      + rewrite (Ht1 Htn). assert (Hin : In t S) by (destruct (home_range n T S _ _ Ht); [contradiction|auto]).
        pose proof (home_sample_below n T S HT Hn HC _ _ Hx Ht) as Hbt. split.
        * intros s Hs. split.
          -- intro Ep. apply Nat2Z.inj in Ep. apply position_inj in Ep; auto; subst s; auto.
          -- intros [Hb _]. rewrite (Hsame s Hs Hb). auto.
        * split; [lia|]. intros [H|H]; [contradiction|]. exfalso. apply (H t); auto.
  Qed.
End Members.

Section Sizes.
  Context {V : WOrd} {Sz : SOrd} (LA : LamArith V).
  Variables (n : nat) (wt : nat -> Sz) (mcs : Sz) (T : list (crow V Sz)).
  Hypothesis HT : condensed n wt mcs T.

  Lemma lambda_below c x : below n T c x -> forall q, In q T -> c_child q = c -> n <= c ->
    forall r, In r T -> c_child r = x -> wle (c_lam q) (c_lam r) = true.
  Proof.
    induction 1 as [p x Hp Ex Hx|p x Hp Hge Hb IH]; intros q Hq Eq Hcn r Hr Er.
    - assert (r = p) as -> by (eapply row_eq; eauto; congruence).
      apply (ct_lambda _ _ _ _ HT); auto. lia.
    - apply (wle_trans V _ (c_lam p)).
      + apply (ct_lambda _ _ _ _ HT); auto. lia.
      + apply (IH p); auto.
  Qed.

  (** C28. *)
  Lemma c28 S eps ls : 0 < n -> (forall s, In s S -> is_cluster n T s) -> NoDup S ->
    disjoint_clusters n T S -> ~ In n S -> length S <> 1 ->
    get_cluster_label_vector LA T S eps n = Ok ls ->
    forall s q, In s S -> In q T -> c_child q = s -> wlt (la_zero LA) (c_lam q) = true ->
    exists xs, NoDup xs /\ (forall x, In x xs <-> x < n /\ nth x ls 0%Z = Z.of_nat (position S s)) /\
      ssum (map wt xs) = c_size q /\ sle mcs (ssum (map wt xs)) = true.
  Proof.
    intros Hn HC HN HD Hroot H1 E s q Hs Hq Eq Hl.
    assert (HO := condensed_ordered _ _ _ _ HT).
    assert (Hsn : n <= c_child q) by (rewrite Eq; eapply S_ge; eauto).
    destruct (ct_sizes _ _ _ _ HT q Hq Hsn) as (Hm & xs & Hxs & Hb & Esz).
    exists xs. split; auto. split; [|rewrite <- Esz; auto].
    intro x. rewrite Hb, Eq. split.
    - intro Hbx. assert (Hx : x < n) by (eapply below_lt; eauto). split; auto.
      destruct (sample_row n wt mcs T HT x Hx) as (r & Hr & <-).
      apply (proj1 (c27_members LA n T S eps HO Hn HC HN ls HD Hroot H1 E r Hr Hx) s Hs). split; auto.
      intros [Hz _]. apply wlt_nle in Hl.
      assert (Hq0 : wle (c_lam q) (la_zero LA) = true).
      { apply (wle_trans V _ (c_lam r)); auto. apply (lambda_below s (c_child r) Hbx); auto. lia. }
      congruence.
    - intros [Hx Ex]. destruct (sample_row n wt mcs T HT x Hx) as (r & Hr & <-).
      apply (proj1 (c27_members LA n T S eps HO Hn HC HN ls HD Hroot H1 E r Hr Hx) s Hs) in Ex. tauto.
  Qed.
End Sizes.

(** ** Membership strengths *)
Section Strength.
  Context {V : WOrd} {Sz : SOrd} (LA : LamArith V) (HLA : LamLaws LA).
  Variables (n : nat) (T : list (crow V Sz)) (S : list nat).
  Hypothesis HT : ordered_tree n T.
  Hypothesis Hn : 0 < n.
  Hypothesis HC : forall s, In s S -> is_cluster n T s.
  Hypothesis HN : NoDup S.
  Hypothesis Hpos : forall r, In r T -> wle (la_zero LA) (c_lam r) = true.
  Hypothesis Hone : forall r, In r T -> c_child r < n <-> sle (c_size r) sone && sle sone (c_size r) = true.
  Notation zero := (la_zero LA).
  Notation one := (la_one LA).

  Definition direct (c : nat) (l : list (crow V Sz)) : list (crow V Sz) :=
    filter (fun r => (c_parent r =? c) && (sle (c_size r) sone && sle sone (c_size r))) l.

  Lemma max_fold l : forall D, (forall c, In c S -> exists m, dict_get D c = Ok m) ->
    exists D', fold_res (max_lambda_step S) l D = Ok D' /\
      forall c m, In c S -> dict_get D c = Ok m -> dict_get D' c = Ok (fold_left vmax (map c_lam (direct c l)) m).
  Proof.
    induction l as [|r l IH]; intros D HD; cbn [fold_res].
    - exists D. split; auto.
    - unfold max_lambda_step at 1.
      destruct (in_set S (c_parent r) && (sle (c_size r) sone && sle sone (c_size r))) eqn:E.
      + apply andb_true_iff in E as [E1 E2]. apply in_set_true in E1. destruct (HD _ E1) as (m & Em). rewrite Em. cbn [bind].
        destruct (IH (dict_set D (c_parent r) (vmax m (c_lam r)))) as (D' & E' & H').
        { intros c Hc. rewrite dict_get_set. destruct (c =? c_parent r); eauto. }
        exists D'. split; auto. intros c m' Hc Hm'. unfold direct. cbn [filter]. rewrite E2, andb_true_r. fold (direct c l).
        destruct (Nat.eqb_spec (c_parent r) c) as [<-|Hne].
        * rewrite (H' _ (vmax m (c_lam r)) Hc); [|rewrite dict_get_set, Nat.eqb_refl; auto].
          cbn [map fold_left]. congruence.
        * apply H'; auto. rewrite dict_get_set. destruct (Nat.eqb_spec c (c_parent r)); [congruence|auto].
      + cbn [bind]. destruct (IH D HD) as (D' & E' & H'). exists D'. split; auto. intros c m Hc Hm.
        unfold direct. cbn [filter]. fold (direct c l).
        destruct ((c_parent r =? c) && (sle (c_size r) sone && sle sone (c_size r))) eqn:E2; auto.
        apply andb_true_iff in E2 as [E2 E3]. apply Nat.eqb_eq in E2. subst c. rewrite E3, andb_true_r in E.
        apply in_set_false in E. contradiction.
  Qed.

  Definition death (c : nat) : V := fold_left vmax (map c_lam (direct c T)) zero.

  Lemma max_lambdas_ok : exists D, max_lambdas LA T S = Ok D /\ forall c, In c S -> dict_get D c = Ok (death c).
  Proof.
    unfold max_lambdas. rewrite (nodup_id S HN).
    assert (H0 : forall c, In c S -> dict_get (map (fun c => (c, zero)) S) c = Ok zero).
    { intros c Hc. apply dict_get_unique.
      - rewrite map_map. simpl. now rewrite map_id.
      - now apply (in_map (fun c => (c, zero))). }
    destruct (max_fold T (map (fun c => (c, zero)) S)) as (D & E & H); eauto.
  Qed.

  Lemma death_ge c r : In r T -> c_child r < n -> c_parent r = c -> wle (c_lam r) (death c) = true.
  Proof.
    intros Hr Hx Hc. unfold death.
    pose proof (proj1 (fold_vmax_le (map c_lam (direct c T)) zero (fold_left vmax (map c_lam (direct c T)) zero)) (wle_refl _)) as [_ H].
    apply H. apply in_map, filter_In. split; auto. apply andb_true_iff. split; [now apply Nat.eqb_eq|]. now apply Hone.
  Qed.
  Lemma death_pos c : wle zero (death c) = true.
  Proof.
    pose proof (proj1 (fold_vmax_le (map c_lam (direct c T)) zero (fold_left vmax (map c_lam (direct c T)) zero)) (wle_refl _)) as [H _].
    exact H.
  Qed.
  Lemma death_attained c : death c = zero \/ exists r, In r T /\ c_child r < n /\ c_parent r = c /\ death c = c_lam r.
  Proof.
    unfold death. destruct (fold_vmax_in (map c_lam (direct c T)) zero) as [H|H]; [left; congruence|].
    right. apply in_map_iff in H as (r & E & Hr). apply filter_In in Hr as [Hr H2]. apply andb_true_iff in H2 as [H2 H3].
    exists r. split; auto. split; [now apply Hone|]. split; [now apply Nat.eqb_eq|auto].
  Qed.

  Definition strength (r : crow V Sz) (c : nat) : V :=
    if veq (death c) zero || negb (la_finite LA (c_lam r)) then one
    else la_div LA (vmin (c_lam r) (death c)) (death c).

  Lemma strength_range r c : In r T -> wle zero (strength r c) = true /\ wle (strength r c) one = true.
  Proof.
    intro Hr. unfold strength. destruct (veq (death c) zero) eqn:Ez; cbn [orb].
    - split; [apply (ll_01 _ HLA)|apply wle_refl].
    - destruct (la_finite LA (c_lam r)) eqn:Ef; cbn [negb]; [|split; [apply (ll_01 _ HLA)|apply wle_refl]].
      assert (Hd : wle (death c) zero = false).
      { unfold veq in Ez. rewrite death_pos, andb_true_r in Ez. auto. }
      unfold vmin. destruct (wlt (death c) (c_lam r)) eqn:Elt.
      + apply wlt_le in Elt. apply (ll_div _ HLA); auto; [eapply (ll_fin _ HLA); eauto|apply death_pos|apply wle_refl].
      + apply wlt_false in Elt. apply (ll_div _ HLA); auto.
  Qed.

  Lemma strength_one r c : wle (death c) (c_lam r) = true -> strength r c = one.
  Proof.
    intro Hle. unfold strength. destruct (veq (death c) zero) eqn:Ez; cbn [orb]; auto.
    destruct (la_finite LA (c_lam r)) eqn:Ef; cbn [negb]; auto.
    assert (Hd : wle (death c) zero = false).
    { unfold veq in Ez. rewrite death_pos, andb_true_r in Ez. auto. }
    unfold vmin. destruct (wlt (death c) (c_lam r)) eqn:Elt.
    - apply (ll_div1 _ HLA); auto; try apply wle_refl. eapply (ll_fin _ HLA); eauto.
    - apply wlt_false in Elt. apply (ll_div1 _ HLA); auto.
  Qed.

  Lemma strengths_ok ls : length ls = n -> (forall x, x < n -> (nth x ls 0 < Z.of_nat (length S))%Z) ->
    exists ps, get_point_membership_strength_vector LA T S ls = Ok ps /\ length ps = n /\
      forall r, In r T -> c_child r < n ->
        ((nth (c_child r) ls 0 < 0)%Z -> nth (c_child r) ps zero = zero) /\
        (forall c, In c S -> nth (c_child r) ls 0%Z = Z.of_nat (position S c) -> nth (c_child r) ps zero = strength r c).
  Proof.
    intros Hlen Hlab. unfold get_point_membership_strength_vector.
    destruct max_lambdas_ok as (D & -> & HD). cbn [bind]. rewrite (T_min n T S HT Hn HC). cbn [bind].
    assert (Hfold : forall l f, (forall r, In r l -> In r T) -> NoDup (map c_child l) ->
      exists g, fold_res (strength_step LA S ls D n) l f = Ok g /\
        (forall x, ~ In x (map c_child l) -> g x = f x) /\
        (forall r, In r l -> c_child r < n -> (nth (c_child r) ls 0 < 0)%Z -> g (c_child r) = f (c_child r)) /\
        (forall r c, In r l -> c_child r < n -> In c S -> nth (c_child r) ls 0%Z = Z.of_nat (position S c) ->
           g (c_child r) = strength r c)).
    { induction l as [|r l IH]; intros f Hl HND; cbn [fold_res].
      - exists f. split; auto. split; auto. split; intros; contradiction.
      - cbn [map] in HND. inversion_clear HND as [|? ? Hnr Hl'].
        assert (Hr : In r T) by (apply Hl; simpl; auto).
        assert (Hl2 : forall q, In q l -> In q T) by (intros; apply Hl; simpl; auto).
        unfold strength_step at 1. destruct (Nat.leb_spec n (c_child r)) as [Hge|Hlt]; cbn [bind].
        { destruct (IH f Hl2 Hl') as (g & E & G1 & G2 & G3). exists g. split; auto. split; [|split].
          - intros x Hx. apply G1. intro; apply Hx; simpl; auto.
          - intros q [<-|Hq] Hx; [lia|auto].
          - intros q c [<-|Hq] Hx; [lia|auto]. }
        destruct (nth_error ls (c_child r)) as [lb|] eqn:Elb; [|apply nth_error_None in Elb; lia].
        apply nth_error_nth with (d := 0%Z) in Elb.
        destruct (Z.ltb_spec lb 0) as [Hneg|Hnn]; cbn [bind].
        { destruct (IH f Hl2 Hl') as (g & E & G1 & G2 & G3). exists g. split; auto. split; [|split].
          - intros x Hx. apply G1. intro; apply Hx; simpl; auto.
          - intros q [<-|Hq] Hx; auto.
          - intros q c [<-|Hq] Hx; auto. intros _ Ep. rewrite Elb in Ep. lia. }
        destruct (nth_error (nsort (fun c => c) S) (Z.to_nat lb)) as [c|] eqn:Ec.
        2:{ apply nth_error_None in Ec. rewrite nsort_length in Ec. specialize (Hlab _ Hlt). rewrite Elb in Hlab. lia. }
        assert (Hc : In c S) by (apply nth_error_In in Ec; now apply nsort_in in Ec).
        rewrite (HD c Hc). cbn [bind]. fold (strength r c).
        destruct (IH (upd f (c_child r) (strength r c)) Hl2 Hl') as (g & E & G1 & G2 & G3). exists g. split; auto. split; [|split].
        + intros x Hx. rewrite G1 by (intro; apply Hx; simpl; auto). apply upd_neq. intro; apply Hx; simpl; auto.
        + intros q [<-|Hq] Hx Hlq; [lia|]. rewrite G2 by auto. apply upd_neq. intro Eq. apply Hnr. rewrite <- Eq. now apply in_map.
        + intros q c' [<-|Hq] Hx Hc' Ep; [|auto]. rewrite G1 by auto. rewrite upd_eq.
          rewrite Elb in Ep. rewrite Ep, Nat2Z.id in Ec. rewrite position_nth in Ec by auto. congruence. }
    destruct (Hfold T (fun _ => zero)) as (g & -> & G1 & G2 & G3); auto; [now apply (children_NoDup n T HT)|]. cbn [bind].
    eexists. split; [reflexivity|]. split; [now rewrite map_length, seq_length|].
    intros r Hr Hx.
    assert (Enth : nth (c_child r) (map g (seq 0 (length ls))) zero = g (c_child r)).
    { rewrite (nth_indep _ zero (g 0)) by (rewrite map_length, seq_length; lia).
      rewrite (map_nth g). rewrite seq_nth by lia. auto. }
    rewrite Enth. split; auto.
  Qed.

  (** Every label is -1 or the position of a cluster. *)
  Lemma label_case eps ls : (forall r, In r T -> c_child r < n -> right_label zero n T S eps r (nth (c_child r) ls 0%Z)) ->
    forall r, In r T -> c_child r < n -> nth (c_child r) ls 0%Z = (-1)%Z \/
      exists c, In c S /\ nth (c_child r) ls 0%Z = Z.of_nat (position S c) /\ home n S T (c_child r) c /\
        ~ at_zero zero r /\ (c = n -> dense_enough n T eps r).
  Proof.
    intro HL. intros r Hr Hx. destruct (HL r Hr Hx) as [Hz Hnz].
      destruct (veq (c_lam r) zero) eqn:Ez; [left; apply Hz; now apply zero_at|]. apply zero_nat in Ez.
      destruct (Hnz Ez) as (t & Ht & A & B & C). destruct (Nat.eq_dec t n) as [->|Hne'].
      - destruct (list_eq_dec Nat.eq_dec S [n]) as [ES|ES]; [|left; auto].
        destruct (C eq_refl ES) as [C1 C2].
        assert (Hdec : dense_enough n T eps r \/ ~ dense_enough n T eps r).
        { unfold dense_enough. destruct eps as [e|]; [destruct (wle e (c_lam r)); auto|].
          destruct (max_leaving_ok n T S HT Hn HC) as (m & _ & Hm). rewrite <- Hm. destruct (wle m (c_lam r)); auto. }
        destruct Hdec as [Hd|Hd]; [right|left; auto]. exists n. rewrite (C1 Hd).
        assert (Hin : In n S) by (rewrite ES; simpl; auto). split; auto.
        split; [rewrite ES; unfold position; simpl; now rewrite Nat.ltb_irrefl|]. auto.
      - right. exists t. destruct (home_range n T S _ _ Ht) as [|Hin]; [contradiction|].
        split; auto. split; auto. split; auto. split; auto. congruence.
  Qed.

  Lemma label_bound eps ls : (forall r, In r T -> c_child r < n -> right_label zero n T S eps r (nth (c_child r) ls 0%Z)) ->
    forall x, x < n -> (nth x ls 0 < Z.of_nat (length S))%Z.
  Proof.
    intros HL x Hx. destruct (ordered_sample_row n T HT x Hx) as (r & Hr & <-).
    destruct (label_case eps ls HL r Hr Hx) as [->|(c & Hc & -> & _)]; [lia|]. apply Nat2Z.inj_lt. now apply position_lt.
  Qed.

  Lemma strength_right r c : In r T -> right_strength LA n T c r (strength r c).
  Proof.
    intro Hr. exists (death c). split; [split; [apply death_pos|split; [apply death_attained|apply death_ge]]|].
    unfold strength. split; [|split].
    - intros [H|H].
      + unfold veq. now rewrite H, death_pos.
      + rewrite H. now rewrite orb_true_r.
    - intros Hd Hf Hle. unfold veq. rewrite Hd, Hf. cbn [andb orb negb]. unfold vmin.
      destruct (wlt (death c) (c_lam r)) eqn:E; auto. apply wlt_nle in E. congruence.
    - intro Hlt. apply strength_one. now apply wlt_le.
  Qed.

  Lemma c29_values eps ls ps : S <> [] -> (length S = 1 -> S = [n]) -> get_cluster_label_vector LA T S eps n = Ok ls ->
    get_point_membership_strength_vector LA T S ls = Ok ps ->
    forall r, In r T -> c_child r < n -> nth (c_child r) ls 0%Z <> (-1)%Z ->
    exists c, In c S /\ nth (c_child r) ls 0%Z = Z.of_nat (position S c) /\ right_strength LA n T c r (nth (c_child r) ps zero).
  Proof.
    intros Hne H1 E EP r Hr Hx Hm. destruct (labels_ok LA n T S HT Hn HC HN eps Hne H1) as (ls' & E' & Hlen & HL).
    rewrite E in E'. injection E' as <-. destruct (strengths_ok ls Hlen (label_bound eps ls HL)) as (ps' & EP' & _ & H).
    rewrite EP in EP'. injection EP' as <-.
    destruct (label_case eps ls HL r Hr Hx) as [|(c & Hc & Ec & _)]; [contradiction|].
    exists c. split; auto. split; auto. destruct (H r Hr Hx) as [_ H2]. rewrite (H2 c Hc Ec). now apply strength_right.
  Qed.

  (** C29 for the labels of this selection. *)
  Lemma c29 eps ls : S <> [] -> (length S = 1 -> S = [n]) -> get_cluster_label_vector LA T S eps n = Ok ls ->
    exists ps, get_point_membership_strength_vector LA T S ls = Ok ps /\ length ps = n /\
      (forall x, x < n -> wle zero (nth x ps zero) = true /\ wle (nth x ps zero) one = true) /\
      (forall x, x < n -> nth x ls 0%Z = (-1)%Z -> nth x ps zero = zero) /\
      (forall x, x < n -> nth x ls 0%Z <> (-1)%Z ->
         exists y, y < n /\ nth y ls 0%Z = nth x ls 0%Z /\ nth y ps zero = one).
  Proof.
    intros Hne H1 E. destruct (labels_ok LA n T S HT Hn HC HN eps Hne H1) as (ls' & E' & Hlen & HL).
    rewrite E in E'. injection E' as <-.
    pose proof (label_case eps ls HL) as Hcase. pose proof (label_bound eps ls HL) as Hlab.
    destruct (strengths_ok ls Hlen Hlab) as (ps & Ep & Hpl & Hps). exists ps. split; auto. split; auto. split; [|split].
    - intros x Hx. destruct (ordered_sample_row n T HT x Hx) as (r & Hr & <-). destruct (Hps r Hr Hx) as [P1 P2].
      destruct (Hcase r Hr Hx) as [Em|(c & Hc & Em & _)].
      + rewrite P1 by lia. split; [apply wle_refl|apply (ll_01 _ HLA)].
      + rewrite (P2 c Hc Em). now apply strength_range.
    - intros x Hx Em. destruct (ordered_sample_row n T HT x Hx) as (r & Hr & <-). destruct (Hps r Hr Hx) as [P1 P2].
      apply P1. lia.
    - intros x Hx Em. destruct (ordered_sample_row n T HT x Hx) as (r & Hr & <-).
      destruct (Hcase r Hr Hx) as [H|(c & Hc & El & Hh & Hnz & Hde)]; [contradiction|].
      destruct (Hps r Hr Hx) as [_ P2].
      destruct (wle (death c) (c_lam r)) eqn:Edr.
      + exists (c_child r). split; auto. split; auto. rewrite (P2 c Hc El). now apply strength_one.
      + assert (Hlt : wlt (c_lam r) (death c) = true) by now apply wlt_nle.
        destruct (death_attained c) as [Ed|(y & Hy & Hyx & Hyc & Ed)].
        { rewrite Ed in Edr. rewrite Hpos in Edr by auto. discriminate. }
        exists (c_child y). split; auto.
        assert (Hyl : nth (c_child y) ls 0%Z = Z.of_nat (position S c)).
        { destruct (HL y Hy Hyx) as [_ Hynz].
          assert (Hyz : ~ at_zero zero y).
          { intros [Hyz _]. rewrite <- Ed in Hyz. apply wlt_nle in Hlt.
            assert (wle (death c) (c_lam r) = true) by (apply (wle_trans V _ zero); auto). congruence. }
          assert (Hyh : home n S T (c_child y) c).
          { apply home_up; auto; try lia.
            - intro Hi. apply (S_ge n T S HC) in Hi. lia.
            - rewrite Hyc. now apply home_here. }
          destruct (Hynz Hyz) as (t & Ht & A & B & C).
          assert (t = c) as -> by (eapply (home_det n T S HT (S_ge n T S HC)); eauto).
          destruct (Nat.eq_dec c n) as [->|Hcn]; auto.
          destruct (list_eq_dec Nat.eq_dec S [n]) as [ES|ES].
          - destruct (C eq_refl ES) as [C1 _]. rewrite C1.
            + rewrite ES. unfold position. simpl. now rewrite Nat.ltb_irrefl.
            + specialize (Hde eq_refl). rewrite Ed in Hlt. apply wlt_le in Hlt. unfold dense_enough in *.
              destruct eps as [e|]; [eapply (wle_trans V); eauto|].
              intros q Hq Hqn. eapply (wle_trans V); eauto.
          - destruct (HL r Hr Hx) as [_ Hrnz]. destruct (Hrnz Hnz) as (t & Ht' & _ & B' & _).
            assert (t = n) as -> by (eapply (home_det n T S HT (S_ge n T S HC)); eauto). rewrite (B' eq_refl ES) in El. lia. }
        split; [congruence|]. destruct (Hps y Hy Hyx) as [_ Q2]. rewrite (Q2 c Hc Hyl). apply strength_one.
        rewrite Ed. apply wle_refl.
  Qed.
End Strength.
