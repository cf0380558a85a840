(** clusters_from_spanning_tree: complete runs. *)
From Coq Require Import List Arith Lia Bool ZArith Permutation Sorted.
From Verif Require Import Prelude Order Graph Size Num Forest P_Pairs P_Sort M_Kruskal P_Kruskal M_Linkage S_Linkage P_LinkageTop M_Condense S_Condense
  P_CondenseTop M_Select S_Select P_CTree P_Below P_Eom P_EomTop P_SelectTop M_Labels S_Labels P_Labels P_LabelsTop P_LabelsProps P_LabelsEx
  M_Epsilon S_Epsilon P_EpsilonTop M_Simplify S_Simplify P_SimplifyTop P_Faithful M_Pipeline S_Pipeline P_Pipeline.
Import ListNotations.
Local Open Scope nat_scope.

Lemma ssum_nonneg {Sz : SOrd} (l : list Sz) : (forall x, In x l -> sle szero x = true) -> sle szero (ssum l) = true.
Proof.
  induction l as [|x l IH]; intro H; cbn [ssum fold_right]; [apply sle_refl|].
  apply (sle_trans Sz _ (sadd szero (ssum l))).
  - rewrite sadd_0. apply IH. intros y Hy. apply H. simpl; auto.
  - apply sadd_mono. apply H. simpl; auto.
Qed.

Lemma ssum_incl {Sz : SOrd} (wt : nat -> Sz) xs ys : NoDup xs -> incl xs ys -> (forall y, In y ys -> sle szero (wt y) = true) ->
  NoDup ys -> sle (ssum (map wt xs)) (ssum (map wt ys)) = true.
Proof.
  intros HN HI HP HNy.
  assert (HPm : Permutation ys (xs ++ filter (fun y => negb (existsb (Nat.eqb y) xs)) ys)).
  { apply NoDup_Permutation; auto.
    - apply NoDup_app_intro'; auto; [now apply NoDup_filter|]. intros x Hx Hf. apply filter_In in Hf as [_ Hf].
      apply negb_true_iff in Hf. assert (existsb (Nat.eqb x) xs = true) by (apply existsb_exists; exists x; split; auto; apply Nat.eqb_refl). congruence.
    - intro y. rewrite in_app_iff, filter_In. split; [|intros [Hx|[Hy _]]; auto].
      intro Hy. destruct (existsb (Nat.eqb y) xs) eqn:E; auto.
      apply existsb_exists in E as (z & Hz & Ez). apply Nat.eqb_eq in Ez as ->. auto. }
  rewrite (ssum_perm _ _ (Permutation_map wt HPm)), map_app, ssum_app.
  rewrite <- (sadd_0 _ (ssum (map wt xs))) at 1. rewrite (sadd_comm _ (ssum (map wt xs))).
  apply sadd_mono. apply ssum_nonneg. intros v Hv. apply in_map_iff in Hv as (y & <- & Hy). apply filter_In in Hy as [Hy _]. auto.
Qed.

Lemma position_all (E : list nat) i : NoDup E -> i < length E -> exists s, In s E /\ position E s = i.
Proof.
  intros HN Hi. destruct (nth_error (nsort (fun c => c) E) i) as [s|] eqn:Es.
  - exists s. split; [apply (nsort_in (fun c => c)); eapply nth_error_In; eauto|]. rewrite position_nsort.
    apply (position_sorted _ (nsort_sorted _ _)); auto. now apply nsort_NoDup.
  - apply nth_error_None in Es. rewrite nsort_length in Es. lia.
Qed.

Section Run.
  Context {V : WOrd} {Sz : SOrd}.
  (** [sel]: the selection of clusters. *)
  Variables (LA : LamArith V) (sel : list (crow V Sz) -> res (list nat)) (by_parent : list (crow V Sz) -> list (crow V Sz)) (st : settings V Sz).
  Variables (n : nat) (wt : nat -> Sz) (T : list (crow V Sz)).
  Hypothesis HL : LamLaws LA.
  Hypothesis HU : usable (la_zero LA) st.
  Hypothesis HB : sorts_by_parent by_parent.
  Hypothesis HT : condensed n wt (min_cluster_size st) T.
  Hypothesis HO : splits_once n T.
  Hypothesis Hn : 0 < n.
  Hypothesis Hpos : forall r, In r T -> wle (la_zero LA) (c_lam r) = true.
  Notation mcs := (min_cluster_size st).
  Notation CT := (cluster_rows n T).
  Notation zero := (la_zero LA).
  Notation eps := (option_map snd (cluster_selection_epsilon st)).
  Notation covers S := (forall l, leaf_cluster n T l -> exists s, In s S /\ (s = l \/ descends n T s l)).

  Definition selects (S : list nat) : Prop :=
    NoDup S /\ (forall s, In s S -> is_cluster n T s) /\ disjoint_clusters n T S /\
    (CT = [] -> S = []) /\ (CT <> [] -> covers S) /\
    (cluster_selection_method st = Leaf -> forall s, In s S -> leaf_cluster n T s) /\
    (allow_single_cluster st = false \/ cluster_selection_method st = Leaf -> ~ In n S).

  (** What one run does: clusters [S] are selected, [E] are labelled. *)
  Record outcome (S E : list nat) (ls : list Z) (ps : list V) : Prop := {
    oc_select : sel T = Ok S;
    oc_epsilon : epsilon_clusters_of by_parent st T S = Ok E;
    oc_labels : labels_and_strengths_of LA st T n E = Ok (ls, ps);
    oc_S_nodup : NoDup S;
    oc_S_clusters : forall s, In s S -> is_cluster n T s;
    oc_S_disjoint : disjoint_clusters n T S;
    oc_S_covers : CT <> [] -> covers S;
    oc_S_leaf : cluster_selection_method st = Leaf -> forall s, In s S -> leaf_cluster n T s;
    oc_S_root : allow_single_cluster st = false \/ cluster_selection_method st = Leaf -> ~ In n S;
    oc_E_nodup : NoDup E;
    oc_E_clusters : forall s, In s E -> is_cluster n T s;
    oc_E_disjoint : disjoint_clusters n T E;
    oc_E_empty : CT = [] -> E = [];
    oc_E_shape : CT <> [] -> E = [n] \/ (~ In n E /\ 2 <= length E);
    oc_E_from : forall e, In e E -> In e S \/
      exists lt_eps inv, cluster_selection_epsilon st = Some (lt_eps, inv) /\ merge_of lt_eps n T S e;
    oc_vector : get_cluster_label_vector LA T E eps n = Ok ls;
    oc_eps_none : cluster_selection_epsilon st = None -> E = S;
    oc_noise : E = [] -> ls = repeat (-1)%Z n;
    oc_right : E <> [] -> forall r, In r T -> c_child r < n -> right_label zero n T E eps r (nth (c_child r) ls 0%Z);
    oc_clustering : clustering zero (la_one LA) n ls ps
  }.

  Lemma run_ok : (exists S, sel T = Ok S /\ selects S) -> exists S E ls ps, outcome S E ls ps.
  Proof.
    intros (S & ES & S1 & S2 & S3 & S4 & S5 & S6 & S7).
    pose proof (us_size _ _ HU) as Hone. assert (HOT := condensed_ordered _ _ _ _ HT).
    destruct (final_ok LA by_parent st n wt T HU HB HT HO Hn S S1 S2 S3 S4 S5) as (E & EE & E1 & E2 & E3 & E4 & E5 & E6 & E7).
    destruct (list_eq_dec Nat.eq_dec E []) as [E0|Hne].
    - exists S, E, (repeat (-1)%Z n), (repeat zero n).
      assert (Hl : forall x, x < n -> nth x (repeat (-1)%Z n) 0%Z = (-1)%Z).
      { intros x Hx. apply (repeat_spec n). apply nth_In. now rewrite repeat_length. }
      assert (Hp : forall x, nth x (repeat zero n) zero = zero) by (intro x; apply nth_repeat).
      constructor; auto; try congruence.
      + unfold labels_and_strengths_of. rewrite E0, labels_nothing. cbn [bind].
        now rewrite (strengths_empty LA st n wt T HT Hn).
      + rewrite E0. apply labels_nothing.
      + constructor; try (now rewrite repeat_length).
        * intros x Hx. rewrite Hl by auto. lia.
        * intros x _. rewrite Hp. split; [apply wle_refl|apply (ll_01 _ HL)].
        * intros x _ _. apply Hp.
        * intros x Hx H. rewrite Hl in H by auto. congruence.
    - assert (HCT : CT <> []) by (intro H; apply Hne; auto).
      assert (H1 : length E = 1 -> E = [n]) by (destruct (E5 HCT) as [->|[_ H]]; auto; lia).
      destruct (labels_ok LA n T E HOT Hn E2 E1 eps Hne H1) as (ls & El & Hlen & Hr).
      destruct (c29_condensed V Sz LA n wt mcs T E eps ls HL HT Hone Hn E2 E1 Hpos Hne H1 El) as (ps & Ep & P1 & P2 & P3 & P4).
      exists S, E, ls, ps. constructor; auto; try congruence.
      + unfold labels_and_strengths_of. rewrite El. cbn [bind]. now rewrite Ep.
      + constructor; auto. intros x Hx. destruct (sample_row n wt mcs T HT x Hx) as (r & Hr' & <-).
        destruct (Hr r Hr' Hx) as [Hz Hnz]. set (l := nth (c_child r) ls 0%Z) in *.
        destruct (veq (c_lam r) zero) eqn:Ez; [apply zero_at in Ez; rewrite (Hz Ez); lia|].
        apply zero_nat in Ez. destruct (Hnz Ez) as (t & _ & Ha & Hb & Hc). destruct (Nat.eq_dec t n) as [Et|Et]; [|rewrite (Ha Et); lia].
        destruct (list_eq_dec Nat.eq_dec E [n]) as [En|En]; [|rewrite (Hb Et En); lia].
        destruct (Hc Et En) as [Hd1 Hd2]. destruct (Z_le_dec (-1) l) as [|Hgt]; auto.
        rewrite Hd2; [lia|]. intro Hd. apply Hd1 in Hd. lia.
  Qed.

  (** The end of the pipeline, on the condensed tree. *)
  Definition finish : res (list Z * list V) :=
    let* selected := sel T in
    let* E := epsilon_clusters_of by_parent st T selected in
    labels_and_strengths_of LA st T n E.

  Lemma outcome_finish S E ls ps : outcome S E ls ps -> finish = Ok (ls, ps).
  Proof. intros []. unfold finish. rewrite oc_select0. cbn [bind]. rewrite oc_epsilon0. cbn [bind]. auto. Qed.

  (** ** Sizes *)
  Section Sizes.
    Variables (S E : list nat) (ls : list Z) (ps : list V).
    Hypothesis HX : outcome S E ls ps.
    Hypothesis Hwt : forall x, x < n -> sle szero (wt x) = true.
    Hypothesis Hfin : forall r, In r T -> wlt zero (c_lam r) = true.
    Hypothesis Hsz : sle (s := Sz) szero sone = true.
    Hypothesis Hroot : allow_single_cluster st = true -> cluster_selection_method st = Eom -> cluster_selection_epsilon st = None /\
      forall q q0, In q T -> In q0 T -> n <= c_child q0 -> c_parent q = n -> c_parent q0 = n -> wle (c_lam q) (c_lam q0) = true.

    Lemma not_zero r : In r T -> ~ at_zero zero r.
    Proof. intros Hr [Hz _]. pose proof (Hfin r Hr) as H. apply wlt_nle in H. congruence. Qed.

    Lemma mcs_pos : sle mcs szero = false.
    Proof.
      destruct (sle mcs szero) eqn:Em; auto. pose proof (us_size _ _ HU) as H. apply slt_true in H.
      rewrite (sle_trans Sz mcs szero sone) in H; auto.
    Qed.

    (** One cluster, the root: it has enough samples. *)
    Lemma root_dense : E = [n] -> exists q0, In q0 T /\ n <= c_child q0 /\
      forall r, In r T -> c_child r < n -> below n T (c_child q0) (c_child r) -> dense_enough n T eps r.
    Proof.
      intro EE. assert (HCT : CT <> []) by (intro H; rewrite (oc_E_empty _ _ _ _ HX H) in EE; discriminate).
      destruct (root_children n wt mcs T HT HCT) as (q0 & Hq0 & Ep). pose proof (ct_child_in n wt mcs T HT q0 Hq0) as Hc0.
      apply filter_In in Hq0 as [Hq0 Hge]. apply Nat.leb_le in Hge. exists q0. split; auto. split; auto.
      intros r Hr Hx Hb. assert (Hq0r : wle (c_lam q0) (c_lam r) = true) by (eapply lambda_below; eauto).
      destruct (oc_E_from _ _ _ _ HX n) as [Hi|(lt_eps & inv & Ee & Hm)]; [rewrite EE; simpl; auto|..].
      - destruct (cluster_selection_method st) eqn:Em; [|exfalso; apply (oc_S_root _ _ _ _ HX); auto].
        destruct (allow_single_cluster st) eqn:Es; [|exfalso; apply (oc_S_root _ _ _ _ HX); auto].
        destruct (Hroot eq_refl eq_refl) as [-> Hd]. cbn [option_map dense_enough]. intros q Hq Epq.
        apply (wle_trans V _ (c_lam q0)); auto.
      - rewrite Ee. cbn [option_map dense_enough snd]. destruct Hm as (_ & _ & Hm & _).
        assert (Hdq : descends n T n (c_child q0)) by (pose proof (desc_child n T q0 Hq0 Hge) as H; rewrite Ep in H; auto).
        destruct (Hm (c_child q0) Hdq) as (r' & Hr' & Hge' & Er' & Hlt).
        assert (r' = q0) as -> by (eapply row_eq; eauto).
        destruct (us_eps _ _ HU lt_eps inv Ee) as [_ Hi]. apply (wle_trans V _ (c_lam q0)); auto. apply Hi; auto.
    Qed.

    Lemma root_zero : E = [n] -> exists xs, NoDup xs /\ (forall x, In x xs -> x < n /\ nth x ls 0%Z = 0%Z) /\ sle mcs (ssum (map wt xs)) = true.
    Proof.
      intro EE. destruct (root_dense EE) as (q0 & Hq0 & Hc0 & Hd).
      destruct (ct_sizes _ _ _ _ HT q0 Hq0 Hc0) as (Hm & xs & Hxs & Hb & Esz). exists xs. split; auto. split; [|rewrite <- Esz; auto].
      intros x Hx. apply Hb in Hx. pose proof (below_lt _ _ _ _ Hx) as Hxn. split; auto.
      destruct (sample_row n wt mcs T HT x Hxn) as (r & Hr & <-).
      assert (HEne : E <> []) by (rewrite EE; discriminate).
      destruct (oc_right _ _ _ _ HX HEne r Hr Hxn) as [_ HR]. destruct (HR (not_zero r Hr)) as (t & Ht & _ & _ & H3).
      assert (t = n).
      { destruct (home_range n T E _ _ Ht) as [|Hi]; auto. rewrite EE in Hi. destruct Hi as [|[]]; auto. }
      destruct (H3 H EE) as [H4 _]. apply H4. auto.
    Qed.

    Lemma nonroot_members : E <> [n] -> forall s, In s E -> exists xs, NoDup xs /\
      (forall x, In x xs <-> x < n /\ nth x ls 0%Z = Z.of_nat (position E s)) /\ sle mcs (ssum (map wt xs)) = true.
    Proof.
      intros HE s Hs.
      assert (HCT : CT <> []) by (intro H; rewrite (oc_E_empty _ _ _ _ HX H) in Hs; destruct Hs).
      destruct (oc_E_shape _ _ _ _ HX HCT) as [|[Hroot' Hlen]]; [contradiction|].
      destruct (oc_E_clusters _ _ _ _ HX s Hs) as [->|[Hge (q & Hq & Eq)]]; [contradiction|].
      destruct (c28 LA n wt mcs T HT E eps ls Hn (oc_E_clusters _ _ _ _ HX) (oc_E_nodup _ _ _ _ HX) (oc_E_disjoint _ _ _ _ HX) Hroot' ltac:(lia)
        (oc_vector _ _ _ _ HX) s q Hs Hq Eq (Hfin q Hq)) as (xs & H1 & H2 & _ & H4). eauto.
    Qed.

    Lemma some_sample xs : sle mcs (ssum (map wt xs)) = true -> exists x, In x xs.
    Proof. destruct xs as [|x xs]; [|simpl; eauto]. intro H. cbn in H. rewrite mcs_pos in H. discriminate. Qed.

    Lemma label_cases x : x < n -> nth x ls 0%Z <> (-1)%Z ->
      (E = [n] /\ nth x ls 0%Z = 0%Z) \/ (E <> [n] /\ exists s, In s E /\ nth x ls 0%Z = Z.of_nat (position E s)).
    Proof.
      intros Hx Hl. destruct (list_eq_dec Nat.eq_dec E []) as [E0|HEne].
      { exfalso. apply Hl. rewrite (oc_noise _ _ _ _ HX E0). apply (repeat_spec n). apply nth_In. now rewrite repeat_length. }
      destruct (sample_row n wt mcs T HT x Hx) as (r & Hr & <-).
      destruct (oc_right _ _ _ _ HX HEne r Hr Hx) as [_ HR]. destruct (HR (not_zero r Hr)) as (t & Ht & H1 & H2 & H3).
      destruct (list_eq_dec Nat.eq_dec E [n]) as [EE|EE].
      - left. split; auto.
        assert (t = n) as Et. { destruct (home_range n T E _ _ Ht) as [|Hi]; auto. rewrite EE in Hi. destruct Hi as [|[]]; auto. }
        destruct (H3 Et EE) as [H4 H5]. destruct (Z.eq_dec (nth (c_child r) ls 0%Z) 0) as [|Hne]; auto.
        exfalso. apply Hl, H5. intro Hd. auto.
      - right. split; auto. destruct (Nat.eq_dec t n) as [Et|Et]; [exfalso; apply Hl; auto|].
        exists t. split; [destruct (home_range n T E _ _ Ht); [contradiction|auto]|auto].
    Qed.

    Lemma sizes_ok : large_clusters n wt mcs ls.
    Proof.
      intros x Hx Hl. destruct (label_cases x Hx Hl) as [[EE ->]|(EE & s & Hs & ->)]; [|now apply nonroot_members].
      destruct (root_zero EE) as (xs & H1 & H2 & H3).
      exists (filter (fun y => Z.eqb (nth y ls 0%Z) 0) (seq 0 n)). split; [apply NoDup_filter, seq_NoDup|]. split.
      - intro y. rewrite filter_In, in_seq, Z.eqb_eq. split; intros []; split; auto; lia.
      - apply (sle_trans Sz _ _ _ H3). apply ssum_incl; auto.
        + intros y Hy. destruct (H2 y Hy). apply filter_In. rewrite in_seq, Z.eqb_eq. split; auto; lia.
        + intros y Hy. apply filter_In in Hy as [Hy _]. apply in_seq in Hy. apply Hwt. lia.
        + apply NoDup_filter, seq_NoDup.
    Qed.

    Lemma numbered_ok : numbered n ls.
    Proof.
      exists (length E). intro l. split.
      - intros Hl. split; [lia|]. destruct (list_eq_dec Nat.eq_dec E [n]) as [EE|EE].
        + destruct (root_zero EE) as (xs & H1 & H2 & H3). destruct (some_sample xs H3) as (x & Hx). destruct (H2 x Hx).
          exists x. split; auto. rewrite EE in Hl. simpl in Hl. lia.
        + destruct (position_all E (Z.to_nat l) (oc_E_nodup _ _ _ _ HX)) as (s & Hs & Ep); [lia|].
          destruct (nonroot_members EE s Hs) as (xs & _ & H2 & H3). destruct (some_sample xs H3) as (x & Hx). apply H2 in Hx as [Hx Ex].
          exists x. split; auto. lia.
      - intros [Hl (x & Hx & <-)]. destruct (label_cases x Hx Hl) as [[-> ->]|(EE & s & Hs & ->)]; [simpl; lia|].
        pose proof (position_lt E s (oc_E_nodup _ _ _ _ HX) Hs). lia.
    Qed.
  End Sizes.
End Run.
