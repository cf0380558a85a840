(** The search for a number of clusters. *)
From Coq Require Import List Arith Lia Bool ZArith QArith Sorted Permutation.
From Verif Require Import Prelude Order Size M_Linkage S_Linkage M_Condense S_Condense M_Select S_Select M_Labels S_Labels M_Layers S_Layers P_LayersRun.
Import ListNotations.
Local Open Scope nat_scope.

Lemma round_half_bounds a : a / 2 <= round_half a <= (a + 1) / 2.
Proof.
  unfold round_half. destruct (Nat.even a) eqn:E.
  - split; auto. apply Nat.div_le_mono; lia.
  - assert (a mod 2 = 1).
    { rewrite <- Nat.negb_odd in E. apply negb_false_iff in E. apply Nat.odd_spec in E as (k & ->). replace (2 * k + 1) with (1 + k * 2) by lia. rewrite Nat.mod_add; auto. }
    pose proof (Nat.div_mod a 2 ltac:(lia)). assert ((a + 1) / 2 = a / 2 + 1).
    { symmetry. apply (Nat.div_unique _ 2 _ 0); lia. }
    destruct (Nat.even (a / 2)); lia.
Qed.

Lemma mid_between l u : 1 < u - l -> l < round_half (l + u) < u.
Proof.
  intro H. pose proof (round_half_bounds (l + u)) as [H1 H2].
  assert (l + 1 <= (l + u) / 2) by (apply Nat.div_le_lower_bound; lia).
  assert ((l + u + 1) / 2 < u) by (apply Nat.div_lt_upper_bound; lia). lia.
Qed.

Section Search.
  Context {W V : WOrd} (LA : LamArith V).
  Variables (lam : W -> V) (n : nat) (L : list (lrow W NatSize)).
  Hypothesis HG : dendrogram n L.
  Hypothesis HS : sizes_are (Sz := NatSize) n (fun _ => 1) L.
  Hypothesis HH : heights_sorted L.
  Hypothesis Hlam : forall x y, wle x y = true -> wle (lam y) (lam x) = true.
  Hypothesis Hpos : forall x, wle (la_zero LA) (lam x) = true.
  Hypothesis HLL : LamLaws LA.
  Hypothesis Hn : 4 <= n.
  Notation leaves := (leaves_at lam L).

  Lemma leaves_at_ok k : 2 <= k -> exists T S, tree_of lam n L k T /\ extract_leaves T = Ok S /\ leaves k = Ok S.
  Proof.
    intro Hk. destruct (leaf_layer LA lam n L HG HS HH Hlam Hpos HLL ltac:(lia) k Hk) as (T & S & _ & _ & Ht & E & _).
    exists T, S. split; auto. split; auto. unfold leaves_at, condensed_at. rewrite (proj1 Ht). auto.
  Qed.

  Lemma leaves_at_fall j k S S' : 2 <= j -> j <= k -> leaves j = Ok S -> leaves k = Ok S' -> length S' <= length S.
  Proof.
    intros Hj Hk E E'. destruct (leaves_at_ok j Hj) as (T & S0 & Ht & Ex & E0). destruct (leaves_at_ok k ltac:(lia)) as (T' & S1 & Ht' & Ex' & E1).
    assert (S0 = S) by congruence. assert (S1 = S') by congruence. subst.
    eapply (leaves_fall lam n L HG HS HH Hlam ltac:(lia) j k T T'); eauto.
  Qed.

  Variable approx : nat.

  Lemma search_ok : forall f lower upper, 2 <= lower <= upper -> upper - lower <= f ->
    exists lo up, search_loop lam L f approx lower upper = Ok (lo, up) /\ lower <= lo <= up /\ up <= upper /\ up <= lo + 1 /\
      (lo = lower \/ exists S, leaves lo = Ok S /\ approx <= length S) /\ (up = upper \/ exists S, leaves up = Ok S /\ length S < approx).
  Proof.
    induction f as [|f IH]; intros lower upper Hlu Hf; cbn [search_loop].
    - destruct (Nat.ltb_spec 1 (upper - lower)); [lia|]. exists lower, upper. split; auto. split; [lia|]. split; [lia|]. split; [lia|]. auto.
    - destruct (Nat.ltb_spec 1 (upper - lower)) as [Hlt|Hge].
      + pose proof (mid_between lower upper Hlt) as Hm. set (mid := round_half (lower + upper)) in *.
        destruct (Nat.eqb_spec mid lower); [lia|]. destruct (Nat.eqb_spec mid upper); [lia|]. cbn [orb].
        destruct (leaves_at_ok mid ltac:(lia)) as (T & S & _ & _ & E). rewrite E. cbn [bind].
        destruct (Nat.ltb_spec (length S) approx) as [Hc|Hc].
        * destruct (IH lower mid ltac:(lia) ltac:(lia)) as (lo & up & E1 & H1 & H2 & H3 & H4 & H5). exists lo, up. split; auto. split; auto. split; [lia|]. split; auto. split; auto.
          right. destruct H5 as [->|H5]; eauto.
        * destruct (IH mid upper ltac:(lia) ltac:(lia)) as (lo & up & E1 & H1 & H2 & H3 & H4 & H5). exists lo, up. split; auto. split; [lia|]. split; auto. split; auto. split; auto.
          right. destruct H4 as [->|H4]; eauto.
      + exists lower, upper. split; auto. split; [lia|]. split; [lia|]. split; [lia|]. auto.
  Qed.

  Notation far S := (Z.abs (Z.of_nat (length S) - Z.of_nat approx)).

  Lemma distance_far (S : list nat) : Z.of_nat (distance (length S) approx) = far S.
  Proof. unfold distance. lia. Qed.

  Notation best := (S_Layers.best lam n L approx).

  Lemma clusters_at_ok k : 2 <= k -> exists T S ls ps, tree_of lam n L k T /\ (forall c, In c S <-> leaf_cluster n T c) /\
    leaves k = Ok S /\ clusters_at lam LA L n k = Ok (S, ls, ps) /\ right_layer LA n T S ls ps.
  Proof.
    intro Hk. destruct (leaf_layer LA lam n L HG HS HH Hlam Hpos HLL ltac:(lia) k Hk) as (T & S & ls & ps & Ht & E & HSi & E1 & E2 & HR).
    exists T, S, ls, ps. split; auto. split; auto. unfold leaves_at, clusters_at, condensed_at. rewrite (proj1 Ht). cbn [bind]. rewrite E. cbn [bind]. rewrite E1. cbn [bind]. rewrite E2. auto.
  Qed.

  Lemma binary_search_ok : exists k T S ls ps, best k /\ tree_of lam n L k T /\ (forall c, In c S <-> leaf_cluster n T c) /\
    binary_search_for_n_clusters lam LA L n approx = Ok (S, ls, ps) /\ right_layer LA n T S ls ps.
  Proof.
    assert (Hn2 : 2 <= n / 2) by (apply Nat.div_le_lower_bound; lia).
    assert (Hnn : n / 2 <= n) by (apply Nat.div_le_upper_bound; lia).
    destruct (search_ok n 2 (n / 2) ltac:(lia) ltac:(lia)) as (lo & up & E & H1 & H2 & H3 & H4 & H5).
    unfold binary_search_for_n_clusters. rewrite E. cbn [bind].
    destruct (clusters_at_ok lo ltac:(lia)) as (Tl & Sl & lsl & psl & Htl & HSl & El & Cl & Rl).
    destruct (clusters_at_ok up ltac:(lia)) as (Tu & Su & lsu & psu & Htu & HSu & Eu & Cu & Ru).
    rewrite El, Eu. cbn [bind].
    (* nothing is closer than the nearer of the two *)
    assert (Hbest : forall j S', 2 <= j <= n / 2 -> leaves j = Ok S' -> (Z.min (far Sl) (far Su) <= far S')%Z).
    { intros j S' Hj E'. destruct (le_lt_dec j lo) as [Hjl|Hjl].
      - pose proof (leaves_at_fall j lo S' Sl ltac:(lia) Hjl E' El). destruct H4 as [->|(S0 & E0 & Hc)].
        + assert (j = 2) as -> by lia. assert (S' = Sl) as -> by congruence. lia.
        + assert (S0 = Sl) as -> by congruence. lia.
      - pose proof (leaves_at_fall up j Su S' ltac:(lia) ltac:(lia) Eu E'). destruct H5 as [->|(S0 & E0 & Hc)].
        + assert (j = n / 2) as -> by lia. assert (S' = Su) as -> by congruence. lia.
        + assert (S0 = Su) as -> by congruence. lia. }
    pose proof (distance_far Sl) as Dl. pose proof (distance_far Su) as Du.
    assert (HL : (far Sl <= far Su)%Z -> best lo).
    { intro Hle. split; [lia|]. intros j S S' Hj ES ES'. assert (S = Sl) as -> by congruence. specialize (Hbest j S' Hj ES'). lia. }
    assert (HU : (far Su <= far Sl)%Z -> best up).
    { intro Hle. split; [lia|]. intros j S S' Hj ES ES'. assert (S = Su) as -> by congruence. specialize (Hbest j S' Hj ES'). lia. }
    destruct (Nat.ltb_spec (distance (length Sl) approx) (distance (length Su) approx)) as [Hlt|Hge].
    { exists lo, Tl, Sl, lsl, psl. split; [apply HL; lia|]. auto. }
    destruct (Nat.ltb_spec (distance (length Su) approx) (distance (length Sl) approx)) as [Hlt|Hge'].
    { exists up, Tu, Su, lsu, psu. split; [apply HU; lia|]. auto. }
    rewrite Cl. cbn [bind]. rewrite Cu. cbn [bind fst snd]. destruct (labelled lsu <? labelled lsl).
    - exists lo, Tl, Sl, lsl, psl. split; [apply HL; lia|]. auto.
    - exists up, Tu, Su, lsu, psu. split; [apply HU; lia|]. auto.
  Qed.

  (** The last two sizes of the search, and the choice between them. *)
  Lemma labelled_noise k T S ls ps : tree_of lam n L k T -> right_layer LA n T S ls ps -> labelled ls + noise ls = n.
  Proof.
    intros Ht HR. destruct (ly_labels _ _ _ _ _ _ HR) as [Hlen _]. destruct (ly_strengths _ _ _ _ _ _ HR) as (_ & _ & _ & Hst).
    assert (HA : forall l, In l ls -> l = (-1)%Z \/ (0 <= l)%Z).
    { intros l Hl. apply (In_nth _ _ 0%Z) in Hl as (x & Hx & <-). destruct (Z.eq_dec (nth x ls 0%Z) (-1)) as [|N]; auto. right.
      assert (Hin : In x (map c_child (sample_rows n T))).
      { eapply Permutation_in; [apply Permutation_sym, (ct_samples _ _ _ _ (proj1 (proj2 Ht)))|]. apply in_seq. lia. }
      apply in_map_iff in Hin as (r & Er & Hr). apply filter_In in Hr as [Hr _]. rewrite <- Er in N |- *. destruct (Hst r Hr ltac:(lia) N) as (c & _ & E & _). rewrite E. lia. }
    rewrite <- Hlen. clear Hlen Hst HR. unfold labelled, noise. induction ls as [|l ls IH]; auto. cbn [filter count_occ length].
    specialize (IH ltac:(intros; apply HA; now right)). destruct (HA l (or_introl eq_refl)) as [->|Hl]; [cbn; destruct (Z.eq_dec (-1) (-1)); lia|].
    destruct (Z.leb_spec 0 l); [|lia]. destruct (Z.eq_dec l (-1)); [lia|]. cbn [length]. lia.
  Qed.
  Lemma search_choice : exists lo up Tl Tu Sl Su lsl lsu psl psu,
    2 <= lo <= up /\ up <= n / 2 /\ up <= lo + 1 /\ (best lo \/ best up) /\
    tree_of lam n L lo Tl /\ (forall c, In c Sl <-> leaf_cluster n Tl c) /\ right_layer LA n Tl Sl lsl psl /\
    tree_of lam n L up Tu /\ (forall c, In c Su <-> leaf_cluster n Tu c) /\ right_layer LA n Tu Su lsu psu /\
    binary_search_for_n_clusters lam LA L n approx =
      Ok (if (far Sl <? far Su)%Z then (Sl, lsl, psl) else if (far Su <? far Sl)%Z then (Su, lsu, psu)
          else if noise lsl <? noise lsu then (Sl, lsl, psl) else (Su, lsu, psu)).
  Proof.
    assert (Hn2 : 2 <= n / 2) by (apply Nat.div_le_lower_bound; lia).
    assert (Hnn : n / 2 <= n) by (apply Nat.div_le_upper_bound; lia).
    destruct (search_ok n 2 (n / 2) ltac:(lia) ltac:(lia)) as (lo & up & E & H1 & H2 & H3 & H4 & H5).
    destruct (clusters_at_ok lo ltac:(lia)) as (Tl & Sl & lsl & psl & Htl & HSl & El & Cl & Rl).
    destruct (clusters_at_ok up ltac:(lia)) as (Tu & Su & lsu & psu & Htu & HSu & Eu & Cu & Ru).
    exists lo, up, Tl, Tu, Sl, Su, lsl, lsu, psl, psu. split; [lia|]. split; auto. split; auto. split.
    { assert (Hbest : forall j S', 2 <= j <= n / 2 -> leaves j = Ok S' -> (Z.min (far Sl) (far Su) <= far S')%Z).
      { intros j S' Hj E'. destruct (le_lt_dec j lo) as [Hjl|Hjl].
        - pose proof (leaves_at_fall j lo S' Sl ltac:(lia) Hjl E' El). destruct H4 as [->|(S0 & E0 & Hc)].
          + assert (j = 2) as -> by lia. assert (S' = Sl) as -> by congruence. lia.
          + assert (S0 = Sl) as -> by congruence. lia.
        - pose proof (leaves_at_fall up j Su S' ltac:(lia) ltac:(lia) Eu E'). destruct H5 as [->|(S0 & E0 & Hc)].
          + assert (j = n / 2) as -> by lia. assert (S' = Su) as -> by congruence. lia.
          + assert (S0 = Su) as -> by congruence. lia. }
      destruct (Z_le_gt_dec (far Sl) (far Su)); [left|right]; (split; [lia|]); intros j S S' Hj ES ES'; specialize (Hbest j S' Hj ES').
      - assert (S = Sl) as -> by congruence. lia.
      - assert (S = Su) as -> by congruence. lia. }
    do 6 (split; [assumption|]). unfold binary_search_for_n_clusters. rewrite E. cbn [bind]. rewrite El, Eu. cbn [bind].
    pose proof (distance_far Sl) as Dl. pose proof (distance_far Su) as Du. pose proof (labelled_noise lo Tl Sl lsl psl Htl Rl) as Nl. pose proof (labelled_noise up Tu Su lsu psu Htu Ru) as Nu.
    destruct (Nat.ltb_spec (distance (length Sl) approx) (distance (length Su) approx)), (Z.ltb_spec (far Sl) (far Su)); try lia; auto.
    destruct (Nat.ltb_spec (distance (length Su) approx) (distance (length Sl) approx)), (Z.ltb_spec (far Su) (far Sl)); try lia; auto.
    rewrite Cl. cbn [bind]. rewrite Cu. cbn [bind fst snd]. destruct (Nat.ltb_spec (labelled lsu) (labelled lsl)), (Nat.ltb_spec (noise lsl) (noise lsu)); try lia; auto.
  Qed.
End Search.
