(** Renumbering the trees of the finite rows. *)
From Coq Require Import List Arith Lia Bool ZArith Permutation Sorted.
From Verif Require Import Prelude Order Graph Size M_Linkage S_Linkage M_Condense S_Condense M_Pipeline S_Pipeline M_Estimator S_Estimator.
Import ListNotations.
Local Open Scope nat_scope.

Section Remap.
  Variables (n : nat) (F O : list nat).
  Hypothesis HP : Permutation (F ++ O) (seq 0 n).
  Notation f := (length F).
  Notation o := (length O).
  Notation raw x := (nth x F 0).
  Notation rename := (remap_id F O).

  Lemma rm_len : n = f + o.
  Proof. apply Permutation_length in HP. rewrite app_length, seq_length in HP. lia. Qed.
  Lemma rm_nodup : NoDup (F ++ O).
  Proof. apply (Permutation_NoDup (Permutation_sym HP)). apply seq_NoDup. Qed.
  Lemma rm_F_lt x : In x F -> x < n.
  Proof. intro H. assert (In x (seq 0 n)) by (apply (Permutation_in _ HP); apply in_or_app; auto). apply in_seq in H0. lia. Qed.
  Lemma rm_O_lt x : In x O -> x < n.
  Proof. intro H. assert (In x (seq 0 n)) by (apply (Permutation_in _ HP); apply in_or_app; auto). apply in_seq in H0. lia. Qed.
  Lemma rm_disj x : In x F -> In x O -> False.
  Proof.
    intros H1 H2. pose proof rm_nodup as H. apply in_split in H1 as (a & b & E). rewrite E, <- app_assoc in H. apply NoDup_remove_2 in H.
    apply H. apply in_or_app. right. apply in_or_app. auto.
  Qed.
  Lemma rm_cases x : x < n -> In x F \/ In x O.
  Proof. intro H. apply in_app_or. apply (Permutation_in _ (Permutation_sym HP)). apply in_seq. lia. Qed.
  Lemma rm_F_nodup : NoDup F.
  Proof. pose proof rm_nodup as H. clear HP. induction F as [|a l IH]; [constructor|]. inversion H; subst. constructor; auto. intro. apply H2. apply in_or_app; auto. Qed.
  Lemma rm_O_nodup : NoDup O.
  Proof. pose proof rm_nodup as H. clear HP. induction F as [|a l IH]; auto. inversion H; subst. auto. Qed.
  Lemma raw_in x : x < f -> In (raw x) F.
  Proof. intro. now apply nth_In. Qed.
  Lemma raw_lt x : x < f -> raw x < n.
  Proof. intro. apply rm_F_lt. now apply raw_in. Qed.
  Lemma raw_inj x y : x < f -> y < f -> raw x = raw y -> x = y.
  Proof. intros Hx Hy E. apply (proj1 (NoDup_nth F 0) rm_F_nodup); auto. Qed.
  Lemma in_F x : In x F <-> exists i, i < f /\ raw i = x.
  Proof. split; [intro H; destruct (In_nth F x 0 H) as (i & Hi & E); eauto|intros (i & Hi & <-); now apply raw_in]. Qed.
  Lemma map_raw : map (fun x => raw x) (seq 0 f) = F.
  Proof.
    clear HP. induction F as [|a l IH]; auto. simpl. f_equal. rewrite <- seq_shift, map_map. exact IH.
  Qed.

  Lemma rename_small x : x < f -> rename x = raw x.
  Proof. intro H. unfold remap_id. destruct (Nat.ltb_spec x f); [reflexivity|lia]. Qed.
  Lemma rename_big x : f <= x -> rename x = x + o.
  Proof. intro H. unfold remap_id. destruct (Nat.ltb_spec x f); [lia|reflexivity]. Qed.
  Lemma rename_lt x : rename x < n <-> x < f.
  Proof.
    destruct (Nat.lt_ge_cases x f) as [H|H].
    - rewrite rename_small by auto. pose proof (raw_lt x H). tauto.
    - rewrite rename_big by auto. pose proof rm_len. lia.
  Qed.
  Lemma rename_inj x y : rename x = rename y -> x = y.
  Proof.
    intro E. pose proof (rename_lt x) as Hx. pose proof (rename_lt y) as Hy. rewrite E in Hx.
    destruct (Nat.lt_ge_cases x f) as [H1|H1], (Nat.lt_ge_cases y f) as [H2|H2]; try lia.
    - rewrite !rename_small in E by auto. now apply raw_inj.
    - rewrite !rename_big in E by auto. lia.
  Qed.
  Lemma rename_not_O x y : In y O -> rename x <> y.
  Proof.
    intros H E. pose proof (rm_O_lt y H) as Hy. rewrite <- E in Hy. apply rename_lt in Hy. rewrite rename_small in E by auto.
    subst y. apply (rm_disj (raw x)); auto. now apply raw_in.
  Qed.

  (** ** Condensed trees *)
  Section Condensed.
    Context {V : WOrd} {Sz : SOrd}.
    Variables (zero : V) (wt wt' : nat -> Sz) (mcs : Sz) (T : list (crow V Sz)).
    Hypothesis HT : condensed f wt mcs T.
    Hypothesis Hf : 0 < f.
    Hypothesis Hwt : forall x, x < f -> wt' (raw x) = wt x.
    Definition row' (r : crow V Sz) : crow V Sz :=
      {| c_parent := c_parent r + o; c_child := rename (c_child r); c_lam := c_lam r; c_size := c_size r |}.
    Definition out_row (p x : nat) : crow V Sz := {| c_parent := p; c_child := x; c_lam := zero; c_size := sone |}.
    Definition remapped : list (crow V Sz) := map (out_row n) O ++ map row' T.

    Lemma T_nonempty : exists r0 T', T = r0 :: T' /\ c_parent r0 = f.
    Proof.
      destruct T as [|r0 T'] eqn:E.
      - pose proof (ct_samples _ _ _ _ HT) as H. apply Permutation_length in H. rewrite seq_length in H. simpl in H. lia.
      - exists r0, T'. split; auto. destruct (ct_order _ _ _ _ HT [] r0 T' eq_refl) as [H|[_ (q & [] & _)]]; auto.
    Qed.

    Lemma remap_condensed_ok : remap_condensed_tree zero T F O = Ok remapped.
    Proof.
      destruct T_nonempty as (r0 & T' & E & Hp). unfold remap_condensed_tree, remapped. rewrite E. cbn [map c_parent].
      unfold row' at 1. rewrite Hp, <- rm_len. reflexivity.
    Qed.

    Lemma child_big r : In r T -> f <= c_child r -> f < c_child r.
    Proof.
      intros Hr Hc. destruct (ct_ids _ _ _ _ HT) as [s Hs].
      assert (H : In (c_child r) (map c_child (cluster_rows f T))) by (apply in_map; apply filter_In; split; auto; now apply Nat.leb_le).
      rewrite Hs in H. apply in_seq in H. lia.
    Qed.
    Lemma parent_big r : In r T -> f <= c_parent r.
    Proof. intro H. apply in_split in H as (a & b & E). destruct (ct_order _ _ _ _ HT a r b E); lia. Qed.

    Lemma in_remapped r : In r remapped <-> (exists x, In x O /\ r = out_row n x) \/ (exists r0, In r0 T /\ r = row' r0).
    Proof.
      unfold remapped. rewrite in_app_iff, !in_map_iff. split; intros [(x & H1 & H2)|(x & H1 & H2)]; subst; eauto.
    Qed.

    Lemma sample_rows_remapped : sample_rows n remapped = map (out_row n) O ++ map row' (sample_rows f T).
    Proof.
      unfold sample_rows, remapped. rewrite filter_app. f_equal.
      - assert (H : forall x, In x O -> x < n) by (intros; now apply rm_O_lt). clear -H. induction O as [|a l IH]; auto. cbn [map filter out_row c_child].
        destruct (Nat.ltb_spec a n) as [_|Hx]; [f_equal; apply IH; intros; apply H; now right|]. specialize (H a (or_introl eq_refl)). lia.
      - clear HT. induction T as [|r l IH]; auto. cbn [map filter]. rewrite IH. cbn [row' c_child].
        pose proof (rename_lt (c_child r)) as H. destruct (Nat.ltb_spec (rename (c_child r)) n), (Nat.ltb_spec (c_child r) f); auto; lia.
    Qed.
    Lemma cluster_rows_remapped : cluster_rows n remapped = map row' (cluster_rows f T).
    Proof.
      unfold cluster_rows, remapped. rewrite filter_app.
      replace (filter (fun r => n <=? c_child r) (map (out_row n) O)) with (@nil (crow V Sz)).
      2: { assert (H : forall x, In x O -> x < n) by (intros; now apply rm_O_lt). clear -H. induction O as [|a l IH]; auto. cbn [map filter out_row c_child].
        destruct (Nat.leb_spec n a) as [Hx|_]; [specialize (H a (or_introl eq_refl)); lia|apply IH; intros; apply H; now right]. }
      cbn [app]. clear HT. induction T as [|r l IH]; auto. cbn [map filter]. rewrite IH. cbn [row' c_child].
        pose proof (rename_lt (c_child r)) as H. destruct (Nat.leb_spec n (rename (c_child r))), (Nat.leb_spec f (c_child r)); auto; lia.
    Qed.

    Lemma below_fwd c y : below n remapped c y -> forall c0, c = c0 + o -> f < c0 -> exists x, x < f /\ y = raw x /\ below f T c0 x.
    Proof.
      pose proof rm_len as Hn. induction 1 as [r y Hr Hc Hy|r y Hr Hc Hb IH]; intros c0 E Hc0.
      - apply in_remapped in Hr as [(z & Hz & ->)|(r0 & Hr0 & ->)]; cbn [out_row row' c_parent c_child] in *; [lia|].
        assert (Hs : c_child r0 < f) by (apply rename_lt; lia). exists (c_child r0). split; auto. split; [subst y; now apply rename_small|].
        replace c0 with (c_parent r0) by lia. now apply below_here.
      - apply in_remapped in Hr as [(z & Hz & ->)|(r0 & Hr0 & ->)]; cbn [out_row row' c_parent c_child] in *; [lia|].
        assert (Hs : f <= c_child r0) by (destruct (Nat.lt_ge_cases (c_child r0) f) as [H|H]; auto; apply rename_lt in H; lia).
        destruct (IH (c_child r0)) as (x & Hx & -> & H).
        { now apply rename_big. } { now apply child_big. }
        exists x. split; auto. split; auto. replace c0 with (c_parent r0) by lia. now apply below_deep.
    Qed.
    Lemma below_bwd c x : below f T c x -> below n remapped (c + o) (raw x).
    Proof.
      pose proof rm_len as Hn. induction 1 as [r x Hr Hc Hx|r x Hr Hc Hb IH].
      - change (c_parent r + o) with (c_parent (row' r)). apply below_here; [apply in_remapped; eauto|cbn [row' c_child]; subst x; now apply rename_small|subst x; now apply raw_lt].
      - change (c_parent r + o) with (c_parent (row' r)). apply below_deep; [apply in_remapped; eauto|cbn [row' c_child]; rewrite rename_big by auto; lia|].
        cbn [row' c_child]. now rewrite rename_big by auto.
    Qed.
    Lemma below_remapped c y : f < c -> below n remapped (c + o) y <-> exists x, x < f /\ y = raw x /\ below f T c x.
    Proof. intro Hc. split; [intro H; eapply below_fwd; eauto|intros (x & _ & -> & H); now apply below_bwd]. Qed.

    Lemma remapped_condensed : condensed n wt' mcs remapped.
    Proof.
      pose proof rm_len as Hn. constructor.
      - rewrite sample_rows_remapped, map_app, !map_map. cbn [out_row row' c_child]. rewrite map_id.
        rewrite <- HP. rewrite Permutation_app_comm. apply Permutation_app_tail.
        rewrite <- map_raw at 2. rewrite <- (ct_samples _ _ _ _ HT), map_map.
        erewrite map_ext_in; [apply Permutation_refl|]. intros r Hr. apply filter_In in Hr as [_ Hr]. apply Nat.ltb_lt in Hr. now apply rename_small.
      - destruct (ct_ids _ _ _ _ HT) as [s Hs]. exists s. rewrite cluster_rows_remapped, map_map. cbn [row' c_child].
        transitivity (map (fun c => c + o) (map c_child (cluster_rows f T))).
        + rewrite map_map. apply map_ext_in. intros r Hr. apply filter_In in Hr as [_ Hr]. apply Nat.leb_le in Hr. now apply rename_big.
        + rewrite Hs. clear -Hn. replace (n + 1) with (f + 1 + o) by lia. generalize (f + 1). generalize (2 * s). intro k. induction k as [|k IH]; intro a; auto. cbn [seq map]. f_equal. apply (IH (S a)).
      - intros j r q. rewrite cluster_rows_remapped, !nth_error_map. intros E1 E2.
        destruct (nth_error (cluster_rows f T) (2 * j)) as [r0|] eqn:E3; [|discriminate]. destruct (nth_error (cluster_rows f T) (2 * j + 1)) as [q0|] eqn:E4; [|discriminate].
        cbn [option_map] in E1, E2. injection E1 as <-. injection E2 as <-. destruct (ct_pairs _ _ _ _ HT j r0 q0 E3 E4). cbn [row' c_parent c_lam]. split; congruence.
      - intros T1 r T2 E. unfold remapped in E.
        assert (H : (exists x, In x O /\ r = out_row n x) \/ exists l, T1 = map (out_row n) O ++ l /\ map row' T = l ++ r :: T2).
        { destruct (app_eq_app _ _ _ _ E) as (l & [[E1 E2]|[E1 E2]]).
          - destruct l as [|r1 l]; [right; exists []; rewrite app_nil_r in E1 |- *; cbn [app] in *; split; auto|].
            injection E2 as -> _. left. assert (H : In r1 (map (out_row n) O)) by (rewrite E1; apply in_or_app; right; now left).
            apply in_map_iff in H as (x & <- & Hx). eauto.
          - right. eauto. }
        destruct H as [(x & _ & ->)|(l & -> & E2)]; [left; reflexivity|].
        apply map_eq_app in E2 as (A1 & A2 & E3 & E4 & E5). destruct A2 as [|r0 A2]; [discriminate|]. cbn [map] in E5. injection E5 as <- <-.
        destruct (ct_order _ _ _ _ HT A1 r0 A2 E3) as [H|[H (q & Hq & Eq)]]; cbn [row' c_parent].
        + left. lia.
        + right. split; [lia|]. exists (row' q). split; [apply in_or_app; right; subst l; now apply in_map|]. cbn [row' c_child]. rewrite Eq. apply rename_big. lia.
      - intros r q Hr Hq Hc Ep. apply in_remapped in Hr as [(x & Hx & ->)|(r0 & Hr0 & ->)]; cbn [out_row row' c_child c_lam] in *; [pose proof (rm_O_lt x Hx); lia|].
        assert (Hs : f <= c_child r0) by (destruct (Nat.lt_ge_cases (c_child r0) f) as [H|H]; auto; apply rename_lt in H; lia).
        pose proof (child_big r0 Hr0 Hs) as Hb. rewrite rename_big in Ep by auto.
        apply in_remapped in Hq as [(x & Hx & ->)|(q0 & Hq0 & ->)]; cbn [out_row row' c_parent c_lam] in *; [lia|].
        apply (ct_lambda _ _ _ _ HT r0 q0); auto; lia.
      - intros r Hr Hc. apply in_remapped in Hr as [(x & Hx & ->)|(r0 & Hr0 & ->)]; cbn [out_row row' c_child c_size] in *; [pose proof (rm_O_lt x Hx); lia|].
        assert (Hs : f <= c_child r0) by (destruct (Nat.lt_ge_cases (c_child r0) f) as [H|H]; auto; apply rename_lt in H; lia).
        pose proof (child_big r0 Hr0 Hs) as Hb. destruct (ct_sizes _ _ _ _ HT r0 Hr0 Hs) as (H1 & xs & N & Hx & Es). split; auto.
        assert (Hlt : forall x, In x xs -> x < f).
        { intros x H. apply Hx in H. clear -H. induction H; auto. }
        exists (map (fun x => raw x) xs). split; [|split].
        + clear -N Hlt HP. induction N as [|a l Ha N IH]; cbn [map]; constructor; [|apply IH; intros; apply Hlt; now right].
          intro H. apply in_map_iff in H as (b & E & Hb). apply raw_inj in E; [congruence|apply Hlt; now right|apply Hlt; now left].
        + intro y. rewrite rename_big by auto. rewrite (below_remapped _ y Hb), in_map_iff. split.
          * intros (x & <- & H). exists x. split; auto. split; auto. now apply Hx.
          * intros (x & H & -> & Hx'). exists x. split; auto. now apply Hx.
        + rewrite Es, map_map. f_equal. apply map_ext_in. intros x H. symmetry. auto.
      - intros r Hr Hc. apply in_remapped in Hr as [(x & Hx & ->)|(r0 & Hr0 & ->)]; cbn [out_row row' c_child c_size] in *; auto.
        apply (ct_sample_size _ _ _ _ HT); auto. now apply rename_lt.
    Qed.

    Lemma remapped_splits_once : splits_once f T -> splits_once n remapped.
    Proof.
      intros H i j r q. rewrite cluster_rows_remapped, !nth_error_map. intros E1 E2.
      destruct (nth_error (cluster_rows f T) (2 * i)) as [r0|] eqn:E3; [|discriminate]. destruct (nth_error (cluster_rows f T) (2 * j)) as [q0|] eqn:E4; [|discriminate].
      cbn [option_map] in E1, E2. injection E1 as <-. injection E2 as <-. cbn [row' c_parent]. intro E. apply (H i j r0 q0); auto. lia.
    Qed.
  End Condensed.
End Remap.
