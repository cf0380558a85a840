(** Boruvka on stored graphs: the main loop. *)
From Coq Require Import List Arith Lia Bool Permutation Relations Sorted.
From Verif Require Import Prelude Order Graph UF M_DisjointSet P_DisjointSet M_Precomputed M_Linkage M_Select
  M_CoreGraph S_Kruskal S_Precomputed S_CoreGraph P_Sort P_Forest P_Precomputed2 P_KruskalRun P_KruskalEntry
  P_Boruvka P_CoreGraph.
Import ListNotations.

Lemma combine_seq {A} (l : list A) d k :
  combine (seq k (length l)) l = map (fun i => (i, nth (i - k) l d)) (seq k (length l)).
Proof.
  revert k. induction l as [|x l IH]; intro k; simpl; auto.
  rewrite Nat.sub_diag. f_equal. rewrite IH. apply map_ext_in. intros i Hi. apply in_seq in Hi.
  destruct (i - k) as [|j] eqn:E; [lia|]. do 2 f_equal. lia.
Qed.

Lemma nth_error_slice {A} (l : list A) s t j x :
  nth_error (slice s t l) j = Some x -> nth_error l (s + j) = Some x.
Proof.
  unfold slice. generalize (t - s) as k. intro k.
  revert l j. induction s as [|s IH]; intros l j; simpl.
  - revert l j. induction k as [|k IHk]; intros [|y l] [|j]; simpl; auto; try discriminate.
  - destruct l as [|y l]; simpl; [destruct k, j; discriminate|]. apply IH.
Qed.

Lemma slice_length {A} (l : list A) s t : s <= t -> t <= length l -> length (slice s t l) = t - s.
Proof. intros H1 H2. unfold slice. rewrite firstn_length, skipn_length. lia. Qed.

Lemma filter_all {A} (f : A -> bool) l : (forall x, In x l -> f x = true) -> filter f l = l.
Proof.
  induction l as [|x l IH]; intro H; simpl; auto. rewrite (H x) by (left; auto). f_equal.
  apply IH. intros y Hy. apply H. right. auto.
Qed.

Lemma filter_filter {A} (f g : A -> bool) l : filter f (filter g l) = filter (fun x => g x && f x) l.
Proof.
  induction l as [|x l IH]; simpl; auto. destruct (g x); cbn [andb filter]; auto.
  destruct (f x); [f_equal|]; auto.
Qed.

Lemma sorted_by_filter {W : WOrd} {A} (f : A -> W) p l : sorted_by f l -> sorted_by f (filter p l).
Proof.
  intro H. induction H as [|x l H IH Hx]; simpl; [constructor|].
  destruct (p x); auto. constructor; auto. rewrite Forall_forall in *. intros y Hy.
  apply filter_In in Hy as [Hy _]. auto.
Qed.

Lemma Forall2_seq_nth (P : nat -> nat -> Prop) m rs d k i :
  Forall2 P (seq k m) rs -> i < m -> P (k + i) (nth i rs d).
Proof.
  revert rs k i. induction m as [|m IH]; intros rs k i H Hi; [lia|]. simpl in H.
  inversion H as [|? r ? rs' H1 H2]; subst. destruct i as [|i]; simpl.
  - now rewrite Nat.add_0_r.
  - replace (k + S i) with (S k + i) by lia. apply IH; auto. lia.
Qed.

Section Points.
  Context {W : WOrd}.
  Variable n : nat.

  Lemma find_all_ok (F : list (edge W)) points : forall d, tracks n d F -> (forall i, In i points -> i < n) ->
    exists d' rs, find_all d points = Ok (d', rs) /\ tracks n d' F /\
      Forall2 (fun i r => Root (ds_parent d) i r) points rs.
  Proof.
    induction points as [|i points IH]; intros d Ht Hp; simpl.
    - exists d, []. auto.
    - destruct (tracks_find n d F i Ht) as (d1 & r & Hf & Ht1 & _ & _ & Hs & HR); [apply Hp; left; auto|].
      rewrite Hf. simpl. destruct (IH d1 Ht1) as (d2 & rs & H1 & H2 & H3).
      { intros j Hj. apply Hp. right. auto. }
      rewrite H1. simpl. exists d2, (r :: rs). split; auto. split; auto. constructor; auto.
      eapply Forall2_weaken; [|apply H3]. intros a b Hab. eapply Root_ext; [|apply Hab].
      intro j. apply Hs.
  Qed.

  Lemma update_points_ok d (F : list (edge W)) : tracks n d F ->
    exists d' comps, update_point_components d n = Ok (d', comps) /\ tracks n d' F /\
      labels_classes n comps (connected F).
  Proof.
    intro Ht. destruct (find_all_ok F (seq 0 n) d Ht) as (d' & rs & H1 & H2 & H3).
    { intros i Hi. apply in_seq in Hi. lia. }
    exists d', rs. split; auto. split; auto.
    assert (HL : length rs = n) by (rewrite <- (Forall2_len _ _ _ H3); apply seq_length).
    apply (labels_classes_of n (ds_parent d)); auto; try apply Ht.
    intros i Hi. apply (Forall2_seq_nth (fun i r => Root (ds_parent d) i r) n rs 0 0 i); auto.
  Qed.
End Points.

Section Run.
  Context {W : WOrd}.
  Variable g0 : csr W.
  Let n := csr_n g0.
  Let indptr := c_indptr g0.
  Let E := csr_entries g0.
  Hypothesis Hsg : stored_graph g0.
  Hypothesis Hsorted : rows_sorted g0.
  Hypothesis Hgap : no_gap g0.
  Hypothesis Hloops : no_loops E.

  Let G (a b : nat) (w : W) : Prop := In (a, b, w) E \/ In (b, a, w) E.

  Lemma G_sym a b w : G a b w -> G b a w.
  Proof. unfold G. tauto. Qed.

  Lemma entries_in a b w : In (a, b, w) E <-> a < n /\ In (b, w) (csr_row g0 a).
  Proof.
    unfold E, csr_entries. rewrite in_flat_map. split.
    - intros (i & Hi & Hm). apply in_seq in Hi. apply in_map_iff in Hm as ([c v] & Hm & Hr).
      simpl in Hm. injection Hm as -> -> ->. split; auto. fold n in Hi. lia.
    - intros [Ha Hr]. exists a. split; [apply in_seq; fold n; lia|]. apply in_map_iff.
      exists (b, w). auto.
  Qed.

  Lemma row_bounds i : i < n ->
    nth i indptr 0 <= nth (S i) indptr 0 /\ nth (S i) indptr 0 <= length (c_indices g0).
  Proof.
    intro Hi. split; [now apply (sg_mono g0 Hsg)|].
    rewrite <- (sg_last g0 Hsg). apply (indptr_mono indptr n); auto. apply (sg_mono g0 Hsg).
  Qed.

  Lemma combine_len : length (combine (c_indices g0) (c_data g0)) = length (c_indices g0).
  Proof. rewrite combine_length, (sg_values g0 Hsg). lia. Qed.

  Lemma row_length i : i < n -> length (csr_row g0 i) = nth (S i) indptr 0 - nth i indptr 0.
  Proof.
    intro Hi. destruct (row_bounds i Hi). unfold csr_row. apply slice_length; auto.
    now rewrite combine_len.
  Qed.

  Lemma columns_range : in_range n E.
  Proof.
    intros [[a b] w] He. apply entries_in in He as [Ha Hr]. split; [exact Ha|].
    unfold csr_row in Hr. apply (sg_columns g0 Hsg).
    assert (Hc : In (b, w) (combine (c_indices g0) (c_data g0))).
    { apply In_nth_error in Hr as [j Hj]. apply nth_error_slice in Hj. eapply nth_error_In; eauto. }
    now apply in_combine_l in Hc.
  Qed.

  Lemma initial_rows i : i < n ->
    row_view indptr {| w_len := length (c_indices g0); w_ind := nth_error (c_indices g0);
                       w_dist := fun i => nth i (c_data g0) winf |} i = csr_row g0 i.
  Proof.
    intro Hi. destruct (row_bounds i Hi) as [H1 H2]. pose proof (row_length i Hi) as HL.
    unfold row_view. apply rview_list.
    - rewrite HL. lia.
    - intros j x Hj. unfold csr_row in Hj. apply nth_error_slice in Hj.
      destruct x as [c w]. cbn [w_ind w_dist fst snd].
      fold indptr in Hj. set (k := nth i indptr 0 + j) in *. clearbody k.
      assert (Hv := sg_values g0 Hsg). clear - Hj Hv.
      revert k Hj Hv. generalize (c_indices g0) as a. generalize (c_data g0) as b.
      intros b a. revert b. induction a as [|x a IH]; intros [|y b] [|k] Hj Hv; simpl in *; try discriminate.
      + now injection Hj as -> ->.
      + apply IH; auto.
    - rewrite HL. lia.
  Qed.

  Definition cands (g : work W) (comps : list nat) : list (nat * edge W) :=
    flat_map (fun i => match row_view indptr g i with
                       | [] => []
                       | (c, w) :: _ => [(nth i comps 0, (i, c, w))]
                       end) (seq 0 n).

  Lemma select_cands g comps : length comps = n -> w_len g = length (c_indices g0) ->
    (forall i, i < n -> csr_row g0 i = [] -> row_view indptr g i = []) ->
    select_components g indptr comps = note_all (cands g comps) [].
  Proof.
    intros HL Hw Hempty. unfold select_components. rewrite HL at 1. rewrite <- HL.
    rewrite (combine_seq comps 0 0). rewrite HL. unfold cands.
    assert (Hall : forall i, In i (seq 0 n) -> i < n) by (intros i Hi; apply in_seq in Hi; lia).
    revert Hall. generalize (seq 0 n) as l. generalize (@nil (nat * edge W)) as D.
    intros D l. revert D. induction l as [|i l IH]; intros D Hall; simpl; auto.
    rewrite Nat.sub_0_r.
    assert (Hi : i < n) by (apply Hall; left; auto).
    assert (Hl : forall j, In j l -> j < n) by (intros j Hj; apply Hall; right; auto).
    destruct (row_bounds i Hi) as [B1 B2]. pose proof (row_length i Hi) as HR.
    unfold note_all. rewrite fold_left_app. unfold note_all in IH.
    match goal with |- context [flat_map ?f l] => set (R := flat_map f l) in * end.
    clearbody R.
    rewrite Hw. destruct (Nat.eqb_spec (nth i indptr 0) (length (c_indices g0))) as [Es|Es].
    - assert (Hr : csr_row g0 i = []) by (apply length_zero_iff_nil; lia).
      rewrite (Hempty i Hi Hr). simpl. now apply IH.
    - assert (Hne : nth i indptr 0 < nth (S i) indptr 0).
      { destruct (Nat.eq_dec (nth i indptr 0) (nth (S i) indptr 0)) as [Eq|]; [|lia]. exfalso. apply Es.
        assert (Hr : csr_row g0 i = []) by (apply length_zero_iff_nil; lia).
        rewrite <- (sg_last g0 Hsg). fold n indptr.
        assert (K : forall k, i + k <= n -> nth (i + k) indptr 0 = nth i indptr 0).
        { induction k as [|k IHk]; intro Hk; [now rewrite Nat.add_0_r|].
          rewrite <- IHk by lia. replace (i + S k) with (S (i + k)) by lia.
          assert (Hk' : csr_row g0 (i + k) = []).
          { destruct k; [now rewrite Nat.add_0_r|]. apply (Hgap i); auto; fold n; lia. }
          pose proof (row_length (i + k) ltac:(lia)) as HR'. rewrite Hk' in HR'. simpl in HR'.
          destruct (row_bounds (i + k) ltac:(lia)). lia. }
        symmetry. replace n with (i + (n - i)) by lia. apply K. lia. }
      unfold row_view.
      replace (nth (S i) indptr 0 - nth i indptr 0) with (S (nth (S i) indptr 0 - nth i indptr 0 - 1)) by lia.
      cbn [seq rview]. destruct (w_ind g (nth i indptr 0)) as [c|]; simpl; now apply IH.
  Qed.

  Record binv (g : work W) (d : disjoint_set) (comps : list nat) (nc : nat) (F : list (edge W)) : Prop := {
    bi_len : w_len g = length (c_indices g0);
    bi_tracks : tracks n d F;
    bi_acyclic : acyclic F;
    bi_incl : incl F E;
    bi_labels : labels_classes n comps (connected F);
    bi_rows : forall i, i < n -> row_view indptr g i = filter (crosses comps i) (csr_row g0 i);
    bi_count : nc + length F = n;
    bi_phase : symmetric E -> phase_inv G F
  }.

  Lemma crosses_iff comps (F : list (edge W)) i c (w : W) : labels_classes n comps (connected F) -> i < n -> c < n ->
    (crosses comps i (c, w) = true <-> ~ connected F i c).
  Proof.
    intros [HL HC] Hi Hc. unfold crosses. simpl. rewrite negb_true_iff, Nat.eqb_neq.
    rewrite <- (HC i c Hi Hc). split; intros H K; apply H; auto.
  Qed.

  Lemma cands_in g d comps nc F c e : binv g d comps nc F -> In (c, e) (cands g comps) ->
    c = nth (esrc e) comps 0 /\ In e E /\ ~ connected F (esrc e) (edst e) /\
    esrc e < n /\ edst e < n.
  Proof.
    intros Hb Hi. unfold cands in Hi. apply in_flat_map in Hi as (i & Hi & Hc). apply in_seq in Hi.
    assert (Hin : i < n) by lia. rewrite (bi_rows _ _ _ _ _ Hb i Hin) in Hc.
    destruct (filter (crosses comps i) (csr_row g0 i)) as [|[c1 w1] r] eqn:Ef; [destruct Hc|].
    destruct Hc as [Hc|[]]. injection Hc as <- <-.
    assert (Hh : In (c1, w1) (filter (crosses comps i) (csr_row g0 i))) by (rewrite Ef; left; auto).
    apply filter_In in Hh as [H1 H2].
    assert (HE : In (i, c1, w1) E) by (apply entries_in; auto).
    destruct (columns_range _ HE) as [R1 R2]. unfold esrc, edst in *. simpl in *.
    split; auto. split; auto. split; [|split; auto].
    now apply (crosses_iff comps F i c1 w1 (bi_labels _ _ _ _ _ Hb)).
  Qed.

  Lemma cands_least g d comps nc F c x w : binv g d comps nc F ->
    ~ connected F c x -> In (c, x, w) E ->
    exists f, In (nth c comps 0, f) (cands g comps) /\ esrc f = c /\ wle (ewt f) w = true.
  Proof.
    intros Hb Hn HE. destruct (columns_range _ HE) as [R1 R2]. unfold esrc, edst in R1, R2. simpl in R1, R2.
    apply entries_in in HE as [_ Hr].
    assert (Hf : In (x, w) (filter (crosses comps c) (csr_row g0 c))).
    { apply filter_In. split; auto. now apply (crosses_iff comps F c x w (bi_labels _ _ _ _ _ Hb)). }
    assert (Hs : sorted_by (fun cw : nat * W => snd cw) (filter (crosses comps c) (csr_row g0 c))).
    { apply sorted_by_filter. now apply Hsorted. }
    destruct (filter (crosses comps c) (csr_row g0 c)) as [|[c1 w1] r] eqn:Ef; [destruct Hf|].
    exists (c, c1, w1). split; [|split; auto].
    - unfold cands. apply in_flat_map. exists c. split; [apply in_seq; lia|].
      rewrite (bi_rows _ _ _ _ _ Hb c R1), Ef. left. auto.
    - simpl. destruct Hf as [[= -> ->]|Hf]; [apply wle_refl|].
      inversion_clear Hs as [|? ? _ Hall]. rewrite Forall_forall in Hall. apply (Hall _ Hf).
  Qed.

  Lemma boruvka_loop_ok fuel : forall g d comps nc F,
    binv g d comps nc F -> nc <= fuel ->
    exists comps' M, boruvka_loop fuel indptr g d comps nc F = Ok (n - length M, comps', M) /\
      spanning_forest E M /\ labels_classes n comps' (connected M) /\ length M <= n /\
      (symmetric E -> min_spanning_forest E M).
  Proof.
    assert (Finish : forall g d comps nc F, binv g d comps nc F ->
              (forall a b w, In (a, b, w) E -> connected F a b) ->
              spanning_forest E F /\ labels_classes n comps (connected F) /\ length F <= n /\
              nc = n - length F /\ (symmetric E -> min_spanning_forest E F)).
    { intros g d comps nc F Hb Hall. pose proof (bi_count _ _ _ _ _ Hb) as Hcount.
      split; [|split; [apply Hb|split; [lia|split; [lia|]]]].
      - split; try apply Hb. intros x y. split.
        + apply connected_incl. apply Hb.
        + apply connected_mono. intros [[a b] w] He. apply (Hall a b w He).
      - intro Hs. pose proof (bi_phase _ _ _ _ _ Hb Hs) as Hp. split; try apply Hb.
        apply levels_of_bottleneck; [apply Hb|]. intros [[a b] w] He.
        apply (ph_inside G F Hp); [left; exact He|]. apply (Hall a b w He). }
    induction fuel as [|fuel IH]; intros g d comps nc F Hb Hf; simpl.
    - destruct (Nat.ltb_spec 1 nc) as [Hlt|Hle]; [lia|].
      destruct (Finish g d comps nc F Hb) as (H1 & H2 & H3 & H4 & H5).
      { intros a b w He. exfalso. pose proof (columns_range _ He) as [R1 _]. 
        pose proof (bi_count _ _ _ _ _ Hb).
        pose proof (labels_count n F comps (bi_acyclic _ _ _ _ _ Hb)
          (in_range_incl _ _ _ (bi_incl _ _ _ _ _ Hb) columns_range) (bi_labels _ _ _ _ _ Hb)).
        pose proof (distinct_pos n comps _ ltac:(lia) (bi_labels _ _ _ _ _ Hb)) as Hp.
        rewrite distinct_unique in Hp. lia. }
      exists comps, F. rewrite <- H4. auto.
    - destruct (Nat.ltb_spec 1 nc) as [Hlt|Hle].
      2:{ destruct (Finish g d comps nc F Hb) as (H1 & H2 & H3 & H4 & H5).
          { intros a b w He. pose proof (columns_range _ He) as [R1 R2].
            unfold esrc, edst in R1, R2. simpl in R1, R2.
            pose proof (bi_count _ _ _ _ _ Hb).
            pose proof (labels_count n F comps (bi_acyclic _ _ _ _ _ Hb)
              (in_range_incl _ _ _ (bi_incl _ _ _ _ _ Hb) columns_range) (bi_labels _ _ _ _ _ Hb)).
            pose proof (distinct_pos n comps _ ltac:(lia) (bi_labels _ _ _ _ _ Hb)) as Hp.
            rewrite distinct_unique in Hp.
            apply (labels_one n comps _ (bi_labels _ _ _ _ _ Hb)); auto.
            rewrite distinct_unique. lia. }
          exists comps, F. rewrite <- H4. auto. }
      pose proof (bi_labels _ _ _ _ _ Hb) as [HL HC].
      rewrite select_cands; auto; [|apply Hb|].
      2:{ intros i Hi He. rewrite (bi_rows _ _ _ _ _ Hb i Hi), He. reflexivity. }
      unfold merge_components.
      set (D := note_all (cands g comps) []).
      assert (HD : best_of (cands g comps) D) by (apply (note_all_best _ [] []), best_nil).
      assert (Hin : forall e, In e (map snd D) -> In e E /\ ~ connected F (esrc e) (edst e) /\
                                esrc e < n /\ edst e < n).
      { intros e He. apply in_map_iff in He as ([c f] & Ef & Hi). simpl in Ef. subst f.
        apply (bo_from _ _ HD) in Hi. now apply (cands_in g d comps nc F c e Hb) in Hi. }
      destruct (merge_edges_ok n (map snd D) d F (bi_tracks _ _ _ _ _ Hb) (bi_acyclic _ _ _ _ _ Hb))
        as (d1 & new & Hm & Ht & Hi & Ha & Hcon).
      { intros e He. now apply Hin. }
      rewrite Hm. cbn [bind].
      destruct new as [|e0 new0].
      + destruct (Finish g d comps nc F Hb) as (H1 & H2 & H3 & H4 & H5).
        { intros a b w He. pose proof (columns_range _ He) as [R1 R2].
          unfold esrc, edst in R1, R2. simpl in R1, R2.
          destruct (Nat.eq_dec (nth a comps 0) (nth b comps 0)) as [Eq|Ne]; [now apply HC|].
          exfalso. assert (Nc : ~ connected F a b) by (intro K; apply Ne, HC; auto).
          destruct (cands_least g d comps nc F a b w Hb Nc He) as (f & Hf1 & _).
          destruct (bo_least _ _ HD _ _ Hf1) as (h & Hh & _).
          assert (Hh' : In h (map snd D)) by (apply in_map_iff; exists (nth a comps 0, h); auto).
          destruct (Hin h Hh') as (_ & Nh & _). apply Nh.
          rewrite app_nil_r in Hcon. now apply Hcon. }
        exists comps, F. rewrite <- H4. auto.
      + set (new := e0 :: new0) in *.
        rewrite HL. destruct (update_points_ok n d1 (F ++ new) Ht) as (d2 & comps2 & Hu & Ht2 & Hlab2).
        rewrite Hu. cbn [bind].
        assert (HLn : length new = S (length new0)) by reflexivity.
        assert (Hincl : incl (F ++ new) E).
        { apply incl_app; [apply Hb|]. intros e He. now apply Hin, Hi. }
        assert (Hcount : nc - length new + length (F ++ new) = n).
        { pose proof (bi_count _ _ _ _ _ Hb).
          pose proof (labels_count n (F ++ new) comps2 Ha (in_range_incl _ _ _ Hincl columns_range) Hlab2).
          rewrite app_length in *. lia. }
        apply IH; [|lia].
        destruct (update_graph_ok indptr n (sg_mono g0 Hsg) comps2 g (proj1 Hlab2)) as [U1 U2].
        split; auto.
        * rewrite U1. apply Hb.
        * intros i Hi'. rewrite U2 by auto. rewrite (bi_rows _ _ _ _ _ Hb i Hi').
          rewrite filter_filter. apply filter_ext_in. intros [c w] Hc.
          assert (HE : In (i, c, w) E) by (apply entries_in; auto).
          pose proof (columns_range _ HE) as [R1 R2]. unfold esrc, edst in R1, R2. simpl in R1, R2.
          destruct (crosses comps2 i (c, w)) eqn:E2; [|apply andb_false_r].
          rewrite andb_true_r || rewrite andb_true_l.
          apply (crosses_iff comps2 _ i c w Hlab2) in E2; auto.
          apply (crosses_iff comps F i c w (bi_labels _ _ _ _ _ Hb)); auto.
          intro K. apply E2. apply (connected_incl F); auto. intros f Hf'. apply in_app_iff. auto.
        * intro Hs. eapply (merge_edges_phase G G_sym n (map snd D) d F); eauto.
          -- apply Hb.
          -- intros e He. now apply Hin.
          -- now apply (bi_phase _ _ _ _ _ Hb).
          -- apply (best_pending G (fun i => nth i comps 0) F (cands g comps) D HD).
             ++ intros c e Hce. destruct (cands_in g d comps nc F c e Hb Hce) as (P1 & P2 & _).
                split; auto. left. destruct e as [[a b] w]. exact P2.
             ++ intros e f He Hf' Hcf.
                apply in_map_iff in He as ([c1 e'] & Ee & He). simpl in Ee. subst e'.
                apply in_map_iff in Hf' as ([c2 f'] & Ef & Hf'). simpl in Ef. subst f'.
                apply (cands_in g d comps nc F c1 e Hb) in He as (_ & _ & _ & P1 & _).
                apply (cands_in g d comps nc F c2 f Hb) in Hf' as (_ & _ & _ & P2 & _).
                now apply HC.
             ++ intros e c x w He Hce Hncx HG.
                assert (HG' : exists w', In (c, x, w') E /\ wle w' w = true).
                { destruct HG as [HG|HG]; [exists w; auto using wle_refl|]. now apply Hs. }
                clear HG. destruct HG' as (w' & HG & Hw').
                destruct (cands_least g d comps nc F c x w' Hb Hncx HG) as (f & Hf1 & _ & Hf2).
                exists f. split; [|eapply wle_trans; eauto].
                apply in_map_iff in He as ([c1 e'] & Ee & He). simpl in Ee. subst e'.
                apply (cands_in g d comps nc F c1 e Hb) in He as (_ & _ & _ & P1 & _).
                assert (Rc : c < n) by (pose proof (columns_range _ HG) as [R1 _]; exact R1).
                rewrite (proj2 (HC (esrc e) c P1 Rc) Hce). exact Hf1.
  Qed.

  Lemma boruvka_ok :
    exists comps M, boruvka_mst g0 = Ok (n - length M, comps, M) /\
      spanning_forest E M /\ labels_classes n comps (connected M) /\ length M <= n /\
      (symmetric E -> min_spanning_forest E M).
  Proof.
    unfold boruvka_mst. fold (csr_n g0). fold n indptr.
    apply boruvka_loop_ok; auto. split; simpl; auto.
    - apply tracks_create.
    - apply acyclic_nil.
    - intros e [].
    - split; [apply seq_length|]. intros x y Hx Hy. rewrite !seq_nth by auto. simpl.
      rewrite connected_nil. tauto.
    - intros i Hi. rewrite initial_rows by auto. symmetry. apply filter_all.
      intros [c w] Hc. assert (HE : In (i, c, w) E) by (apply entries_in; auto).
      pose proof (columns_range _ HE) as [R1 R2]. pose proof (Hloops _ HE) as Hl.
      unfold esrc, edst in *. simpl in *. unfold crosses. simpl fst.
      rewrite !seq_nth by auto. simpl. apply negb_true_iff, Nat.eqb_neq. auto.
    - intros _. apply phase_nil.
  Qed.
End Run.
