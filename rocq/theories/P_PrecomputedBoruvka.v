(** Boruvka for precomputed sparse distances. *)
From Coq Require Import List Arith Lia Bool Permutation Relations Sorted.
From Verif Require Import Prelude Order Graph UF M_DisjointSet P_DisjointSet M_Kruskal M_Precomputed M_Linkage M_Select
  M_CoreGraph S_Kruskal S_Precomputed S_CoreGraph P_Sort P_Forest P_Precomputed P_Precomputed2 P_KruskalRun P_KruskalEntry
  P_PrecomputedTop P_Boruvka P_CoreGraph P_CoreGraphRun.
Import ListNotations.

Section Shape.
  Context {W : WOrd}.

  Lemma connected_reweigh (f : W -> W) (M : list (edge W)) x y :
    connected (map (reweigh f) M) x y <-> connected M x y.
  Proof.
    rewrite <- (connected_strip (map (reweigh f) M)), <- (connected_strip M).
    unfold strip. now rewrite map_map.
  Qed.

  Lemma acyclic_reweigh (f : W -> W) (M : list (edge W)) : acyclic (map (reweigh f) M) -> acyclic M.
  Proof.
    induction M as [|e M IH]; intro H; [apply acyclic_nil|].
    simpl in H. apply acyclic_tail in H as [H1 H2]. rewrite connected_reweigh in H2.
    apply acyclic_cons; auto.
  Qed.

  Lemma acyclic_strip {T} (F : list (edge T)) : acyclic (strip F) <-> acyclic F.
  Proof.
    induction F as [|e F IH]; [split; intro; apply acyclic_nil|].
    simpl. split; intro H; apply acyclic_tail in H as [H1 H2]; (apply acyclic_cons; [now apply IH|]).
    - intro K. apply H2. exact (proj2 (connected_strip F _ _) K).
    - intro K. apply H2. exact (proj1 (connected_strip F _ _) K).
  Qed.

  Lemma csr_of_sorted_stored (sym : list (edge W)) n :
    nsorted esrc sym -> in_range n sym -> stored_graph (csr_of_sorted sym n).
  Proof.
    intros Hs HR.
    assert (Hn : forall i, i <= n -> nth i (cumcounts (map esrc sym) n) 0 = countp (fun r => r <? i) (map esrc sym)).
    { intros i Hi. unfold cumcounts. rewrite nth_map_seq by lia. reflexivity. }
    split; rewrite ?csr_of_sorted_n; cbn [csr_of_sorted c_indptr c_indices c_data]; auto.
    - rewrite Hn by lia. apply countp_zero. intros x _. apply Nat.ltb_ge. lia.
    - intros i Hi. rewrite !Hn by lia. rewrite !countp_filter.
      clear Hn. induction (map esrc sym) as [|x l IH]; simpl; auto.
      destruct (Nat.ltb_spec x i); destruct (Nat.ltb_spec x (S i)); simpl; lia.
    - rewrite Hn by lia. rewrite map_length, <- (map_length esrc), countp_filter.
      f_equal. apply filter_all. intros x Hx. apply in_map_iff in Hx as (e & <- & He).
      apply Nat.ltb_lt. now apply HR.
    - now rewrite !map_length.
    - intros c Hc. apply in_map_iff in Hc as (e & <- & He). now apply HR.
  Qed.

  Lemma symmetrize_stored (entries : list (edge W)) n : in_range n entries ->
    stored_graph (symmetrize_min entries n).
  Proof.
    intro HR. destruct (symmetrize_min_shape entries n) as (sym & -> & H).
    assert (K : nsorted esrc sym /\ in_range n sym).
    { destruct H as [[-> _]|H]; [split; [constructor|intros e []]|].
      destruct (sym_entries_core n (filter (fun e => negb (esrc e =? edst e)) entries))
        as (H1 & _ & H3 & _).
      - intros e He. apply filter_In in He as [He Hd]. apply HR in He.
        apply negb_true_iff, Nat.eqb_neq in Hd. tauto.
      - cbn zeta in H. rewrite <- H in H1, H3. split; auto.
        intros [[i j] w] He. apply H3 in He. unfold esrc, edst; simpl. tauto. }
    now apply csr_of_sorted_stored.
  Qed.

  (** Replacing every row by one of the same length. *)
  Section Rows.
    Variable g : csr W.
    Hypothesis Hsg : stored_graph g.
    Variable R : nat -> list (nat * W).
    Hypothesis HRl : forall i, i < csr_n g -> length (R i) = length (csr_row g i).

    Let rows := flat_map R (seq 0 (csr_n g)).
    Let g' : csr W := {| c_data := map snd rows; c_indices := map fst rows; c_indptr := c_indptr g |}.

    Lemma rows_prefix i : i <= csr_n g -> length (flat_map R (seq 0 i)) = nth i (c_indptr g) 0.
    Proof.
      induction i as [|i IH]; intro Hi; [now rewrite (sg_first g Hsg)|].
      rewrite seq_S, flat_map_app, app_length, IH by lia. simpl. rewrite app_nil_r.
      rewrite HRl, (row_length g Hsg) by lia. pose proof (sg_mono g Hsg i). lia.
    Qed.

    Lemma rows_combine : combine (map fst rows) (map snd rows) = rows.
    Proof. induction rows as [|[a b] l IH]; simpl; auto. now rewrite IH. Qed.

    Lemma rows_row i : i < csr_n g -> csr_row g' i = R i.
    Proof.
      intro Hi. unfold csr_row, g'. cbn [c_data c_indices c_indptr]. rewrite rows_combine.
      rewrite <- !rows_prefix by lia.
      assert (HS : length (flat_map R (seq 0 (S i))) = length (flat_map R (seq 0 i)) + length (R i)).
      { rewrite seq_S, flat_map_app, app_length. simpl. now rewrite app_nil_r. }
      rewrite HS. unfold slice, rows.
      replace (csr_n g) with (i + S (csr_n g - i - 1)) at 1 by lia.
      rewrite seq_app, flat_map_app. simpl. rewrite skipn_app, Nat.sub_diag, skipn_all. simpl.
      replace (length (flat_map R (seq 0 i)) + length (R i) - length (flat_map R (seq 0 i)))
        with (length (R i)) by lia.
      rewrite firstn_app, Nat.sub_diag, firstn_all. simpl. apply app_nil_r.
    Qed.

    Lemma rows_stored : (forall i c w, i < csr_n g -> In (c, w) (R i) -> c < csr_n g) -> stored_graph g'.
    Proof.
      intro Hc. split; unfold csr_n, g'; cbn [c_data c_indices c_indptr]; try apply Hsg.
      - rewrite map_length. unfold rows. now rewrite rows_prefix.
      - now rewrite !map_length.
      - intros c Hi. apply in_map_iff in Hi as ([c' w] & <- & Hi). simpl. unfold rows in Hi.
        apply in_flat_map in Hi as (i & H1 & H2). apply in_seq in H1. apply (Hc i c' w); auto. lia.
    Qed.
  End Rows.
End Shape.

Section Build.
  Context {W : WOrd}.
  Variable round : W -> W.
  Variable core : list W.
  Variable entries : list (edge W).
  Variable n : nat.
  Hypothesis HR : in_range n entries.
  Let g := symmetrize_min entries n.
  Let b := build_core_graph round core g.

  Lemma g_n : csr_n g = n.
  Proof. apply (symmetrize_min_ok entries n HR). Qed.

  Lemma b_n : csr_n b = n.
  Proof. apply g_n. Qed.

  Lemma core_row_in i j w : In (j, w) (core_graph_row round core g i) <->
    exists d, In (j, d) (csr_row g i) /\ w = round (mrd3 (nth i core winf) (nth j core winf) d).
  Proof.
    unfold core_graph_row. split.
    - intro H. apply (Permutation_in _ (Permutation_sym (isort_perm _ _))) in H.
      apply (Permutation_in _ (Permutation_sym (nsort_perm _ _))) in H.
      apply in_map_iff in H as ([c d] & E & H). simpl in E. injection E as <- <-. eauto.
    - intros (d & H & ->). apply (Permutation_in _ (isort_perm _ _)).
      apply (Permutation_in _ (nsort_perm _ _)). apply in_map_iff. exists (j, d). auto.
  Qed.

  Lemma core_row_length i : length (core_graph_row round core g i) = length (csr_row g i).
  Proof.
    unfold core_graph_row. rewrite isort_length.
    rewrite <- (Permutation_length (nsort_perm _ _)). apply map_length.
  Qed.

  Lemma b_row i : i < n -> csr_row b i = core_graph_row round core g i.
  Proof.
    intro Hi. apply (rows_row g); try rewrite g_n; auto.
    - now apply symmetrize_stored.
    - intros. apply core_row_length.
  Qed.

  Lemma b_stored : stored_graph b.
  Proof.
    apply rows_stored.
    - now apply symmetrize_stored.
    - intros. apply core_row_length.
    - intros i c w Hi Hc. apply core_row_in in Hc as (d & Hc & _).
      assert (He : In (i, c, d) (csr_entries g)) by (apply entries_in; auto).
      apply (columns_range g (symmetrize_stored _ _ HR)) in He. apply He.
  Qed.

  Lemma b_entries i j w : In (i, j, w) (csr_entries b) <->
    exists m, In (i, j, m) (mrd_entries core g) /\ w = round m.
  Proof.
    rewrite entries_in, b_n. split.
    - intros [Hi H]. rewrite b_row in H by auto. apply core_row_in in H as (d & H & ->).
      eexists. split; [|reflexivity]. apply c13_csr. exists d. split; auto. apply entries_in.
      rewrite g_n. auto.
    - intros (m & H & ->). apply c13_csr in H as (d & H & ->). apply entries_in in H as [Hi H].
      rewrite g_n in Hi. split; auto. rewrite b_row by auto. apply core_row_in. eauto.
  Qed.

  Lemma b_entries_map e : In e (csr_entries b) <-> In e (map (reweigh round) (mrd_entries core g)).
  Proof.
    destruct e as [[i j] w]. rewrite b_entries, in_map_iff. split.
    - intros (m & H & ->). exists (i, j, m). auto.
    - intros ([[a c] m] & E & H). unfold reweigh, esrc, edst, ewt in E. simpl in E.
      injection E as <- <- <-. eauto.
  Qed.

  Lemma b_sorted : rows_sorted b.
  Proof. intros i Hi. rewrite b_n in Hi. rewrite b_row by auto. apply isort_sorted. Qed.

  Lemma b_loops : no_loops (csr_entries b).
  Proof.
    intros [[i j] w] H. apply b_entries in H as (m & H & _). apply c13_csr in H as (d & H & _).
    unfold esrc, edst; simpl. destruct (symmetrize_min_ok entries n HR) as (_ & _ & _ & H1 & _).
    now apply H1 in H.
  Qed.

  Lemma b_symmetric : (forall x y, wle x y = true -> wle (round x) (round y) = true) ->
    symmetric (csr_entries b).
  Proof.
    intros Hm i j w H. apply b_entries in H as (m & H & ->). apply c13_csr in H as (d & H & ->).
    exists (round (mrd3 (nth j core winf) (nth i core winf) d)). split.
    - apply b_entries. eexists. split; [|reflexivity]. apply c13_csr. exists d. split; auto.
      now apply (symmetrize_min_ok entries n HR).
    - apply Hm. apply c13_symmetric.
  Qed.

  Lemma row_empty i : i < n -> csr_row g i = [] <-> isolated entries i.
  Proof.
    intro Hi. destruct (symmetrize_min_ok entries n HR) as (_ & _ & _ & H1 & H2 & H3). split.
    - intros He [[a c] w] Ha Hne. unfold esrc, edst in *. simpl in *.
      assert (K : forall x, x <> i -> In (i, x, w) entries \/ In (x, i, w) entries -> False).
      { intros x Hx H. destruct (H2 i x w) as [m Hm]; auto. apply entries_in in Hm as [_ Hm].
        fold g in Hm. rewrite He in Hm. destruct Hm. }
      split; intros ->; eapply K; eauto.
    - intro Hiso. destruct (csr_row g i) as [|[c d] r] eqn:Er; auto. exfalso.
      assert (He : In (i, c, d) (csr_entries g)).
      { apply entries_in. rewrite g_n, Er. simpl. auto. }
      apply H1 in He as [Hne [[He|He] _]]; specialize (Hiso _ He); unfold esrc, edst in Hiso;
        simpl in Hiso; destruct Hiso as [K1 K2]; auto.
  Qed.

  Lemma b_gap : isolated_last n entries -> no_gap b.
  Proof.
    intros Hl i j Hij Hj. rewrite b_n in Hj. rewrite !b_row by lia. intro He.
    assert (Hi : csr_row g i = []).
    { apply length_zero_iff_nil. rewrite <- core_row_length, He. reflexivity. }
    apply row_empty in Hi; [|lia]. apply (Hl i j) in Hi; auto. apply row_empty in Hi; auto.
    apply length_zero_iff_nil. rewrite core_row_length, Hi. reflexivity.
  Qed.

  (** ** Restoring the weights *)
  Variable zero huge : W.
  Hypothesis Hhuge : wlt huge winf = true.
  Hypothesis Hround : forall e, In e (mrd_entries core g) ->
    wle (round (ewt e)) huge = true \/ round (ewt e) = ewt e.

  Lemma base_found i j d : In (i, j, d) (csr_entries g) -> base_weight zero g i j = d.
  Proof.
    intro H. unfold base_weight.
    destruct (symmetrize_min_ok entries n HR) as (_ & Hnd & _). fold g in Hnd.
    pose proof (proj1 (entries_in g i j d) H) as [Hi Hr].
    destruct (find (fun cw : nat * W => fst cw =? j) (csr_row g i)) as [[c d']|] eqn:Ef.
    - apply find_some in Ef as [Hf Ej]. simpl in *. apply Nat.eqb_eq in Ej. subst c.
      assert (H' : In (i, j, d') (csr_entries g)) by (apply entries_in; auto).
      clear - Hnd H H'. induction (csr_entries g) as [|e l IH]; [destruct H|].
      simpl in Hnd. inversion_clear Hnd as [|? ? Hx Hd].
      destruct H as [->|H]; destruct H' as [E|H'].
      + congruence.
      + exfalso. apply Hx. apply in_map_iff. exists (i, j, d'). auto.
      + exfalso. apply Hx. apply in_map_iff. exists (i, j, d). subst e. auto.
      + auto.
    - exfalso. apply (find_none _ _ Ef (j, d)) in Hr. simpl in Hr. now rewrite Nat.eqb_refl in Hr.
  Qed.

  Lemma patch_edge e : In e (mrd_entries core g) ->
    patch_weight zero huge g core (reweigh round e) = e.
  Proof.
    intro He. destruct e as [[i j] m]. unfold reweigh, esrc, edst, ewt. cbn [fst snd patch_weight].
    pose proof (Hround _ He) as Hr. unfold ewt in Hr. simpl in Hr.
    apply c13_csr in He as (d & Hd & Em).
    destruct (wlt huge (round m)) eqn:E.
    - destruct Hr as [Hr| ->]; auto. apply wlt_nle in E. congruence.
    - now rewrite (base_found i j d Hd), <- Em.
  Qed.

  Lemma patch_bridge e : ewt e = winf -> patch_weight zero huge g core e = e.
  Proof. destruct e as [[i j] w]. unfold ewt. cbn [snd patch_weight]. intros ->. now rewrite Hhuge. Qed.

  Lemma unround M : incl M (map (reweigh round) (mrd_entries core g)) ->
    exists M', incl M' (mrd_entries core g) /\ map (reweigh round) M' = M /\
               map (patch_weight zero huge g core) M = M'.
  Proof.
    induction M as [|e M IH]; intro Hi.
    - exists []. repeat split; auto. intros x [].
    - destruct IH as (M' & H1 & H2 & H3); [intros x Hx; apply Hi; right; auto|].
      assert (He : In e (map (reweigh round) (mrd_entries core g))) by (apply Hi; left; auto).
      apply in_map_iff in He as (e' & <- & He). exists (e' :: M'). split; [|split].
      + intros x [<-|Hx]; auto.
      + simpl. now rewrite H2.
      + cbn [map]. now rewrite patch_edge, H3.
  Qed.
End Build.

Section Top.
  Context {W : WOrd}.

  Lemma forest_transport (round : W -> W) (X M : list (edge W)) :
    (forall e f, In e X -> In f X -> wle (round (ewt e)) (round (ewt f)) = true -> wle (ewt e) (ewt f) = true) ->
    incl M X -> min_spanning_forest (map (reweigh round) X) (map (reweigh round) M) ->
    min_spanning_forest X M.
  Proof.
    intros Hr Hi [_ Ha Hl]. split; auto.
    - now apply acyclic_reweigh in Ha.
    - apply levels_of_bottleneck; auto. intros e He.
      assert (Hc : connected (passing (fun w => wle w (round (ewt e))) (map (reweigh round) M)) (esrc e) (edst e)).
      { apply (Hl (fun w => wle w (round (ewt e)))); [apply threshold_le|].
        apply (connected_edge _ (reweigh round e)). apply in_passing. split; [now apply in_map|].
        apply wle_refl. }
      revert Hc. generalize (esrc e) (edst e). apply connected_ind_equiv;
        eauto using connected_refl, connected_sym, connected_trans.
      intros f Hf. apply in_passing in Hf as [Hf Hw]. apply in_map_iff in Hf as (f' & <- & Hf).
      apply (connected_edge _ f'). apply in_passing. split; auto.
  Qed.

  Lemma msf_ext (E E' M : list (edge W)) : (forall e, In e E <-> In e E') ->
    min_spanning_forest E M -> min_spanning_forest E' M.
  Proof.
    intros He [H1 H2 H3]. split; auto.
    - intros e Hm. now apply He, H1.
    - intros P HP x y. rewrite (H3 P HP x y). split; apply connected_incl; intros e Hp;
        apply in_passing in Hp as [Hp Hw]; apply in_passing; split; auto; now apply He.
  Qed.

  Lemma msf_constrained (E M : list (edge W)) : min_spanning_forest E M -> constrained_forest no_constraint E M.
  Proof.
    intros [H1 H2 H3]. split; auto.
    - intros x y [].
    - intros e He. left. apply (H3 (fun w => wle w (ewt e))); [apply threshold_le|].
      apply connected_edge. apply in_passing. auto using wle_refl.
  Qed.

  (** Everything [precomputed_boruvka] returns: [M] is the forest with exact
      weights, minimal for the converted weights. *)
  Lemma precomputed_boruvka_run (zero huge : W) round entries n ms :
    0 < n -> in_range n entries -> isolated_last n entries ->
    wlt huge winf = true ->
    (forall x y, wle x y = true -> wle (round x) (round y) = true) ->
    let core := snd (core_distances_csr zero (symmetrize_min entries n) ms) in
    let X := mrd_entries core (symmetrize_min entries n) in
    (forall e, In e X -> wle (round (ewt e)) huge = true \/ round (ewt e) = ewt e) ->
    exists T nbrs M B, precomputed_boruvka zero huge round entries n ms = Ok (T, nbrs, core) /\
      (nbrs, core) = core_distances_csr zero (symmetrize_min entries n) ms /\
      T = M ++ B /\ spanning_tree n T /\
      incl M X /\ acyclic M /\
      min_spanning_forest (map (reweigh round) X) (map (reweigh round) M) /\
      Forall (fun e => ewt e = winf /\ smallest_of_component M (esrc e) /\
                       smallest_of_component M (edst e)) B.
  Proof.
    intros Hn HR Hlast Hhuge Hmono core X Hround.
    unfold precomputed_boruvka. subst core.
    destruct (core_distances_csr zero (symmetrize_min entries n) ms) as [nbrs core]. cbn [snd] in *.
    set (g := symmetrize_min entries n) in *.
    destruct (boruvka_ok (build_core_graph round core g)) as (labels & M0 & Hb & Hsf & Hlab & HL & Hmin).
    { now apply b_stored. }
    { now apply b_sorted. }
    { now apply b_gap. }
    { now apply b_loops. }
    assert (Hbn : csr_n (build_core_graph round core g) = n) by (now apply b_n).
    rewrite Hbn in *. rewrite Hb. cbn [bind].
    specialize (Hmin (b_symmetric round core entries n HR Hmono)).
    assert (HX : forall e, In e (csr_entries (build_core_graph round core g)) <-> In e (map (reweigh round) X))
      by (intro e; now apply b_entries_map).
    apply (msf_ext _ _ _ HX) in Hmin.
    destruct (unround round core entries n HR zero huge Hround M0 (msf_incl _ _ Hmin)) as (M & I1 & I2 & I3).
    assert (HRM : in_range n M0).
    { eapply in_range_incl; [apply Hsf|]. rewrite <- Hbn at 1.
      apply columns_range. now apply b_stored. }
    pose proof (labels_count n M0 labels (sf_acyclic _ _ Hsf) HRM Hlab) as Hcount.
    destruct (maybe_bridge_ok n no_constraint _ M0 labels Hn (msf_constrained _ _ Hmin) HRM Hlab) as (T0 & HT & HB).
    replace (n - length M0) with (length (unique labels)) by lia. rewrite HT. cbn [bind].
    (* the bridges, exactly *)
    destruct (bridge_ok n M0 labels Hn (sf_acyclic _ _ Hsf) HRM Hlab) as (B & HB1 & HB2 & HB3).
    assert (exists B', T0 = M0 ++ B' /\ spanning_tree n T0 /\
      Forall (fun e => ewt e = winf /\ smallest_of_component M0 (esrc e) /\ smallest_of_component M0 (edst e)) B') as (B' & -> & HST & HF).
    { destruct (1 <? length (unique labels)) eqn:E1.
      - exists B. split; [congruence|]. split; auto. rewrite HB1 in HT. injection HT as <-. auto.
      - injection HT as <-. exists []. rewrite app_nil_r. split; auto. split; [|constructor].
        destruct HB as (M1 & B1 & E2 & _ & HT1 & _). exact HT1. }
    assert (HBp : map (patch_weight zero huge g core) B' = B').
    { rewrite <- (map_id B') at 2. apply map_ext_in. intros e He. rewrite Forall_forall in HF.
      apply patch_bridge; auto. now apply HF. }
    assert (HC : forall x y, connected M x y <-> connected M0 x y).
    { intros x y. rewrite <- I2. symmetry. apply connected_reweigh. }
    exists (map (patch_weight zero huge g core) (M0 ++ B')), nbrs, M, B'.
    fold g in I3. split; auto. split; auto. rewrite map_app, I3, HBp.
    split; auto.
    assert (HCT : forall x y, connected (M ++ B') x y <-> connected (M0 ++ B') x y).
    { intros x y. rewrite <- (connected_strip (M ++ B')), <- (connected_strip (M0 ++ B')).
      rewrite <- I2. unfold strip. rewrite !map_app, map_map. reflexivity. }
    split; [|split; [|split; [|split]]]; auto.
    - destruct HST as [S1 S2 S3 S4]. split.
      + intros e He. apply in_app_iff in He as [He|He].
        * assert (Hr : In (reweigh round e) M0) by (rewrite <- I2; now apply in_map).
          apply HRM in Hr. exact Hr.
        * apply S1. apply in_app_iff. auto.
      + apply acyclic_strip. apply acyclic_strip in S2. rewrite <- I2 in S2.
        unfold strip in *. rewrite map_app, map_map in S2. rewrite map_app. exact S2.
      + intros x y Hx Hy. apply HCT. auto.
      + rewrite app_length in *. rewrite <- I2, map_length in S4. exact S4.
    - rewrite <- I2 in Hsf. apply (acyclic_reweigh round). apply Hsf.
    - now rewrite I2.
    - eapply Forall_impl; [|apply HF]. intros e (F1 & F2 & F3). split; auto.
      split; intros x Hx; apply HC in Hx; auto.
  Qed.
End Top.
