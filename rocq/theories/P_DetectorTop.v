(** Detectors on fitted clusterings. *)
From Coq Require Import List Arith Bool ZArith Permutation Lia Relations.
From Verif Require Import Prelude Order Graph Size Num M_Precomputed M_Linkage S_Linkage M_Condense S_Condense M_Select M_Labels M_Pipeline S_Pipeline M_Estimator S_Estimator
  M_SubClusters M_LensGraph M_Detector S_Detector P_Pipeline P_PipelineTop P_PipelineRun P_Estimator P_SubRun P_Detector.
Import ListNotations.
Local Open Scope nat_scope.

Lemma res_positive {W V : WOrd} {Sz : SOrd} (lam : W -> V) (LA : LamArith V) (A : Arith V Sz) garbage by_parent (st : settings V Sz) n wt (M : list (edge W)) L ls ps T :
  setting_ok lam LA A by_parent st -> linkage_facts n wt M L -> 2 <= n -> sle (s := Sz) szero sone = true ->
  (forall x, x < n -> sle (min_cluster_size st) (wt x) = false) ->
  clusters_from_linkage_tree lam LA A garbage by_parent st wt n L = Ok (ls, ps, T) -> (forall e, In e M -> wlt (la_zero LA) (lam (ewt e)) = true) ->
  forall r, In r T -> wlt (la_zero LA) (c_lam r) = true.
Proof.
  intros HK HL Hn Hsz Hwt ER Hf. destruct HK as [H1 H2 H3 H4 H5 H6]. pose proof HL as (L1 & L2 & L3 & _).
  destruct (run_good lam LA (plain_sel A st n) garbage by_parent st n wt L H2 H1 H3 (plain_selects LA A st n wt H1 H4 Hn) Hsz Hn H5 H6 L1 L2 L3 Hwt ls ps T ER)
    as (S & E & _ & _ & _ & _ & HF & _).
  apply HF. apply (facts_heights n wt M L (fun w => wlt (la_zero LA) (lam w) = true) HL). auto.
Qed.

(** Densities of a fit are positive if those of the edges are. *)
Lemma fast_positive {W V : WOrd} {Row} (lam : W -> V) (LA : LamArith V) (garbage : nat -> V) (mst_of : list Row -> res (list (edge W)))
    (A : Arith V NatSize) by_parent (st : settings V NatSize) rows M r :
  setting_ok lam LA A by_parent st -> 2 <= length rows -> mst_of rows = Ok M -> spanning_tree (length rows) M ->
  (forall e, In e M -> wlt (la_zero LA) (lam (ewt e)) = true) ->
  fast_hdbscan lam LA garbage mst_of A by_parent st rows = Ok r ->
  f_mst r = sort_mst M /\ forall q, In q (f_condensed r) -> wlt (la_zero LA) (c_lam q) = true.
Proof.
  intros HK Hn EM HM Hpos. unfold fast_hdbscan. destruct (Nat.eqb_spec (length rows) 0) as [|_]; [lia|]. destruct (Nat.ltb_spec (length rows) 2) as [|_]; [lia|].
  rewrite EM. cbn [bind]. destruct (linkage_plain (length rows) M HM) as (L & EL & HL). rewrite EL. cbn [bind].
  destruct (clusters_from_linkage_tree lam LA A garbage by_parent st (fun _ => 1) (length M + 1) L) as [[[ls ps] T]|] eqn:ER; [|discriminate]. cbn [bind fst snd].
  intros [= <-]. cbn [f_mst f_condensed]. split; auto. rewrite (facts_length _ _ HM) in ER.
  eapply res_positive; eauto. intros x _. pose proof (us_size _ _ (so_usable _ _ _ _ _ HK)) as H. apply slt_true in H. auto.
Qed.
Lemma fast_positive_weighted {W V : WOrd} {Sz : SOrd} {Row} (lam : W -> V) (LA : LamArith V) (garbage : nat -> V) (mst_of : list Row -> res (list (edge W)))
    (weight : Row -> Sz) (A : Arith V Sz) by_parent (st : settings V Sz) rows M r :
  setting_ok lam LA A by_parent st -> 2 <= length rows -> mst_of rows = Ok M -> spanning_tree (length rows) M ->
  sle (s := Sz) szero sone = true -> (forall x, In x rows -> slt (weight x) (min_cluster_size st) = true) ->
  (forall e, In e M -> wlt (la_zero LA) (lam (ewt e)) = true) ->
  fast_hdbscan_weighted lam LA garbage mst_of weight A by_parent st rows = Ok r ->
  f_mst r = sort_mst M /\ forall q, In q (f_condensed r) -> wlt (la_zero LA) (c_lam q) = true.
Proof.
  intros HK Hn EM HM Hs Hw Hpos. unfold fast_hdbscan_weighted. destruct (Nat.eqb_spec (length rows) 0) as [|_]; [lia|]. destruct (Nat.ltb_spec (length rows) 2) as [|_]; [lia|].
  rewrite EM. cbn [bind]. destruct (linkage_weighted (length rows) M (map weight rows) HM (map_length _ _)) as (L & EL & HL). rewrite EL. cbn [bind].
  destruct (clusters_from_linkage_tree lam LA A garbage by_parent st _ (length M + 1) L) as [[[ls ps] T]|] eqn:ER; [|discriminate]. cbn [bind fst snd].
  intros [= <-]. cbn [f_mst f_condensed]. split; auto. rewrite (facts_length _ _ HM) in ER.
  eapply res_positive; eauto. intros x Hx. apply slt_true. assert (H : In (nth x (map weight rows) szero) (map weight rows)) by (apply nth_In; now rewrite map_length).
  apply in_map_iff in H as (y & <- & Hy). auto.
Qed.

Lemma filter_short {A} (f : A -> bool) l : length (filter f l) <= length l.
Proof. induction l as [|a l IH]; simpl; auto. destruct (f a); simpl; lia. Qed.
Lemma connected_touches {W} (E : list (edge W)) x y : connected E x y -> x = y \/ exists e, In e E /\ (esrc e = x \/ edst e = x).
Proof.
  intro H. apply (clos_rst_rst1n nat) in H. destruct H as [|z y H _]; auto. right.
  destruct H as [H|H]; destruct H as (e & He & H1 & H2); eauto.
Qed.

Section Top.
  Context {W V : WOrd} {Sz : SOrd} {Row : Type}.
  Variables (round : W -> W) (sort_row : list (nat * W) -> list (nat * W)) (average : V -> V -> V) (zero one : V) (no_lens : W)
    (cluster_of : list (edge W) -> res (list Z * list V))
    (propagate : joined V W * list (list nat * sub_result W V) -> res ((nat -> Z) * (nat -> Z))).
  Notation detect := (detect round sort_row average zero one no_lens cluster_of propagate).

  (** What a detector reports for data with missing values, given what it reports
      for the finite rows. *)
  Lemma fit_detect (ok : Row -> bool) set_list (run : list Row -> res (fitted W V Sz)) X r0 r pos :
    (forall l, Permutation (set_list l) l) -> forallb ok X = false -> run (filter ok X) = Ok r0 -> fit zero ok set_list run X = Ok r ->
    (forall q, In q (f_condensed r0) -> wlt zero (c_lam q) = true) -> places ok X pos ->
    forall labels labels0 probs probs0 neighbors lens lens0 flag,
    let n := length X in let m := length (filter ok X) in
    picked n m pos labels labels0 -> picked n m pos probs probs0 -> picked_lens n m pos lens lens0 ->
    match detect flag (filter ok X) (f_condensed r0) labels0 probs0 neighbors (f_mst r0) lens0 with
    | Ok d0 => exists d, detect flag X (f_condensed r) labels probs neighbors (f_mst r) lens = Ok d /\ spread_results zero one no_lens n m pos d0 d
    | Err e => detect flag X (f_condensed r) labels probs neighbors (f_mst r) lens = Err e
    end.
  Proof.
    intros Hset Hs Hr Hf Hpos HP labels labels0 probs probs0 neighbors lens lens0 flag n m HL HPr HLe.
    destruct (fit_tree zero ok set_list run X r0 r Hset Hs Hr Hf) as (-> & T1 & T2 & -> & Hne & H1 & H2 & H3).
    apply detect_missing; auto.
    - intros q Hq. rewrite (H1 q Hq). unfold wlt. now rewrite wle_refl.
    - intros q Hq. destruct (H2 q Hq) as (q0 & Hq0 & ->). auto.
  Qed.

  (** If a sample is listed before the place found by the search, detection
      fails. *)
  Lemma detect_fails (data : list Row) (T1 T2 : list (crow V Sz)) labels probs neighbors (mst : list (edge W)) lens flag :
    let n := length data in
    spanning_tree n mst -> 2 <= n -> length labels = n -> length probs = n ->
    (forall r, In r T1 -> wlt zero (c_lam r) = false) -> (forall r, In r T2 -> wlt zero (c_lam r) = true) ->
    (exists r, In r T1 /\ c_child r < n) ->
    exists e, detect flag data (T1 ++ T2) labels probs neighbors mst lens = Err e.
  Proof.
    intros n HM Hn Hl Hp H1 H2 (r & Hr & Hc). unfold M_Detector.detect. rewrite (searchsorted_split zero T1 T2) by auto.
    destruct (forallb (fun l => (l =? -1)%Z) labels); [eauto|].
    destruct (Nat.eqb_spec (length T1) 0) as [E0|_]; [destruct T1; [destruct Hr|discriminate]|].
    rewrite firstn_app, firstn_all, Nat.sub_diag, firstn_O, app_nil_r. set (F := all_but (length data) (map c_child T1)).
    destruct (gather data F) as [d'|]; cbn [bind]; [|eauto]. destruct (gather labels F) as [l'|] eqn:EL; cbn [bind]; [|eauto]. apply gather_length in EL.
    destruct (gather probs F) as [p'|]; cbn [bind]; [|eauto]. destruct (lens_of no_lens lens (length data) (Some F) d' p') as [ln|]; cbn [bind]; [|eauto].
    assert (HF : length F < n).
    { unfold F, all_but. fold n. assert (G : forall l, In (c_child r) l -> length (filter (fun i => negb (existsb (Nat.eqb i) (map c_child T1))) l) < length l).
      { clear - Hr. induction l as [|a l IH]; [intros []|]. intros [->|H]; cbn [filter length].
        - assert (E : existsb (Nat.eqb (c_child r)) (map c_child T1) = true) by (apply existsb_exists; exists (c_child r); split; [now apply in_map|apply Nat.eqb_refl]).
          rewrite E. cbn [negb]. pose proof (filter_short (fun i => negb (existsb (Nat.eqb i) (map c_child T1))) l). lia.
        - specialize (IH H). destruct (negb (existsb (Nat.eqb a) (map c_child T1))); cbn [length]; lia. }
      specialize (G (seq 0 n)). rewrite seq_length in G. apply G. apply in_seq. lia. }
    assert (HC : check_endpoints l' mst = Err IndexError).
    { unfold check_endpoints. destruct (forallb _ mst) eqn:E; auto. exfalso. rewrite forallb_forall in E.
      assert (Hx : exists e, In e mst /\ (esrc e = n - 1 \/ edst e = n - 1)).
      { assert (Hc' : connected mst (n - 1) 0) by (apply (st_connected _ _ HM); lia). apply connected_touches in Hc' as [|]; [lia|auto]. }
      destruct Hx as (e & He & Hd). specialize (E e He). apply andb_true_iff in E as [E1 E2]. apply Nat.ltb_lt in E1, E2. lia. }
    unfold M_Detector.detect_rows. destruct (num_clusters l'); cbn [bind]; [|eauto]. rewrite HC. cbn [bind]. eauto.
  Qed.
End Top.

(** Labels and strengths of a fit. *)
Lemma fit_picked {W V : WOrd} {Sz : SOrd} {Row} (zero : V) (ok : Row -> bool) set_list (run : list Row -> res (fitted W V Sz)) X r0 r pos :
  forallb ok X = false -> run (filter ok X) = Ok r0 -> fit zero ok set_list run X = Ok r -> places ok X pos ->
  picked (length X) (length (filter ok X)) pos (f_labels r) (f_labels r0) /\
  picked (length X) (length (filter ok X)) pos (f_probabilities r) (f_probabilities r0).
Proof.
  intros Hs Hr Hf HP. unfold fit in Hf. rewrite Hs, take_index, Hr in Hf. cbn [bind] in Hf.
  destruct (remap_condensed_tree _ _ _ _) as [T|]; [|discriminate]. cbn [bind] in Hf.
  destruct (remap_single_linkage_tree _ _ _) as [L|]; [|discriminate]. cbn [bind] in Hf.
  assert (G : forall {A} (fill : A) a0 a, scatter (length X) fill (finite_index_of ok X) a0 = Ok a -> picked (length X) (length (filter ok X)) pos a a0).
  { intros A fill a0 a E. assert (H : length a0 = length (filter ok X)).
    { unfold scatter in E. destruct (Nat.eqb_spec (length (finite_index_of ok X)) (length a0)) as [H|]; [|discriminate]. rewrite <- H. apply index_len. }
    destruct (scatter_spread ok X pos fill a0 HP H) as (a' & E' & [HS _]). congruence. }
  destruct (scatter _ _ _ (f_labels r0)) as [l|] eqn:E1; [|discriminate]. cbn [bind] in Hf.
  destruct (scatter _ _ _ (f_probabilities r0)) as [p|] eqn:E2; [|discriminate]. cbn [bind] in Hf. injection Hf as <-. cbn [f_labels f_probabilities]. split; eapply G; eauto.
Qed.

(** Fitting, and then detecting with the fitted labels. *)
Section AfterFit.
  Context {W V : WOrd} {Row : Type} (lam : W -> V) (LA : LamArith V) (garbage : nat -> V) (mst_of : list Row -> res (list (edge W)))
    (ok : Row -> bool) (set_list : list nat -> list nat) (X : list Row).
  Hypothesis Hset : forall l, Permutation (set_list l) l.
  Hypothesis Hs : forallb ok X = false.
  Hypothesis H3 : 3 <= length (filter ok X).
  Variables (round : W -> W) (sort_row : list (nat * W) -> list (nat * W)) (average : V -> V -> V) (one : V) (no_lens : W)
    (cluster_of : list (edge W) -> res (list Z * list V))
    (propagate : joined V W * list (list nat * sub_result W V) -> res ((nat -> Z) * (nat -> Z))).

  Lemma detect_after_fit (A : Arith V NatSize) by_parent (st : settings V NatSize) M r0 r pos :
    setting_ok lam LA A by_parent st -> mst_of (filter ok X) = Ok M -> spanning_tree (length (filter ok X)) M ->
    (forall e, In e M -> wlt (la_zero LA) (lam (ewt e)) = true) ->
    let run := fast_hdbscan lam LA garbage mst_of A by_parent st in
    run (filter ok X) = Ok r0 -> fit (la_zero LA) ok set_list run X = Ok r -> places ok X pos ->
    picked (length X) (length (filter ok X)) pos (f_labels r) (f_labels r0) /\
    picked (length X) (length (filter ok X)) pos (f_probabilities r) (f_probabilities r0) /\ detects_same round sort_row average (la_zero LA) one no_lens cluster_of propagate ok X r0 r pos.
  Proof.
    intros HK EM HM Hpos run E0 E HP. destruct (fit_picked _ ok set_list run X r0 r pos Hs E0 E HP) as [P1 P2]. split; [|split]; auto.
    assert (H2 : 2 <= length (filter ok X)) by lia.
    destruct (fast_positive lam LA garbage mst_of A by_parent st _ M r0 HK H2 EM HM Hpos E0) as [_ HQ].
    intros flag labels labels0 probs probs0 neighbors lens lens0 HL HPr HLe. eapply fit_detect; eauto.
  Qed.

  Lemma detect_after_fit_weighted {Sz : SOrd} (weight : Row -> Sz) (A : Arith V Sz) by_parent (st : settings V Sz) M r0 r pos :
    setting_ok lam LA A by_parent st -> mst_of (filter ok X) = Ok M -> spanning_tree (length (filter ok X)) M ->
    sle (s := Sz) szero sone = true -> (forall x, In x X -> ok x = true -> slt (weight x) (min_cluster_size st) = true) ->
    (forall e, In e M -> wlt (la_zero LA) (lam (ewt e)) = true) ->
    let run := fast_hdbscan_weighted lam LA garbage mst_of weight A by_parent st in
    run (filter ok X) = Ok r0 -> fit (la_zero LA) ok set_list run X = Ok r -> places ok X pos ->
    picked (length X) (length (filter ok X)) pos (f_labels r) (f_labels r0) /\
    picked (length X) (length (filter ok X)) pos (f_probabilities r) (f_probabilities r0) /\ detects_same round sort_row average (la_zero LA) one no_lens cluster_of propagate ok X r0 r pos.
  Proof.
    intros HK EM HM Hsz Hw Hpos run E0 E HP. destruct (fit_picked _ ok set_list run X r0 r pos Hs E0 E HP) as [P1 P2]. split; [|split]; auto.
    assert (H2 : 2 <= length (filter ok X)) by lia.
    assert (Hw' : forall x, In x (filter ok X) -> slt (weight x) (min_cluster_size st) = true) by (intros x Hx; apply filter_In in Hx as []; auto).
    destruct (fast_positive_weighted lam LA garbage mst_of weight A by_parent st _ M r0 HK H2 EM HM Hsz Hw' Hpos E0) as [_ HQ].
    intros flag labels labels0 probs probs0 neighbors lens lens0 HL HPr HLe. eapply fit_detect; eauto.
  Qed.
End AfterFit.
