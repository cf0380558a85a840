(** Proofs about the detectors. *)
From Coq Require Import List Arith Bool ZArith Permutation Lia Sorted.
From Verif Require Import Prelude Order Graph Size Num M_Precomputed M_Linkage M_Condense S_Condense M_Select M_Labels M_Pipeline S_Pipeline M_Estimator S_Estimator
  M_SubClusters M_LensGraph M_Detector S_Detector P_Estimator P_SubRun.
Import ListNotations.
Local Open Scope nat_scope.

(** ** Binary search *)
Lemma search_prefix {V : WOrd} (a : nat -> V) key k : forall fuel lo hi, lo <= k <= hi -> hi - lo <= fuel ->
  (forall i, i < k -> wlt key (a i) = false) -> (forall i, k <= i < hi -> wlt key (a i) = true) -> search_right fuel a key lo hi = k.
Proof.
  induction fuel as [|f IH]; intros lo hi Hk Hf H1 H2; cbn [search_right]; [lia|].
  destruct (Nat.ltb_spec lo hi) as [H|H]; [|lia].
  assert (Hm : lo + (hi - lo) / 2 < hi) by (pose proof (Nat.div_lt (hi - lo) 2); lia).
  set (mid := lo + (hi - lo) / 2) in *. assert (lo <= mid) by (unfold mid; lia). clearbody mid.
  destruct (wlt key (a mid)) eqn:E.
  - assert (k <= mid) by (destruct (Nat.lt_ge_cases mid k) as [L|]; auto; rewrite H1 in E by auto; discriminate).
    apply IH; try lia; auto. intros i Hi. apply H2. lia.
  - assert (mid < k) by (destruct (Nat.lt_ge_cases mid k) as [L|]; auto; rewrite H2 in E by lia; discriminate).
    apply IH; try lia; auto.
Qed.
(** Whatever the order of the values: a value before the answer is not above the
    key. *)
Lemma search_last {V : WOrd} (a : nat -> V) key : forall fuel lo hi, (lo = 0 \/ wlt key (a (pred lo)) = false) ->
  let k := search_right fuel a key lo hi in k = 0 \/ wlt key (a (pred k)) = false.
Proof.
  induction fuel as [|f IH]; intros lo hi H; cbn [search_right]; auto. destruct (lo <? hi); auto.
  destruct (wlt key (a (lo + (hi - lo) / 2))) eqn:E; apply IH; auto.
Qed.

Section Search.
  Context {V : WOrd} {Sz : SOrd} (zero : V).
  Implicit Types T : list (crow V Sz).
  Lemma searchsorted_split T1 T2 : (forall r, In r T1 -> wlt zero (c_lam r) = false) -> (forall r, In r T2 -> wlt zero (c_lam r) = true) ->
    searchsorted (map c_lam (T1 ++ T2)) zero = length T1.
  Proof.
    intros H1 H2. unfold searchsorted. rewrite map_length, app_length. apply search_prefix; try lia.
    - intros i Hi. rewrite map_app, app_nth1 by now rewrite map_length.
      destruct (nth_error T1 i) as [r|] eqn:E; [|apply nth_error_None in E; lia].
      rewrite (nth_error_nth (map c_lam T1) i zero (x := c_lam r)) by now rewrite nth_error_map, E. apply H1. eapply nth_error_In; eauto.
    - intros i Hi. rewrite map_app, app_nth2 by (rewrite map_length; lia). rewrite map_length.
      destruct (nth_error T2 (i - length T1)) as [r|] eqn:E; [|apply nth_error_None in E; lia].
      rewrite (nth_error_nth (map c_lam T2) _ zero (x := c_lam r)) by now rewrite nth_error_map, E. apply H2. eapply nth_error_In; eauto.
  Qed.
  Lemma searchsorted_none T : (forall r, In r T -> wlt zero (c_lam r) = true) -> searchsorted (map c_lam T) zero = 0.
  Proof. intro H. apply (searchsorted_split [] T); auto. intros r []. Qed.
End Search.

(** ** Indexing *)
Lemma gather_picked {A} (a : list A) idx a0 : length a0 = length idx ->
  (forall i p, nth_error idx i = Some p -> nth_error a p = nth_error a0 i) -> gather a idx = Ok a0.
Proof.
  revert a0. induction idx as [|p idx IH]; intros a0 Hl H; destruct a0 as [|x a0]; try discriminate; auto. cbn [gather].
  rewrite (H 0 p eq_refl). cbn [nth_error]. rewrite (IH a0); auto. intros i q Hq. exact (H (S i) q Hq).
Qed.
Lemma gather_length {A} (a : list A) idx a0 : gather a idx = Ok a0 -> length a0 = length idx.
Proof.
  revert a0. induction idx as [|p idx IH]; intros a0; cbn [gather].
  - now intros [= <-].
  - destruct (nth_error a p); [|discriminate]. destruct (gather a idx) as [xs|] eqn:E; [|discriminate]. cbn [bind]. intros [= <-]. simpl. f_equal. auto.
Qed.

Section Places.
  Context {Row : Type} (ok : Row -> bool) (X : list Row).
  Notation n := (length X).
  Notation m := (length (filter ok X)).
  Notation F := (finite_index_of ok X).
  Lemma places_unique pos pos' : places ok X pos -> places ok X pos' -> forall i, i < m -> pos i = pos' i.
  Proof.
    intros (A1 & A2 & A3) (B1 & B2 & B3).
    assert (G : forall pos pos', (forall i j, i < j < m -> pos i < pos j) -> (forall i, i < m -> nth_error X (pos i) = nth_error (filter ok X) i) ->
              (forall i j, i < j < m -> pos' i < pos' j) -> (forall i, i < m -> nth_error X (pos' i) = nth_error (filter ok X) i) ->
              (forall p x, nth_error X p = Some x -> ok x = true -> exists i, i < m /\ pos i = p) ->
              forall i, (forall j, j < i -> j < m -> pos j = pos' j) -> i < m -> pos i <= pos' i).
    { clear. intros p p' A1 A2 B1 B2 A3 i IH Hi. destruct (nth_error (filter ok X) i) as [x|] eqn:E; [|apply nth_error_None in E; lia].
      assert (Hx : ok x = true) by (apply nth_error_In, filter_In in E; tauto).
      destruct (A3 (p' i) x) as (j & Hj & Ej); auto. { rewrite B2; auto. }
      destruct (Nat.lt_ge_cases j i) as [L|L]; [|destruct (Nat.eq_dec i j) as [->|]; [lia|]; specialize (A1 i j); lia].
      specialize (IH j L Hj). specialize (B1 j i). lia. }
    induction i as [i IH] using (well_founded_induction lt_wf). intro Hi. apply Nat.le_antisymm.
    - apply (G pos pos'); auto.
    - apply (G pos' pos); auto. intros j L Hj. symmetry. auto.
  Qed.
  Lemma index_at pos : places ok X pos -> forall i p, nth_error F i = Some p -> i < m /\ p = pos i.
  Proof.
    intros H i p E. assert (Hi : i < m) by (rewrite <- index_len; apply nth_error_Some; congruence). split; auto.
    rewrite <- (places_unique _ _ (index_places ok X) H i Hi). now rewrite (nth_error_nth _ _ 0 E).
  Qed.
  Lemma picked_gather {A} pos (a a0 : list A) : places ok X pos -> picked n m pos a a0 -> gather a F = Ok a0.
  Proof.
    intros H (H1 & H2 & H3). apply gather_picked; [now rewrite index_len|]. intros i p E. destruct (index_at pos H i p E) as [Hi ->]. auto.
  Qed.
  Lemma rows_picked pos : places ok X pos -> picked n m pos X (filter ok X).
  Proof. intros (_ & H & _). split; auto. Qed.
  Lemma scatter_spread {A} pos (fill : A) a0 : places ok X pos -> length a0 = m -> exists a, scatter n fill F a0 = Ok a /\ spread n m pos fill a0 a.
  Proof.
    intros H Hl. destruct (scatter_ok n fill F a0) as (a & E & H1 & H2 & H3).
    - now rewrite index_len. - apply NoDup_filter, seq_NoDup. - apply index_lt.
    - exists a. split; auto. rewrite index_len in H2. split.
      + split; auto. split; auto. intros i Hi. rewrite <- (places_unique _ _ (index_places ok X) H i Hi). auto.
      + intros p Hp Hn. apply H3; auto. intro Hin. apply In_nth_error in Hin as (i & E'). destruct (index_at pos H i p E') as [Hi ->]. now apply (Hn i).
  Qed.
  Lemma all_but_index values : (forall p, p < n -> (In p values <-> ~ In p F)) -> all_but n values = F.
  Proof.
    intro H. unfold all_but, finite_index_of. apply filter_ext_in. intros p Hp. apply in_seq in Hp.
    destruct (existsb (Nat.eqb p) values) eqn:E; cbn [negb].
    - apply existsb_exists in E as (q & Hq & Ep). apply Nat.eqb_eq in Ep as <-. apply H in Hq; [|lia]. rewrite in_index in Hq.
      destruct (nth_error X p) as [x|] eqn:Ex; auto. destruct (ok x) eqn:Eo; auto. exfalso. apply Hq. eauto.
    - destruct (nth_error X p) as [x|] eqn:Ex; [|apply nth_error_None in Ex; lia]. destruct (ok x) eqn:Eo; auto.
      assert (Hin : In p values). { apply H; [lia|]. rewrite in_index. intros (y & Ey & Hy). congruence. }
      assert (existsb (Nat.eqb p) values = true) by (apply existsb_exists; exists p; split; auto; apply Nat.eqb_refl). congruence.
  Qed.
End Places.

(** ** Detection *)
Section Detect.
  Context {W V : WOrd} {Sz : SOrd} {Row : Type}.
  Variables (round : W -> W) (sort_row : list (nat * W) -> list (nat * W)) (average : V -> V -> V) (zero one : V) (no_lens : W)
    (cluster_of : list (edge W) -> res (list Z * list V))
    (propagate : joined V W * list (list nat * sub_result W V) -> res ((nat -> Z) * (nat -> Z))).
  Notation detect := (detect round sort_row average zero one no_lens cluster_of propagate).
  Notation detect_rows := (detect_rows round sort_row average zero one no_lens cluster_of propagate).
  Notation lens_of := (lens_of no_lens).

  Lemma detect_rows_shape flag (data : list Row) labels probs neighbors mst lens d : length labels = length data -> length probs = length data ->
    detect_rows flag data labels probs neighbors mst lens = Ok d ->
    length (d_labels d) = length data /\ length (d_probs d) = length data /\ length (d_cluster d) = length data /\ length (d_cluster_probs d) = length data /\
    length (d_sub d) = length data /\ length (d_sub_probs d) = length data /\ length (d_lens d) = length data /\
    (forall pts p, In pts (d_points d) -> In p pts -> p < length data).
  Proof.
    intros Hl Hp. unfold M_Detector.detect_rows. destruct (num_clusters labels); [|discriminate]. destruct (check_endpoints labels mst); [|discriminate]. cbn [bind].
    destruct (find_sub_clusters _ _ _ _ _ _ _ _ _ _ _ _) as [found|] eqn:EF; [|discriminate]. cbn [bind].
    destruct (maybe_propagate propagate flag found) as [final|]; [|discriminate]. cbn [bind]. intros [= <-].
    cbn [d_labels d_probs d_cluster d_cluster_probs d_sub d_sub_probs d_lens d_points]. rewrite !map_length, !seq_length. repeat (split; auto).
    intros pts p Hin Hp'. unfold find_sub_clusters in EF. destruct (sub_clusters_per_cluster _ _ _ _ _ _ _ _) as [rs|]; [|discriminate]. cbn [bind] in EF.
    destruct (update_labels _ _ _ _ _) as [s|]; [|discriminate]. cbn [bind] in EF. injection EF as <-. cbn [snd] in Hin.
    rewrite map_map in Hin. apply in_map_iff in Hin as (kr & <- & _). cbn [fst] in Hp'. apply filter_In in Hp' as [Hp' _]. apply in_seq in Hp'. lia.
  Qed.

  Lemma noise_picked n m pos (labels labels0 : list Z) : picked n m pos labels labels0 -> forallb (fun l => (l =? -1)%Z) labels = true ->
    forallb (fun l => (l =? -1)%Z) labels0 = true.
  Proof.
    intros (H1 & H2 & H3) H. apply forallb_forall. intros l Hl. apply In_nth_error in Hl as (i & E).
    assert (Hi : i < m) by (rewrite <- H2; apply nth_error_Some; congruence). rewrite <- H3 in E by auto. apply nth_error_In in E.
    exact (proj1 (forallb_forall _ _) H l E).
  Qed.
  Lemma noise_num labels : forallb (fun l => (l =? -1)%Z) labels = true -> num_clusters labels = Err ValueError.
  Proof. intro H. unfold num_clusters. now rewrite H. Qed.

  Lemma lens_picked (ok : Row -> bool) (X : list Row) pos (l l0 : lens_input W V Row) probs :
    places ok X pos -> picked_lens (length X) (length (filter ok X)) pos l l0 ->
    lens_of l (length X) (Some (finite_index_of ok X)) (filter ok X) probs = lens_of l0 (length (filter ok X)) None (filter ok X) probs.
  Proof.
    intros HP H. destruct l as [f|a], l0 as [f0|a0]; try contradiction; cbn [picked_lens M_Detector.lens_of] in *; [now subst|].
    rewrite (picked_gather ok X pos a a0 HP H). destruct H as (-> & -> & _). now rewrite !Nat.eqb_refl.
  Qed.

  (** No row at density zero: the data are taken as they are. *)
  Lemma detect_plain flag (data : list Row) (T : list (crow V Sz)) labels probs neighbors mst lens : (forall r, In r T -> wlt zero (c_lam r) = true) ->
    detect flag data T labels probs neighbors mst lens =
    if forallb (fun l => (l =? -1)%Z) labels then Err ValueError else
    let* lens := lens_of lens (length data) None data probs in detect_rows flag data labels probs neighbors mst lens.
  Proof. intro H. unfold M_Detector.detect. now rewrite (searchsorted_none zero T H). Qed.

  Section Missing.
    Variables (ok : Row -> bool) (X : list Row) (pos : nat -> nat).
    Notation n := (length X).
    Notation m := (length (filter ok X)).
    Hypothesis HP : places ok X pos.
    Variables (T1 T2 T0 : list (crow V Sz)).
    Hypothesis HT1 : forall r, In r T1 -> wlt zero (c_lam r) = false.
    Hypothesis HT2 : forall r, In r T2 -> wlt zero (c_lam r) = true.
    Hypothesis HT0 : forall r, In r T0 -> wlt zero (c_lam r) = true.
    Hypothesis Hout : forall p, p < n -> ((exists r, In r T1 /\ c_child r = p) <-> exists x, nth_error X p = Some x /\ ok x = false).
    Hypothesis Hne : T1 <> [].
    Variables (labels labels0 : list Z) (probs probs0 : list V) (neighbors : list (list (option nat))) (mst : list (edge W)) (lens lens0 : lens_input W V Row).
    Hypothesis HL : picked n m pos labels labels0.
    Hypothesis HPr : picked n m pos probs probs0.
    Hypothesis HLe : picked_lens n m pos lens lens0.

    Lemma detect_missing flag :
      match detect flag (filter ok X) T0 labels0 probs0 neighbors mst lens0 with
      | Ok d0 => exists d, detect flag X (T1 ++ T2) labels probs neighbors mst lens = Ok d /\ spread_results zero one no_lens n m pos d0 d
      | Err e => detect flag X (T1 ++ T2) labels probs neighbors mst lens = Err e
      end.
    Proof.
      rewrite (detect_plain flag (filter ok X) T0) by auto. unfold M_Detector.detect. rewrite (searchsorted_split zero T1 T2) by auto.
      destruct (Nat.eqb_spec (length T1) 0) as [E0|_]; [destruct T1; [congruence|discriminate]|].
      rewrite firstn_app, firstn_all, Nat.sub_diag, firstn_O, app_nil_r.
      rewrite (all_but_index ok X (map c_child T1)).
      2:{ intros p Hp. rewrite in_map_iff, in_index. 
          assert (G : (exists r, c_child r = p /\ In r T1) <-> exists r, In r T1 /\ c_child r = p) by (split; intros (r & ? & ?); eauto).
          rewrite G, Hout by auto. clear G. split.
          - intros (x & E & Hx) (y & E' & Hy). congruence.
          - intro H. destruct (nth_error X p) as [x|] eqn:E; [|apply nth_error_None in E; lia]. exists x. split; auto.
            destruct (ok x) eqn:Ex; auto. exfalso. eauto. }
      rewrite (picked_gather ok X pos _ _ HP (rows_picked ok X pos HP)), (picked_gather ok X pos _ _ HP HL), (picked_gather ok X pos _ _ HP HPr). cbn [bind].
      rewrite (lens_picked ok X pos lens lens0 probs0 HP HLe).
      destruct (forallb (fun l => (l =? -1)%Z) labels) eqn:EN.
      { now rewrite (noise_picked _ _ _ _ _ HL EN). }
      destruct (forallb (fun l => (l =? -1)%Z) labels0) eqn:EN0.
      { destruct (lens_of lens0 m None (filter ok X) probs0) as [ln|e] eqn:El; cbn [bind].
        - unfold M_Detector.detect_rows. rewrite (noise_num labels0) by auto. reflexivity.
        - destruct lens0 as [f|a]; cbn [M_Detector.lens_of] in El; [discriminate|]. destruct (_ =? _); cbn [bind] in El; [discriminate|]. congruence. }
      destruct (lens_of lens0 m None (filter ok X) probs0) as [ln|e]; cbn [bind]; [|reflexivity].
      destruct (detect_rows flag (filter ok X) labels0 probs0 neighbors mst ln) as [d0|e] eqn:ED; cbn [bind]; [|reflexivity].
      destruct HL as (HL1 & HL2 & HL3). destruct HPr as (HP1 & HP2 & HP3).
      destruct (detect_rows_shape _ _ _ _ _ _ _ _ HL2 HP2 ED) as (L1 & L2 & L3 & L4 & L5 & L6 & L7 & L8).
      unfold remap_results.
      destruct (scatter_spread ok X pos (-1)%Z _ HP L1) as (a1 & -> & S1). cbn [bind].
      destruct (scatter_spread ok X pos zero _ HP L2) as (a2 & -> & S2). cbn [bind].
      destruct (scatter_spread ok X pos (-1)%Z _ HP L3) as (a3 & -> & S3). cbn [bind].
      destruct (scatter_spread ok X pos zero _ HP L4) as (a4 & -> & S4). cbn [bind].
      destruct (scatter_spread ok X pos 0%Z _ HP L5) as (a5 & -> & S5). cbn [bind].
      destruct (scatter_spread ok X pos one _ HP L6) as (a6 & -> & S6). cbn [bind].
      destruct (scatter_spread ok X pos no_lens _ HP L7) as (a7 & -> & S7). cbn [bind].
      eexists. split; [reflexivity|]. constructor; cbn [d_labels d_probs d_cluster d_cluster_probs d_sub d_sub_probs d_lens d_points d_parts]; auto.
      apply map_ext_in. intros pts Hpts. apply map_ext_in. intros p Hp. exact (places_unique ok X _ _ (index_places ok X) HP p (L8 pts p Hpts Hp)).
    Qed.
  End Missing.
End Detect.

(** ** After a fit *)
Lemma fit_tree {W V : WOrd} {Sz : SOrd} {Row} (zero : V) (ok : Row -> bool) set_list (run : list Row -> res (fitted W V Sz)) X r0 r :
  (forall l, Permutation (set_list l) l) -> forallb ok X = false -> run (filter ok X) = Ok r0 -> fit zero ok set_list run X = Ok r ->
  f_mst r = f_mst r0 /\ exists T1 T2, f_condensed r = T1 ++ T2 /\ T1 <> [] /\ (forall q, In q T1 -> c_lam q = zero) /\
    (forall q, In q T2 -> exists q0, In q0 (f_condensed r0) /\ c_lam q = c_lam q0) /\
    forall p, p < length X -> ((exists q, In q T1 /\ c_child q = p) <-> exists x, nth_error X p = Some x /\ ok x = false).
Proof.
  intros Hset Hs Hr. unfold fit. rewrite Hs. set (F := finite_index_of ok X) in *.
  set (rest := filter (fun i => negb (existsb (Nat.eqb i) F)) (seq 0 (length X))). set (O := set_list rest).
  assert (HO : forall p, In p O <-> exists x, nth_error X p = Some x /\ ok x = false).
  { intro p. unfold O. split; intro H.
    - apply (Permutation_in _ (Hset rest)) in H. now apply in_rest.
    - apply (Permutation_in _ (Permutation_sym (Hset rest))). now apply in_rest. }
  unfold F at 1. rewrite take_index, Hr. cbn [bind].
  destruct (remap_condensed_tree zero (f_condensed r0) F O) as [T|] eqn:ET; [|discriminate]. cbn [bind].
  destruct (remap_single_linkage_tree (f_linkage r0) F O); [|discriminate]. cbn [bind].
  destruct (scatter _ _ F (f_labels r0)); [|discriminate]. cbn [bind]. destruct (scatter _ _ F (f_probabilities r0)); [|discriminate]. cbn [bind].
  intros [= <-]. cbn [f_mst f_condensed]. split; auto. unfold remap_condensed_tree in ET.
  set (g := fun q => {| c_parent := c_parent q + length O; c_child := remap_id F O (c_child q); c_lam := c_lam q; c_size := c_size q |}) in ET.
  destruct (map g (f_condensed r0)) as [|q l] eqn:EM; [discriminate|]. injection ET as <-.
  eexists _, (q :: l). split; [reflexivity|]. split; [|split; [|split]].
  - destruct O as [|o O'] eqn:EO; [|discriminate]. exfalso. assert (H : forallb ok X = true); [|congruence].
    apply forallb_forall. intros x Hx. destruct (ok x) eqn:E; auto. apply In_nth_error in Hx as (p & Hp). destruct (proj2 (HO p)); eauto.
  - intros u Hu. apply in_map_iff in Hu as (o & <- & _). reflexivity.
  - intros u Hu. rewrite <- EM in Hu. apply in_map_iff in Hu as (u0 & <- & H0). exists u0. split; auto.
  - intros p Hp. rewrite <- HO. split.
    + intros (u & Hu & <-). apply in_map_iff in Hu as (o & <- & Ho). exact Ho.
    + intro Ho. eexists. split; [apply in_map_iff; exists p; split; [reflexivity|exact Ho]|reflexivity].
Qed.
