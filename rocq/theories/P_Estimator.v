(** fit on data with rows that are not finite. *)
From Coq Require Import List Arith Lia Bool ZArith Permutation Sorted.
From Verif Require Import Prelude Order Graph Size Num M_Linkage S_Linkage M_Condense S_Condense M_Select M_Labels M_Pipeline S_Pipeline P_Pipeline P_PipelineTop
  P_PipelineRun P_PipelineEx P_PipelineMeaning M_Estimator S_Estimator P_Remap P_RemapLinkage.
Import ListNotations.
Local Open Scope nat_scope.

Section Index.
  Context {Row : Type}.
  Variables (ok : Row -> bool) (X : list Row).
  Notation F := (finite_index_of ok X).
  Notation n := (length X).

  Lemma take_index_gen pre Y : X = pre ++ Y ->
    take_rows X (filter (fun i => match nth_error X i with Some x => ok x | None => false end) (seq (length pre) (length Y))) = filter ok Y.
  Proof.
    revert pre. induction Y as [|y Y IH]; intros pre E; auto. cbn [length seq filter].
    assert (Ey : nth_error X (length pre) = Some y) by (rewrite E, nth_error_app2, Nat.sub_diag; auto). rewrite Ey.
    specialize (IH (pre ++ [y])). rewrite app_length in IH. cbn [length] in IH. rewrite Nat.add_1_r in IH.
    assert (E' : X = (pre ++ [y]) ++ Y) by (rewrite <- app_assoc; auto). specialize (IH E').
    destruct (ok y); auto. unfold take_rows in *. cbn [flat_map]. rewrite Ey, IH. reflexivity.
  Qed.
  Lemma take_index : take_rows X F = filter ok X.
  Proof. apply (take_index_gen []). reflexivity. Qed.

  Lemma in_index p : In p F <-> exists x, nth_error X p = Some x /\ ok x = true.
  Proof.
    unfold finite_index_of. rewrite filter_In, in_seq. split.
    - intros [_ H]. destruct (nth_error X p) as [x|]; [eauto|discriminate].
    - intros (x & E & H). rewrite E. split; auto. assert (p < n) by (apply nth_error_Some; congruence). lia.
  Qed.

  Lemma take_rows_nth idx : (forall p, In p idx -> p < n) -> forall i, nth_error (take_rows X idx) i = match nth_error idx i with Some p => nth_error X p | None => None end.
  Proof.
    induction idx as [|p idx IH]; intros H i; [now destruct i|]. unfold take_rows. cbn [flat_map]. fold (take_rows X idx).
    destruct (nth_error X p) as [x|] eqn:E; [|apply nth_error_None in E; specialize (H p (or_introl eq_refl)); lia].
    destruct i as [|i]; cbn [app nth_error]; auto. apply IH. intros; apply H; now right.
  Qed.
  Lemma index_lt p : In p F -> p < n.
  Proof. intro H. apply in_index in H as (x & E & _). apply nth_error_Some. congruence. Qed.
  Lemma index_len : length F = length (filter ok X).
  Proof.
    rewrite <- take_index. assert (H : forall p, In p F -> p < n) by apply index_lt. revert H. generalize F. intro l. induction l as [|p l IH]; intro H; auto.
    unfold take_rows. cbn [flat_map]. fold (take_rows X l). destruct (nth_error X p) eqn:E; [|apply nth_error_None in E; specialize (H p (or_introl eq_refl)); lia].
    cbn [app length]. f_equal. apply IH. intros; apply H; now right.
  Qed.
  Lemma index_sorted : StronglySorted lt F.
  Proof.
    unfold finite_index_of. generalize 0. generalize n. intro k. induction k as [|k IH]; intro a; cbn [seq filter]; [constructor|].
    destruct (match nth_error X a with Some x => ok x | None => false end); auto. constructor; auto.
    apply Forall_forall. intros y Hy. apply filter_In in Hy as [Hy _]. apply in_seq in Hy. lia.
  Qed.
  Lemma index_places : places ok X (fun i => nth i F 0).
  Proof.
    split; [|split].
    - intros i j Hij. rewrite <- index_len in Hij. pose proof index_sorted as H. revert i j Hij. induction H as [|a l H IH Ha]; intros i j Hij; [simpl in Hij; lia|].
      rewrite Forall_forall in Ha. destruct j as [|j]; [lia|]. destruct i as [|i]; cbn [nth length] in *; [apply Ha, nth_In; lia|apply IH; lia].
    - intros i Hi. rewrite <- take_index, take_rows_nth by apply index_lt. rewrite <- index_len in Hi. now rewrite (nth_error_nth' F 0 Hi).
    - intros p x E H. assert (Hp : In p F) by (apply in_index; eauto). destruct (In_nth F p 0 Hp) as (i & Hi & Ei). exists i. rewrite <- index_len. auto.
  Qed.

  Notation rest := (filter (fun i => negb (existsb (Nat.eqb i) F)) (seq 0 n)).
  Lemma in_rest p : In p rest <-> exists x, nth_error X p = Some x /\ ok x = false.
  Proof.
    rewrite filter_In, in_seq. split.
    - intros [Hp H]. destruct (nth_error X p) as [x|] eqn:E; [|apply nth_error_None in E; lia]. exists x. split; auto.
      destruct (ok x) eqn:Ex; auto. assert (Hi : In p F) by (apply in_index; eauto). apply negb_true_iff in H.
      assert (existsb (Nat.eqb p) F = true) by (apply existsb_exists; exists p; split; auto; apply Nat.eqb_refl). congruence.
    - intros (x & E & H). split; [assert (p < n) by (apply nth_error_Some; congruence); lia|]. apply negb_true_iff.
      destruct (existsb (Nat.eqb p) F) eqn:Eb; auto. apply existsb_exists in Eb as (q & Hq & Eq). apply Nat.eqb_eq in Eq. subst q.
      apply in_index in Hq as (x' & E' & Hx'). congruence.
  Qed.
  Lemma index_rest : Permutation (F ++ rest) (seq 0 n).
  Proof.
    apply NoDup_Permutation.
    - pose proof index_sorted as HS. assert (NR : NoDup rest) by (apply NoDup_filter, seq_NoDup). assert (NF : NoDup F) by (apply NoDup_filter, seq_NoDup).
      assert (D : forall z, In z F -> In z rest -> False) by (intros z H1 H2; apply in_index in H1 as (x & E & Hx); apply in_rest in H2 as (y & E' & Hy); congruence).
      revert NR D. generalize rest as R. intros R NR D. clear HS. induction NF as [|a l Ha N IH]; auto. cbn [app]. constructor; [|apply IH; intros z H1; apply D; now right].
      intro H. apply in_app_or in H as [H|H]; auto. apply (D a); auto. now left.
    - apply seq_NoDup.
    - intro p. rewrite in_app_iff, in_seq, in_index, in_rest. split.
      + intros [(x & E & _)|(x & E & _)]; (assert (p < n) by (apply nth_error_Some; congruence); lia).
      + intros [_ Hp]. destruct (nth_error X p) as [x|] eqn:E; [|apply nth_error_None in E; simpl in Hp; lia]. destruct (ok x) eqn:Ex; eauto.
  Qed.
End Index.

Section Scatter.
  Context {A : Type}.
  Lemma assign_out (a : nat -> A) idx vals x : ~ In x idx -> assign_at a idx vals x = a x.
  Proof.
    revert a vals. induction idx as [|i idx IH]; intros a [|v vals] H; auto. cbn [assign_at]. rewrite IH by (intro; apply H; now right).
    unfold upd. destruct (Nat.eqb_spec x i); auto. subst. exfalso. apply H. now left.
  Qed.
  Lemma assign_in idx : NoDup idx -> forall (a : nat -> A) vals i x v, nth_error idx i = Some x -> nth_error vals i = Some v -> assign_at a idx vals x = v.
  Proof.
    induction 1 as [|y idx Hy N IH]; intros a vals i x v H1 H2; [now destruct i|]. destruct vals as [|w vals]; [now destruct i|]. cbn [assign_at].
    destruct i as [|i]; cbn [nth_error] in *.
    - injection H1 as ->. injection H2 as ->. rewrite assign_out by auto. unfold upd. now rewrite Nat.eqb_refl.
    - eapply IH; eauto.
  Qed.
  Lemma scatter_ok n (fill : A) idx vals : length idx = length vals -> NoDup idx -> (forall p, In p idx -> p < n) ->
    exists l, scatter n fill idx vals = Ok l /\ length l = n /\
      (forall i, i < length idx -> nth_error l (nth i idx 0) = nth_error vals i) /\
      (forall p, p < n -> ~ In p idx -> nth_error l p = Some fill).
  Proof.
    intros E N H. unfold scatter. rewrite E, Nat.eqb_refl. eexists. split; [reflexivity|]. split; [now rewrite map_length, seq_length|].
    assert (G : forall p, p < n -> nth_error (map (assign_at (fun _ => fill) idx vals) (seq 0 n)) p = Some (assign_at (fun _ => fill) idx vals p)).
    { intros p Hp. rewrite nth_error_map, (nth_error_nth' _ 0) by now rewrite seq_length. rewrite seq_nth by auto. reflexivity. }
    split.
    - intros i Hi. rewrite G by (apply H; apply nth_In; lia). destruct (nth_error vals i) as [v|] eqn:Ev; [|apply nth_error_None in Ev; lia].
      f_equal. apply (assign_in idx N _ vals i); auto. apply nth_error_nth'; lia.
    - intros p Hp Hn. rewrite G by auto. f_equal. exact (assign_out _ idx vals p Hn).
  Qed.
End Scatter.

Section Fit.
  Context {W V : WOrd} {Sz : SOrd} {Row : Type}.
  Variables (zero : V) (ok : Row -> bool) (set_list : list nat -> list nat) (run : list Row -> res (fitted W V Sz)) (X : list Row).
  Variables (wt wt' : nat -> Sz) (mcs : Sz).
  Hypothesis Hset : forall l, Permutation (set_list l) l.
  Hypothesis Hsome : forallb ok X = false.
  Notation f := (length (filter ok X)).
  Hypothesis Hf : 3 <= f.
  Hypothesis Hwt : forall p x, nth_error X p = Some x -> ok x = false -> wt' p = sone.
  Variable r0 : fitted W V Sz.
  Hypothesis Hrun : run (filter ok X) = Ok r0.
  Hypothesis Hlab : length (f_labels r0) = f.
  Hypothesis Hprob : length (f_probabilities r0) = f.
  Hypothesis HM : spanning_tree f (f_mst r0).
  Hypothesis HL : linkage_of f wt (f_mst r0) (f_linkage r0).
  Hypothesis HT : condensed f wt mcs (f_condensed r0).
  Hypothesis HO : splits_once f (f_condensed r0).
  Notation pos := (fun i => nth i (finite_index_of ok X) 0).
  Hypothesis Hwf : forall i, i < f -> wt' (pos i) = wt i.

  Lemma fit_extends : exists r others, fit zero ok set_list run X = Ok r /\ other_rows ok X others /\ places ok X pos /\
    extends zero ok X wt' mcs r0 r pos others /\ f_mst r = f_mst r0.
  Proof.
    unfold fit. rewrite Hsome. set (F := finite_index_of ok X) in *.
    set (rest := filter (fun i => negb (existsb (Nat.eqb i) F)) (seq 0 (length X))).
    set (O := set_list rest).
    assert (HO' : other_rows ok X O).
    { split.
      - apply (Permutation_NoDup (Permutation_sym (Hset rest))). apply NoDup_filter, seq_NoDup.
      - intro p. unfold O. split; intro H.
        + apply (Permutation_in _ (Hset rest)) in H. now apply in_rest.
        + apply (Permutation_in _ (Permutation_sym (Hset rest))). now apply in_rest. }
    assert (HP : Permutation (F ++ O) (seq 0 (length X))).
    { unfold O. rewrite Hset. apply index_rest. }
    assert (HF : length F = f) by apply index_len.
    unfold F at 1. rewrite take_index, Hrun. cbn [bind]. rewrite <- HF in *.
    assert (Hwo : forall x, In x O -> wt' x = sone) by (intros x Hx; apply (proj2 HO') in Hx as (y & E & Hy); eauto).
    rewrite (remap_condensed_ok _ _ _ HP zero wt mcs (f_condensed r0) HT) by lia. cbn [bind].
    destruct HL as (L1 & L2 & L3 & M' & PM & L4 & L5).
    assert (HR : in_range (length F) M') by (apply (in_range_incl _ (f_mst r0)); [intros e He; eapply Permutation_in; [apply Permutation_sym|]; eauto|apply (st_range _ _ HM)]).
    assert (HC : forall x y, x < length F -> y < length F -> connected M' x y).
    { intros x y Hx Hy. apply (connected_perm _ _ PM). apply (st_connected _ _ HM); auto. }
    rewrite (remap_linkage_ok _ _ _ HP (f_linkage r0) Hf L1). cbn [bind].
    assert (NF : NoDup F) by (apply NoDup_filter, seq_NoDup).
    assert (Flt : forall p, In p F -> p < length X) by apply index_lt.
    assert (Olt : forall p, In p O -> p < length X /\ ~ In p F).
    { intros p Hp. split; [apply (rm_O_lt _ _ _ HP p Hp)|]. intro. eapply (rm_disj _ _ _ HP); eauto. }
    destruct (scatter_ok (length X) (-1)%Z F (f_labels r0) ltac:(lia) NF Flt) as (ls & Els & A1 & A2 & A3). rewrite Els. cbn [bind].
    destruct (scatter_ok (length X) zero F (f_probabilities r0) ltac:(lia) NF Flt) as (ps & Eps & B1 & B2 & B3). rewrite Eps. cbn [bind].
    eexists _, O. split; [reflexivity|]. split; auto. split; [apply index_places|]. split; [|reflexivity].
    constructor; cbn [f_labels f_probabilities f_linkage f_condensed f_mst]; rewrite <- ?HF.
    - split; auto. split; auto. intros p Hp. destruct (Olt p Hp). auto.
    - split; auto. split; auto. intros p Hp. destruct (Olt p Hp). auto.
    - eapply remapped_linkage; eauto.
    - intros eps m. unfold dbscan_clustering. cbn [f_linkage].
      destruct (remapped_cut _ _ _ HP wt' (f_linkage r0) M' Hf L1 L3 L4 L5 HR HC Hwo eps m) as (ls' & E & H).
      exists ls'. split; auto.
      assert (G : Permutation (passing (fun w => wlt w eps) (map (place_edge (fun x => nth x F 0)) M')) (passing (fun w => wlt w eps) (map (place_edge (fun x => nth x F 0)) (f_mst r0)))).
      { unfold passing. apply filter_perm. apply Permutation_map. now apply Permutation_sym. }
      destruct H as (H1 & H2 & H3 & H4). split; auto. split; [|split; auto].
      + intros x Hx. destruct (H2 x Hx) as (xs & N & K & K'). exists xs. split; auto. split; auto. intro y. rewrite K. now rewrite (connected_perm _ _ G).
      + intros x y Hx Hy Hz. rewrite <- (connected_perm _ _ G). auto.
    - assert (0 < length F) by lia. split; [eapply remapped_condensed; eauto|]. eapply remapped_splits_once; eauto.
    - intros c y Hc. assert (0 < length F) by lia. eapply below_remapped; eauto.
    - intro q. unfold remapped. rewrite in_app_iff, !in_map_iff. split.
      + intros [(o & <- & Ho)|(q0 & <- & Hq0)]; [left; exists o; split; auto; reflexivity|]. right. exists q0. cbn. repeat (split; auto).
      + intros [(o & Ho & ->)|(q0 & Hq0 & E1 & E2 & E3 & E4)]; [left; exists o; split; auto; reflexivity|]. right. exists q0. split; auto. destruct q as [a b c d]. cbn in *.
        unfold row', remap_id. rewrite E1, E2, E3, E4. reflexivity.
  Qed.
End Fit.

(** ** With the whole pipeline *)
Lemma linkage_of_perm {W : WOrd} {Sz : SOrd} n wt (M M' : list (edge W)) (L : list (lrow W Sz)) : Permutation M M' -> linkage_of n wt M L -> linkage_of n wt M' L.
Proof.
  intros HP (H1 & H2 & H3 & M0 & H4 & H5). split; auto. split; auto. split; auto. exists M0. split; auto. eapply Permutation_trans; [apply Permutation_sym; exact HP|exact H4].
Qed.
Lemma fast_run {W V : WOrd} {Row} (lam : W -> V) (LA : LamArith V) (garbage : nat -> V) (mst_of : list Row -> res (list (edge W)))
    (A : Arith V NatSize) by_parent (st : settings V NatSize) rows r :
  setting_ok lam LA A by_parent st -> 2 <= length rows -> (forall M, mst_of rows = Ok M -> spanning_tree (length rows) M) ->
  fast_hdbscan lam LA garbage mst_of A by_parent st rows = Ok r ->
  (exists M, mst_of rows = Ok M /\ f_mst r = sort_mst M /\ clusters_from_spanning_tree lam LA A garbage by_parent st M = Ok (f_labels r, f_probabilities r, f_condensed r)) /\
  spanning_tree (length rows) (f_mst r) /\
  linkage_of (Sz := NatSize) (length rows) (fun _ => 1) (f_mst r) (f_linkage r) /\
  condensed (Sz := NatSize) (length rows) (fun _ => 1) (min_cluster_size st) (f_condensed r) /\ splits_once (length rows) (f_condensed r).
Proof.
  intros HK Hn HM. unfold fast_hdbscan. destruct (Nat.eqb_spec (length rows) 0) as [|_]; [lia|]. destruct (Nat.ltb_spec (length rows) 2) as [|_]; [lia|].
  destruct (mst_of rows) as [M|] eqn:EM; [|discriminate]. specialize (HM M eq_refl). cbn [bind].
  destruct (linkage_plain (length rows) M HM) as (L & EL & HL). rewrite EL. cbn [bind].
  destruct (clusters_from_linkage_tree lam LA A garbage by_parent st (fun _ => 1) (length M + 1) L) as [[[ls ps] T]|] eqn:ER; [|discriminate]. cbn [bind fst snd].
  intros [= <-]. cbn [f_mst f_labels f_probabilities f_condensed f_linkage]. rewrite (facts_length _ _ HM) in ER.
  destruct (run_explained lam LA A garbage by_parent st (length rows) (fun _ => 1) M L HK HL Hn eq_refl) with (ls := ls) (ps := ps) (T := T) as (T0 & chosen & final & HX & _); auto.
  { intros x _. pose proof (us_size _ _ (so_usable _ _ _ _ _ HK)) as H. apply slt_true in H. auto. }
  split; [|split; [|split]].
  - exists M. split; auto. split; auto. unfold clusters_from_spanning_tree. rewrite EL. cbn [bind]. now rewrite (facts_length _ _ HM).
  - eapply spanning_perm; [apply sort_mst_perm|exact HM].
  - eapply linkage_of_perm; [apply sort_mst_perm|]. apply (xp_linkage _ _ _ _ _ _ _ _ _ _ _ _ _ HX).
  - apply (xp_tree _ _ _ _ _ _ _ _ _ _ _ _ _ HX).
Qed.

Lemma fast_run_weighted {W V : WOrd} {Sz : SOrd} {Row} (lam : W -> V) (LA : LamArith V) (garbage : nat -> V) (mst_of : list Row -> res (list (edge W)))
    (weight : Row -> Sz) (A : Arith V Sz) by_parent (st : settings V Sz) rows r :
  setting_ok lam LA A by_parent st -> 2 <= length rows -> (forall M, mst_of rows = Ok M -> spanning_tree (length rows) M) ->
  sle (s := Sz) szero sone = true -> (forall x, In x rows -> slt (weight x) (min_cluster_size st) = true) ->
  fast_hdbscan_weighted lam LA garbage mst_of weight A by_parent st rows = Ok r ->
  (exists M, mst_of rows = Ok M /\ f_mst r = sort_mst M /\ clusters_from_spanning_tree_weighted lam LA A garbage by_parent st M (map weight rows) = Ok (f_labels r, f_probabilities r, f_condensed r)) /\
  spanning_tree (length rows) (f_mst r) /\
  linkage_of (length rows) (fun x => nth x (map weight rows) szero) (f_mst r) (f_linkage r) /\
  condensed (length rows) (fun x => nth x (map weight rows) szero) (min_cluster_size st) (f_condensed r) /\ splits_once (length rows) (f_condensed r).
Proof.
  intros HK Hn HM Hs Hw. unfold fast_hdbscan_weighted. destruct (Nat.eqb_spec (length rows) 0) as [|_]; [lia|]. destruct (Nat.ltb_spec (length rows) 2) as [|_]; [lia|].
  destruct (mst_of rows) as [M|] eqn:EM; [|discriminate]. specialize (HM M eq_refl). cbn [bind].
  destruct (linkage_weighted (length rows) M (map weight rows) HM (map_length _ _)) as (L & EL & HL). rewrite EL. cbn [bind].
  destruct (clusters_from_linkage_tree lam LA A garbage by_parent st _ (length M + 1) L) as [[[ls ps] T]|] eqn:ER; [|discriminate]. cbn [bind fst snd].
  intros [= <-]. cbn [f_mst f_labels f_probabilities f_condensed f_linkage]. rewrite (facts_length _ _ HM) in ER.
  destruct (run_explained lam LA A garbage by_parent st (length rows) _ M L HK HL Hn Hs) with (ls := ls) (ps := ps) (T := T) as (T0 & chosen & final & HX & _); auto.
  { intros x Hx. apply slt_true. assert (H : In (nth x (map weight rows) szero) (map weight rows)) by (apply nth_In; now rewrite map_length).
    apply in_map_iff in H as (y & <- & Hy). auto. }
  split; [|split; [|split]].
  - exists M. split; auto. split; auto. unfold clusters_from_spanning_tree_weighted. rewrite EL. cbn [bind]. now rewrite (facts_length _ _ HM).
  - eapply spanning_perm; [apply sort_mst_perm|exact HM].
  - eapply linkage_of_perm; [apply sort_mst_perm|]. apply (xp_linkage _ _ _ _ _ _ _ _ _ _ _ _ _ HX).
  - apply (xp_tree _ _ _ _ _ _ _ _ _ _ _ _ _ HX).
Qed.

Section Final.
  Context {W V : WOrd} {Row : Type}.
  Variables (lam : W -> V) (LA : LamArith V) (garbage : nat -> V) (mst_of : list Row -> res (list (edge W)))
    (ok : Row -> bool) (set_list : list nat -> list nat) (X : list Row).
  Hypothesis Hset : forall l, Permutation (set_list l) l.
  Hypothesis Hsome : forallb ok X = false.
  Hypothesis Hf : 3 <= length (filter ok X).

  Lemma clusters_prefix A by_parent (st : settings V NatSize) rows M : 2 <= length rows -> mst_of rows = Ok M ->
    spanning_tree (length rows) M ->
    forall v, clusters_from_spanning_tree lam LA A garbage by_parent st M = v ->
    match v with
    | Ok _ => exists r, fast_hdbscan lam LA garbage mst_of A by_parent st rows = Ok r
    | Err e => fast_hdbscan lam LA garbage mst_of A by_parent st rows = Err e
    end.
  Proof.
    intros Hn EM HM v <-. unfold fast_hdbscan, clusters_from_spanning_tree.
    destruct (Nat.eqb_spec (length rows) 0) as [|_]; [lia|]. destruct (Nat.ltb_spec (length rows) 2) as [|_]; [lia|]. rewrite EM. cbn [bind].
    destruct (mst_to_linkage_tree (sort_mst M)) as [L|]; [|reflexivity]. cbn [bind].
    destruct (clusters_from_linkage_tree lam LA A garbage by_parent st (fun _ => 1) (length M + 1) L) as [[r T]|]; [|reflexivity]. cbn [bind]. eauto.
  Qed.

  Lemma fit_fails {Sz : SOrd} zero (run : list Row -> res (fitted W V Sz)) e : run (filter ok X) = Err e -> fit zero ok set_list run X = Err e.
  Proof. intro H. unfold fit. rewrite Hsome, take_index, H. reflexivity. Qed.

  Lemma fit_plain (A : Arith V NatSize) by_parent (st : settings V NatSize) M :
    setting_ok lam LA A by_parent st -> mst_of (filter ok X) = Ok M -> spanning_tree (length (filter ok X)) M ->
    (exists r0 r pos others, fast_hdbscan lam LA garbage mst_of A by_parent st (filter ok X) = Ok r0 /\
       fit (la_zero LA) ok set_list (fast_hdbscan lam LA garbage mst_of A by_parent st) X = Ok r /\
       f_mst r0 = sort_mst M /\ other_rows ok X others /\ places ok X pos /\
       extends (Sz := NatSize) (la_zero LA) ok X (fun _ => 1) (min_cluster_size st) r0 r pos others) \/
    (cluster_selection_persistence st <> None /\
       fit (la_zero LA) ok set_list (fast_hdbscan lam LA garbage mst_of A by_parent st) X = Err IndexError).
  Proof.
    intros HK EM HM.
    assert (H2 : 2 <= length (filter ok X)) by lia.
    destruct (plain_total lam LA A garbage by_parent st _ M HK HM H2) as [(ls & ps & T & E & HC & _)|[Hp E]].
    - left. destruct (clusters_prefix A by_parent st (filter ok X) M H2 EM HM _ E) as (r0 & E0).
      assert (HM' : forall M', mst_of (filter ok X) = Ok M' -> spanning_tree (length (filter ok X)) M') by (intros M' E'; congruence).
      destruct (fast_run lam LA garbage mst_of A by_parent st _ _ HK H2 HM' E0) as ((M1 & R2 & EM1 & R1) & R3 & R4 & R5 & R6).
      assert (M1 = M) by congruence. subst M1. rename EM1 into EMr. rewrite E in R1. injection R1 as -> -> ->.
      destruct (fit_extends (la_zero LA) ok set_list (fast_hdbscan lam LA garbage mst_of A by_parent st) X (fun _ => 1) (fun _ => 1) (min_cluster_size st) Hset Hsome Hf)
        with (r0 := r0) as (r & others & E1 & H3 & H4 & H5 & _); auto.
      { apply (cl_labels _ _ _ _ _ HC). } { apply (cl_strengths _ _ _ _ _ HC). }
      exists r0, r, (fun i => nth i (finite_index_of ok X) 0), others. exact (conj E0 (conj E1 (conj EMr (conj H3 (conj H4 H5))))).
    - right. split; auto. apply fit_fails. apply (clusters_prefix A by_parent st (filter ok X) M H2 EM HM _ E).
  Qed.

  Lemma clusters_prefix_weighted {Sz : SOrd} (weight : Row -> Sz) A by_parent (st : settings V Sz) rows M : 2 <= length rows -> mst_of rows = Ok M ->
    spanning_tree (length rows) M ->
    forall v, clusters_from_spanning_tree_weighted lam LA A garbage by_parent st M (map weight rows) = v ->
    match v with
    | Ok _ => exists r, fast_hdbscan_weighted lam LA garbage mst_of weight A by_parent st rows = Ok r
    | Err e => fast_hdbscan_weighted lam LA garbage mst_of weight A by_parent st rows = Err e
    end.
  Proof.
    intros Hn EM HM v <-. unfold fast_hdbscan_weighted, clusters_from_spanning_tree_weighted.
    destruct (Nat.eqb_spec (length rows) 0) as [|_]; [lia|]. destruct (Nat.ltb_spec (length rows) 2) as [|_]; [lia|]. rewrite EM. cbn [bind].
    destruct (mst_to_linkage_tree_w_sample_weights (sort_mst M) (map weight rows)) as [L|]; [|reflexivity]. cbn [bind].
    destruct (clusters_from_linkage_tree lam LA A garbage by_parent st _ (length M + 1) L) as [[r T]|]; [|reflexivity]. cbn [bind]. eauto.
  Qed.

  Lemma fit_weighted {Sz : SOrd} (weight : Row -> Sz) (A : Arith V Sz) by_parent (st : settings V Sz) M :
    setting_ok lam LA A by_parent st -> mst_of (filter ok X) = Ok M -> spanning_tree (length (filter ok X)) M ->
    sle (s := Sz) szero sone = true -> (forall x, In x X -> ok x = true -> slt (weight x) (min_cluster_size st) = true) ->
    (exists r0 r pos others, fast_hdbscan_weighted lam LA garbage mst_of weight A by_parent st (filter ok X) = Ok r0 /\
       fit (la_zero LA) ok set_list (fast_hdbscan_weighted lam LA garbage mst_of weight A by_parent st) X = Ok r /\
       f_mst r0 = sort_mst M /\ other_rows ok X others /\ places ok X pos /\
       extends (la_zero LA) ok X (filled_weights ok X weight) (min_cluster_size st) r0 r pos others) \/
    (cluster_selection_persistence st <> None /\
       fit (la_zero LA) ok set_list (fast_hdbscan_weighted lam LA garbage mst_of weight A by_parent st) X = Err IndexError).
  Proof.
    intros HK EM HM Hs Hw.
    assert (H2 : 2 <= length (filter ok X)) by lia.
    assert (Hw1 : forall x, In x (filter ok X) -> slt (weight x) (min_cluster_size st) = true) by (intros x Hx; apply filter_In in Hx as [H3 H4]; auto).
    assert (Hw2 : forall w, In w (map weight (filter ok X)) -> slt w (min_cluster_size st) = true) by (intros w Hx; apply in_map_iff in Hx as (x & <- & H3); auto).
    destruct (weighted_total lam LA A garbage by_parent st _ M (map weight (filter ok X)) HK HM H2 (map_length _ _) Hs Hw2) as [(ls & ps & T & E & HC & _)|[Hp E]].
    - left. destruct (clusters_prefix_weighted weight A by_parent st (filter ok X) M H2 EM HM _ E) as (r0 & E0).
      assert (HM' : forall M', mst_of (filter ok X) = Ok M' -> spanning_tree (length (filter ok X)) M') by (intros M' E'; congruence).
      destruct (fast_run_weighted lam LA garbage mst_of weight A by_parent st _ _ HK H2 HM' Hs Hw1 E0) as ((M1 & R2 & EM1 & R1) & R3 & R4 & R5 & R6).
      assert (M1 = M) by congruence. subst M1. rename EM1 into EMr. rewrite E in R1. injection R1 as -> -> ->.
      destruct (fit_extends (la_zero LA) ok set_list (fast_hdbscan_weighted lam LA garbage mst_of weight A by_parent st) X
        (fun x => nth x (map weight (filter ok X)) szero) (filled_weights ok X weight) (min_cluster_size st) Hset Hsome Hf)
        with (r0 := r0) as (r & others & E1 & H3 & H4 & H5 & _); auto.
      { intros p x Ex Hx. unfold filled_weights. now rewrite Ex, Hx. }
      { apply (cl_labels _ _ _ _ _ HC). } { apply (cl_strengths _ _ _ _ _ HC). }
      { intros i Hi. destruct (index_places ok X) as (_ & Hp & _). unfold filled_weights. rewrite (Hp i Hi).
        destruct (nth_error (filter ok X) i) as [x|] eqn:Ex; [|apply nth_error_None in Ex; lia].
        assert (Hx : ok x = true) by (apply nth_error_In in Ex; apply filter_In in Ex; tauto). rewrite Hx.
        rewrite (nth_indep _ szero (weight x)) by (rewrite map_length; auto). rewrite map_nth. f_equal. symmetry. now apply nth_error_nth. }
      exists r0, r, (fun i => nth i (finite_index_of ok X) 0), others. exact (conj E0 (conj E1 (conj EMr (conj H3 (conj H4 H5))))).
    - right. split; auto. apply fit_fails. apply (clusters_prefix_weighted weight A by_parent st (filter ok X) M H2 EM HM _ E).
  Qed.
End Final.
