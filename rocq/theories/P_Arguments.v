(** Sample weights and detector parameters that are accepted. *)
From Coq Require Import List Arith Bool ZArith QArith Qcanon Lia.
From Verif Require Import Prelude Order Graph Num M_Estimator M_Dispatch S_Dispatch M_Detector M_Plscan M_Arguments S_Arguments P_Detector.
Import ListNotations.
Local Open Scope nat_scope.

Lemma is_finite_spec x : is_finite x = true <-> finite_number x.
Proof. unfold finite_number. destruct x; cbn; split; try discriminate; try (intros (q & [=])); eauto. Qed.
Lemma equals_zero_spec x : equals_zero x = true <-> x = Finite 0.
Proof.
  destruct x as [q| |]; cbn [equals_zero]; try (split; [discriminate|congruence]). rewrite Qeq_bool_iff. split.
  - intro E. f_equal. apply Qc_is_canon. exact E.
  - intros [= ->]. reflexivity.
Qed.
Lemma some_nonzero v : forallb equals_zero v = false <-> exists x, In x v /\ nonzero x.
Proof.
  split.
  - induction v as [|x v IH]; [discriminate|]. cbn [forallb]. destruct (equals_zero x) eqn:E.
    + intro H. destruct (IH H) as (y & Hy & Hn). exists y. split; [right|]; auto.
    + intros _. exists x. split; [left; auto|]. intro Hx. apply equals_zero_spec in Hx. congruence.
  - intros (x & Hx & Hn). destruct (forallb equals_zero v) eqn:E; auto. exfalso. rewrite forallb_forall in E. apply Hn, equals_zero_spec; auto.
Qed.
Lemma all_finite v : forallb is_finite v = true <-> forall x, In x v -> finite_number x.
Proof. rewrite forallb_forall. split; intros H x Hx; apply is_finite_spec; auto. Qed.

Lemma check_weight_ok allow_zero w n v : 0 < n -> well_shaped w ->
  (check_sample_weight allow_zero w n = Ok v <->
   weights_given n w v /\ (forall s vs, w = Array s vs -> forall x, In x v -> finite_number x) /\ (allow_zero = false -> exists x, In x v /\ nonzero x)).
Proof.
  intros Hn Hw.
  assert (G : forall u, (if negb allow_zero && forallb equals_zero u then Err ValueError else Ok u) = Ok v <->
                        u = v /\ (allow_zero = false -> exists x, In x u /\ nonzero x)).
  { intro u. rewrite <- some_nonzero. destruct allow_zero, (forallb equals_zero u); cbn; split; try discriminate; try (intros [= ->]); try (intros [-> H]; auto); auto; try (split; auto; discriminate).
    specialize (H eq_refl). discriminate. }
  unfold check_sample_weight. destruct w as [x|s vs].
  - cbn [bind]. rewrite G. split.
    + intros [<- H]. split; [constructor|]. split; auto. intros ? ? [=].
    + intros (H & _ & Hz). inversion H; subst. auto.
  - unfold check_array. split.
    + destruct (3 <=? length s); [discriminate|]. destruct (forallb is_finite vs) eqn:Ef; [|discriminate]. cbn [negb].
      destruct s as [|rows cols]; [discriminate|]. destruct (rows =? 0); [discriminate|]. destruct (existsb (Nat.eqb 0) cols); [discriminate|]. cbn [bind].
      destruct cols; [|discriminate]. destruct (Nat.eqb_spec rows n) as [->|]; [|discriminate]. cbn [bind]. rewrite G. intros [<- Hz].
      split; [constructor; cbn in Hw; lia|]. split; auto. intros _ _ _. now apply all_finite.
    + intros (H & Hf & Hz). inversion H as [|u E1 E2]; subst. assert (Ef : forallb is_finite v = true) by (apply all_finite; eauto).
      cbn [length Nat.leb]. rewrite Ef. cbn [negb existsb]. destruct (Nat.eqb_spec (length v) 0); [lia|]. cbn [bind]. rewrite Nat.eqb_refl. cbn [bind]. apply G. auto.
Qed.

Lemma check_weight_length w n v : check_sample_weight false w n = Ok v -> well_shaped w -> length v = n.
Proof.
  unfold check_sample_weight. intros E Hw.
  assert (G : forall u, (if negb false && forallb equals_zero u then Err ValueError else Ok u) = Ok v -> u = v) by (intros u; cbn; destruct (forallb _ u); congruence).
  destruct w as [x|s vs]; cbn [bind] in E.
  - apply G in E as <-. apply repeat_length.
  - destruct (check_array s vs); [|discriminate]. cbn [bind] in E. destruct s as [|m [|]]; try discriminate. destruct (Nat.eqb_spec m n) as [->|]; [|discriminate]. cbn [bind] in E.
    apply G in E as <-. cbn in Hw. lia.
Qed.

(** Taking the weights of the finite rows. *)
Lemma gather_shift {A} (x : A) a index : gather (x :: a) (map S index) = gather a index.
Proof. induction index as [|i index IH]; auto. cbn [map gather nth_error]. now rewrite IH. Qed.
Lemma index_cons {Row} (ok : Row -> bool) x X : finite_index_of ok (x :: X) = (if ok x then [0] else []) ++ map S (finite_index_of ok X).
Proof.
  unfold finite_index_of. cbn [length seq filter]. cbn [nth_error]. rewrite <- seq_shift.
  assert (E : forall l, filter (fun i => match nth_error (x :: X) i with Some y => ok y | None => false end) (map S l) =
                        map S (filter (fun i => match nth_error X i with Some y => ok y | None => false end) l)).
  { induction l as [|i l IH]; auto. cbn [map filter nth_error]. rewrite IH. destruct (nth_error X i) as [y|]; auto. destruct (ok y); auto. }
  rewrite E. destruct (ok x); auto.
Qed.
Lemma gather_finite {Row A} (ok : Row -> bool) (X : list Row) : forall (u : list A), length u = length X ->
  gather u (finite_index_of ok X) = Ok (map snd (filter (fun p => ok (fst p)) (combine X u))).
Proof.
  induction X as [|x X IH]; intros [|a u] HL; try discriminate; auto. injection HL as HL. rewrite index_cons. cbn [combine filter fst]. destruct (ok x); cbn [app map].
  - cbn [gather nth_error]. rewrite gather_shift, IH by auto. reflexivity.
  - rewrite gather_shift. auto.
Qed.
Lemma finite_all {Row A} (ok : Row -> bool) (X : list Row) : forall (u : list A), length u = length X -> forallb ok X = true ->
  map snd (filter (fun p => ok (fst p)) (combine X u)) = u.
Proof.
  induction X as [|x X IH]; intros [|a u] HL HF; try discriminate; auto. injection HL as HL. cbn [forallb] in HF. apply andb_true_iff in HF as [H1 H2].
  cbn [combine filter fst]. rewrite H1. cbn [map snd]. now rewrite IH.
Qed.
Lemma finite_length {Row A} (ok : Row -> bool) (X : list Row) : forall (u : list A), length u = length X ->
  length (map snd (filter (fun p => ok (fst p)) (combine X u))) = length (filter ok X).
Proof.
  induction X as [|x X IH]; intros [|a u] HL; try discriminate; auto. injection HL as HL. cbn [combine filter fst]. destruct (ok x); cbn [map length]; auto.
Qed.
Lemma finite_in {Row A} (ok : Row -> bool) (X : list Row) (u : list A) a : In a (map snd (filter (fun p => ok (fst p)) (combine X u))) -> In a u.
Proof. intro H. apply in_map_iff in H as ((x & b) & <- & H). apply filter_In in H as [H _]. eapply in_combine_r; eauto. Qed.

Lemma hdbscan_weights_ok {Row} (ok : Row -> bool) w (X : list Row) r : well_shaped w ->
  (hdbscan_weights ok (Some w) X = Ok r <->
   exists u v, r = Some v /\ weights_given (length X) w u /\ (forall x, In x u -> finite_number x) /\ at_finite ok X u v /\ exists x, In x v /\ nonzero x).
Proof.
  intro Hw. unfold hdbscan_weights, at_finite. split.
  - destruct (check_sample_weight false w (length X)) as [u|] eqn:E; [|discriminate]. cbn [bind]. pose proof (check_weight_length _ _ _ E Hw) as HL.
    set (v := map snd (filter (fun p => ok (fst p)) (combine X u))).
    replace (if forallb ok X then Ok u else gather u (finite_index_of ok X)) with (Ok v)
      by (unfold v; destruct (forallb ok X) eqn:EX; [now rewrite finite_all|now rewrite gather_finite]).
    cbn [bind]. pose proof (finite_length ok X u HL) as HLv. fold v in HLv. unfold fast_hdbscan_weights.
    destruct (Nat.eqb_spec (length (filter ok X)) 0) as [|H0]; [discriminate|].
    destruct (check_sample_weight false (Array [length v] v) (length (filter ok X))) as [v'|] eqn:E'; [|discriminate]. cbn [bind]. intros [= <-].
    assert (HX : 0 < length X) by (destruct X; [contradiction|cbn; lia]).
    apply check_weight_ok in E as (G1 & G2 & G3); auto. apply check_weight_ok in E' as (K1 & K2 & K3); [|lia|cbn; lia].
    inversion K1; subst. exists u, v. split; auto. split; auto. split; [|split; auto].
    intros x Hx. inversion G1; subst; [|eapply G2; eauto]. apply repeat_spec in Hx as ->.
    destruct (K3 eq_refl) as (y & Hy & _). pose proof (K2 _ _ eq_refl y Hy) as Fy. apply finite_in in Hy. apply repeat_spec in Hy as ->. auto.
  - intros (u & v & -> & G1 & G2 & -> & G3).
    assert (HL : length u = length X) by (inversion G1; subst; auto; apply repeat_length).
    pose proof (finite_length ok X u HL) as HLv. set (v := map snd (filter (fun p => ok (fst p)) (combine X u))) in *.
    destruct G3 as (x & Hx & Hz). assert (Hv : 0 < length v) by (destruct v; [destruct Hx|cbn; lia]).
    assert (HX : 0 < length X) by (destruct X; [destruct Hx|apply Nat.lt_0_succ]).
    assert (E : check_sample_weight false w (length X) = Ok u).
    { apply check_weight_ok; auto. split; auto. split; [auto|]. intros _. exists x. split; auto. eapply finite_in; eauto. }
    rewrite E. cbn [bind].
    replace (if forallb ok X then Ok u else gather u (finite_index_of ok X)) with (Ok v)
      by (unfold v; destruct (forallb ok X) eqn:EX; [now rewrite finite_all|now rewrite gather_finite]).
    cbn [bind]. unfold fast_hdbscan_weights. destruct (Nat.eqb_spec (length (filter ok X)) 0); [lia|].
    replace (check_sample_weight false (Array [length v] v) (length (filter ok X))) with (Ok v); [reflexivity|].
    symmetry. apply check_weight_ok; [lia|cbn; lia|]. rewrite <- HLv. split; [now constructor|]. split; eauto.
    intros _ _ _ y Hy. apply G2. eapply finite_in; eauto.
Qed.

Lemma plscan_weights_ok {Row} w (X : list Row) r : 0 < length X -> well_shaped w ->
  (plscan_weights (Some w) X = Ok r <->
   exists u, r = Some u /\ weights_given (length X) w u /\ (forall s vs, w = Array s vs -> forall x, In x u -> finite_number x) /\ exists x, In x u /\ nonzero x).
Proof.
  intros Hn Hw. unfold plscan_weights. split.
  - destruct (check_sample_weight false w (length X)) as [u|] eqn:E; [|discriminate]. cbn [bind]. intros [= <-]. apply check_weight_ok in E as (G1 & G2 & G3); auto. exists u. auto.
  - intros (u & -> & G1 & G2 & G3). assert (E : check_sample_weight false w (length X) = Ok u) by (apply check_weight_ok; auto). now rewrite E.
Qed.

(** A single number for all samples. *)
Lemma scalar_negative {Row} (ok : Row -> bool) (X : list Row) q : (exists x, In x X /\ ok x = true) -> (q < 0)%Qc ->
  hdbscan_weights ok (Some (Scalar (Finite q))) X = Ok (Some (repeat (Finite q) (length (filter ok X)))).
Proof.
  intros (x & Hx & Hok) Hq. apply hdbscan_weights_ok; [exact I|].
  set (v := map snd (filter (fun p => ok (fst p)) (combine X (repeat (Finite q) (length X))))).
  assert (HL : length v = length (filter ok X)) by (apply finite_length; apply repeat_length).
  assert (Hr : v = repeat (Finite q) (length (filter ok X))).
  { rewrite <- HL. apply Forall_eq_repeat. apply Forall_forall. intros y Hy. apply finite_in in Hy. apply repeat_spec in Hy. auto. }
  exists (repeat (Finite q) (length X)), v. rewrite <- Hr. split; auto. split; [constructor|]. split; [|split].
  - intros y Hy. apply repeat_spec in Hy as ->. exists q. auto.
  - reflexivity.
  - exists (Finite q). split.
    + rewrite Hr. destruct (filter ok X) eqn:E; [|left; auto]. exfalso. assert (Hi : In x (filter ok X)) by (apply filter_In; auto). rewrite E in Hi. destruct Hi.
    + intros [= ->]. apply Qclt_not_eq in Hq. congruence.
Qed.
Lemma plscan_nan {Row} (X : list Row) : 0 < length X -> plscan_weights (Some (Scalar NotANumber)) X = Ok (Some (repeat NotANumber (length X))).
Proof.
  intro Hn. apply plscan_weights_ok; [auto|exact I|]. eexists. split; [reflexivity|]. split; [constructor|]. split; [intros ? ? [=]|].
  exists NotANumber. split; [destruct (length X); [lia|left; auto]|discriminate].
Qed.
Lemma hdbscan_nan {Row} (ok : Row -> bool) (X : list Row) : exists e, hdbscan_weights ok (Some (Scalar NotANumber)) X = Err e.
Proof.
  destruct (hdbscan_weights ok (Some (Scalar NotANumber)) X) as [r|e] eqn:E; [|eauto]. exfalso.
  apply hdbscan_weights_ok in E as (u & v & _ & G & HF & Hv & x & Hx & _); [|exact I]. rewrite Hv in Hx. apply finite_in in Hx. destruct (HF x Hx) as (q & ->).
  inversion G; subst. apply repeat_spec in Hx. discriminate.
Qed.

(** ** Detectors *)
Lemma check_float_ok v u : check_float v = Ok u <-> nonnegative_float v.
Proof. unfold nonnegative_float. destruct v as [|z|[]|], u; cbn; split; try discriminate; auto. Qed.
Lemma some_label labels : forallb (fun l => (l =? -1)%Z) labels = false <-> exists l, In l labels /\ l <> (-1)%Z.
Proof.
  split.
  - induction labels as [|l labels IH]; [discriminate|]. cbn [forallb]. destruct (Z.eqb_spec l (-1)) as [->|N]; [|exists l; split; [left|]; auto].
    intro H. destruct (IH H) as (k & Hk & Hn). exists k. split; [right|]; auto.
  - intros (l & Hl & Hn). destruct (forallb _ labels) eqn:E; auto. exfalso. rewrite forallb_forall in E. specialize (E l Hl). apply Z.eqb_eq in E. auto.
Qed.

Lemma check_detector_ok allow_zero k a h : (forall n, k_raw_data k = Some n -> 0 < n) -> (forall w, e_weights a = Some w -> well_shaped w) ->
  (check_detector allow_zero k a = Ok h <-> exists n size, detector_ok allow_zero k a n size h).
Proof.
  intros Hn Hw. unfold check_detector. split.
  - destruct (k_precomputed k) eqn:E1; [discriminate|]. destruct (k_raw_data k) as [n|] eqn:E2; [|discriminate]. destruct (k_fitted k) eqn:E3; [|discriminate]. cbn [negb].
    specialize (Hn n eq_refl).
    destruct (match e_weights a with None => Ok None | Some w => _ end) as [ws|] eqn:EW; [|discriminate]. cbn [bind].
    destruct (match e_min_cluster_size a with PyNone => k_min_cluster_size k | v => v end) as [|z| |] eqn:ES; try discriminate.
    destruct (Z.leb_spec 2 z) as [Hz|]; [|discriminate]. cbn [negb].
    destruct (match e_max_cluster_size a with SizeNone => k_max_cluster_size k | v => v end) as [|b|] eqn:EX; try discriminate. destruct b; [discriminate|]. cbn [bind].
    destruct (check_float (e_persistence a)) as [[]|] eqn:EP; [|discriminate]. cbn [bind]. destruct (check_float (e_epsilon a)) as [[]|] eqn:EE; [|discriminate]. cbn [bind].
    apply check_float_ok in EP, EE.
    assert (G : forall m labels, m <> OtherMethod -> m = chosen (e_method a) (k_method k) -> labels = chosen (e_labels a) (k_labels k) ->
      (if forallb (fun l => (l =? -1)%Z) labels then Err ValueError else
       Ok {| h_labels := labels; h_weights := ws; h_min_cluster_size := PyInt z; h_max_cluster_size := SizeNumber false; h_method := m |}) = Ok h ->
      exists n size, detector_ok allow_zero k a n size h).
    { intros m labels Hm Em El. destruct (forallb _ labels) eqn:EL; [discriminate|]. intros [= <-]. exists n, z. constructor; cbn; auto.
      - now apply some_label.
      - clear - ES. destruct (e_min_cluster_size a) as [|z0| |]; try discriminate; auto.
      - clear - EX. destruct (e_max_cluster_size a) as [|b0|]; try discriminate; auto.
      - destruct (e_weights a) as [w|]; [|now injection EW as <-].
        destruct (check_sample_weight allow_zero w n) as [v|] eqn:EV; [|discriminate]. cbn [bind] in EW. injection EW as <-.
        apply check_weight_ok in EV as (G1 & G2 & G3); auto. exists v. auto. }
    unfold chosen in G.
    destruct (match e_method a with None => k_method k | Some m => m end) eqn:EM.
    + apply G; [discriminate| |]; destruct (e_method a), (e_labels a); auto.
    + apply G; [discriminate| |]; destruct (e_method a), (e_labels a); auto.
    + discriminate.
  - intros (n & z & H). destruct H as [H1 H2 H3 H4 H5 [H6 H6'] H7 H8 H9 [H10 H10'] H11 H12 H13]. rewrite H1, H2, H3. cbn [negb]. specialize (Hn n H2).
    assert (EW : (match e_weights a with None => Ok None | Some w => let* v := check_sample_weight allow_zero w n in Ok (Some v) end) = Ok (h_weights h)).
    { destruct (e_weights a) as [w|]; [|now rewrite H13]. destruct H13 as (v & -> & G1 & G2 & G3).
      assert (E : check_sample_weight allow_zero w n = Ok v) by (apply check_weight_ok; auto). now rewrite E. }
    rewrite EW. cbn [bind].
    assert (ES : (match e_min_cluster_size a with PyNone => k_min_cluster_size k | v => v end) = PyInt z) by (destruct H7 as [->|[-> ->]]; auto). rewrite ES.
    destruct (Z.leb_spec 2 z); [|lia]. cbn [negb].
    assert (EX : (match e_max_cluster_size a with SizeNone => k_max_cluster_size k | v => v end) = SizeNumber false) by (destruct H9 as [->|[-> ->]]; auto). rewrite EX. cbn [bind].
    rewrite (proj2 (check_float_ok _ tt) H12), (proj2 (check_float_ok _ tt) H11). cbn [bind].
    assert (EM : (match e_method a with None => k_method k | Some m => m end) = h_method h) by (rewrite H10; destruct (e_method a); auto). rewrite EM.
    assert (EL : (match e_labels a with None => k_labels k | Some l => l end) = h_labels h) by (rewrite H4; destruct (e_labels a); auto). rewrite EL.
    rewrite (proj2 (some_label _) H5). destruct h as [hl hw hm hx hme]. cbn in *. subst. destruct (chosen (e_method a) (k_method k)); auto. congruence.
Qed.

(** A clusterer that may be fitted with clusters of one sample. *)
Lemma size_one allow_zero k a : k_min_cluster_size k = PyInt 1 -> e_min_cluster_size a = PyNone -> forall h, check_detector allow_zero k a <> Ok h.
Proof.
  intros Hk Ha h. unfold check_detector. destruct (k_precomputed k); [discriminate|]. destruct (k_raw_data k); [|discriminate]. destruct (k_fitted k); [|discriminate]. cbn [negb].
  destruct (match e_weights a with None => Ok None | Some w => _ end); [|discriminate]. cbn [bind]. rewrite Ha, Hk. cbn. discriminate.
Qed.
