(** Runs in machine numbers. *)
From Coq Require Import List Arith Bool ZArith Reals Lia Lra.
From Flocq Require Import Core.Core IEEE754.BinarySingleNaN.
From Verif Require Import Prelude Order Size Coord Graph M_Kruskal M_TreeQuery M_Boruvka M_KDTree M_Linkage M_Condense M_Select M_Labels S_Labels
  S_CoreGraph S_Boruvka P_Boruvka P_PrecomputedBoruvka P_BoruvkaAgree P_KDTreeRun M_Pipeline S_Pipeline P_PipelineEx M_Float P_Float P_FloatOrd P_FloatLaws M_FloatRun.
Import ListNotations.

Lemma dle_val_inf (x y : double) : dval y = B754_infinity false -> dle x y = true.
Proof. apply le_val_inf. Qed.

Lemma lam_laws : LamLaws FloatLam.
Proof.
  constructor; cbn [la_zero la_one la_div la_finite FloatLam wle Double FloatOrd]; change (f_le 53 1024) with dle.
  - vm_compute. reflexivity.
  - intros a b H. rewrite !negb_true_iff. intro Hb. destruct (dle dinf a) eqn:E; auto. rewrite (dle_trans _ _ _ E H) in Hb. discriminate.
  - intros a b Fa Ha Hab Hb. apply negb_true_iff in Fa. unfold float_strength.
    enough (K : dle dzero (ddiv a b) = true /\ dle (ddiv a b) done = true).
    { destruct K as [K1 K2]. apply stored_mono in K1, K2. rewrite stored_zero in K1. rewrite stored_one in K2. auto. }
    destruct (le_pos 53 1024 a b Ha Hab) as [E|(F1 & F2 & H)].
    + assert (F : f_finite 53 1024 a = true).
      { destruct (pos_cases 53 1024 a Ha) as [E'|[F _]]; auto. rewrite (dle_val_inf dinf a E') in Fa. discriminate. }
      destruct (ddiv_inf a b F E) as [H1 H2]. split; auto. eapply dle_trans; [exact H1|]. vm_compute. reflexivity.
    + destruct (pos_split b Hb) as [E|[_ Rb]]; [unfold f_finite in F2; rewrite E in F2; discriminate|].
      pose proof (ddiv_rounds a b F1 Rb) as K. split.
      * eapply (rounds_le_l 53 1024 pos53); [reflexivity| |exact K]. cbn. apply Rmult_le_pos; [lra|]. apply Rlt_le, Rinv_0_lt_compat. auto.
      * eapply (rounds_le_r 53 1024 pos53); [apply one_finite| |exact K]. rewrite one_R. apply Rmult_le_reg_r with (B2R (dval b)); auto.
        unfold Rdiv. rewrite Rmult_assoc, Rinv_l by lra. lra.
  - intros a b Fa Hab Hba Hb. apply negb_true_iff in Fa. unfold float_strength.
    destruct (pos_split b Hb) as [E|[F2 Rb]].
    { rewrite (dle_trans _ _ _ (dle_val_inf dinf b E) Hba) in Fa. discriminate. }
    assert (Ha : dle dzero a = true) by (eapply dle_trans; [apply dle_total; exact Hb|exact Hba]).
    destruct (pos_cases 53 1024 a Ha) as [E|[F1 Ra]]; [rewrite (dle_val_inf dinf a E) in Fa; discriminate|].
    assert (H1 := Hab). apply (finite_le 53 1024 a b F1 F2) in H1. assert (H2 := Hba). apply (finite_le 53 1024 b a F2 F1) in H2.
    replace (ddiv a b) with done; [apply stored_one|]. symmetry. apply number_eq. pose proof (ddiv_rounds a b F1 Rb) as K.
    replace (B2R (dval a) / B2R (dval b))%R with 1%R in K by (replace (B2R (dval a)) with (B2R (dval b)) by lra; field; lra).
    unfold ddiv, f_div. rewrite val_without by (eapply rounds_not_nan; eauto).
    assert (R1 : round radix2 (SpecFloat.fexp 53 1024) ZnearestE 1 = 1%R) by (rewrite <- one_R; apply rnd_B2R; apply pos53).
    unfold rounds_to in K. rewrite R1 in K. destruct K as [[F R]|[[_ K]|[_ K]]].
    + change (dval done) with (Bone (prec := 53) (emax := 1024)). apply B2R_inj.
      * apply is_finite_strict_B2R. rewrite R. lra.
      * apply is_finite_strict_Bone.
      * rewrite R. symmetry. apply Bone_correct.
    + exfalso. revert K. cbn. lra.
    + exfalso. revert K. cbn. lra.
Qed.

Lemma single_not_nan (x : double) : is_nan (convert 24 128 pos24 lt24 (dval x)) = false.
Proof. apply convert_not_nan. apply proj2_sig. Qed.

(** ** Thresholds *)
Lemma minus_grows (b b' d d' : binary_float 24 128) :
  is_nan b = false -> is_nan b' = false -> is_nan d = false -> is_nan d' = false -> fle 24 128 b b' -> fle 24 128 d' d ->
  is_nan (Bminus mode_NE b d) = false -> ~ fle 24 128 (Bminus mode_NE b d) (B754_zero false) ->
  is_nan (Bminus mode_NE b' d') = false /\ fle 24 128 (Bminus mode_NE b d) (Bminus mode_NE b' d').
Proof.
  intros Nb Nb' Nd Nd' Hb Hd Nm Hm.
  assert (Top : Bminus mode_NE b' d' = B754_infinity false -> is_nan (Bminus mode_NE b' d') = false /\ fle 24 128 (Bminus mode_NE b d) (Bminus mode_NE b' d')).
  { intros ->. split; [reflexivity|]. right. left. reflexivity. }
  assert (FI : forall x : binary_float 24 128, is_finite x = true -> Bminus mode_NE x (B754_infinity true) = B754_infinity false).
  { intros x F. destruct x; auto; discriminate. }
  assert (IF : forall x : binary_float 24 128, is_finite x = true -> Bminus mode_NE (B754_infinity false) x = B754_infinity false).
  { intros x F. destruct x; auto; discriminate. }
  destruct (raw_cases 24 128 b Nb) as [Eb|[Eb|Fb]], (raw_cases 24 128 d Nd) as [Ed|[Ed|Fd]]; subst; try discriminate.
  - exfalso. apply Hm. left. reflexivity.
  - exfalso. apply Hm. left. destruct d; auto; discriminate.
  - destruct Hb as [?|[->|(? & _)]]; try discriminate. destruct Hd as [->|[?|(_ & ? & _)]]; try discriminate. apply Top. reflexivity.
  - destruct Hb as [?|[->|(? & _)]]; try discriminate. destruct Hd as [->|[->|(F & _ & _)]]; try discriminate; apply Top; auto.
  - destruct Hd as [->|[?|(_ & ? & _)]]; try discriminate. destruct Hb as [->|[->|(_ & F & _)]]; try discriminate; apply Top; auto.
  - exfalso. apply Hm. left. destruct b; auto; discriminate.
  - destruct Hd as [->|[->|(Fd' & _ & Hd)]]; try discriminate; destruct Hb as [->|[->|(_ & Fb' & Hb)]]; try discriminate; try (apply Top; auto; fail).
    pose proof (minus_rounds 24 128 pos24 lt24 b d Fb Fd) as K. pose proof (minus_rounds 24 128 pos24 lt24 b' d' Fb' Fd') as K'.
    split; [eapply rounds_not_nan; eauto|]. eapply (rounds_mono 24 128 pos24); [|exact K|exact K']. lra.
Qed.

Lemma leb_nan {p e} (x y : binary_float p e) : Bleb x y = true -> is_nan y = false.
Proof. destruct y; auto. destruct x as [[]|[]| |[]]; discriminate. Qed.

Lemma persists_mono (th b b' d d' : double) : dle th dzero = false -> dle b b' = true -> dle d' d = true ->
  float_persists th b d = true -> float_persists th b' d' = true.
Proof.
  intros Ht Hb Hd H. unfold float_persists in *. cbv zeta in *.
  set (sb := convert 24 128 pos24 lt24 (dval b)) in *. set (sd := convert 24 128 pos24 lt24 (dval d)) in *.
  set (sb' := convert 24 128 pos24 lt24 (dval b')). set (sd' := convert 24 128 pos24 lt24 (dval d')).
  assert (Nz := leb_nan _ _ H).
  assert (Nm : is_nan (Bminus mode_NE sb sd) = false) by (destruct (Bminus mode_NE sb sd); auto).
  apply Bleb_fle in H; [|apply proj2_sig|exact Nz].
  destruct (minus_grows sb sb' sd sd' (single_not_nan b) (single_not_nan b') (single_not_nan d) (single_not_nan d')) as [N K]; auto.
  - apply convert_mono. apply le_fle in Hb. exact Hb.
  - apply convert_mono. apply le_fle in Hd. exact Hd.
  - intro K. apply (convert_mono 24 128 53 1024 pos53 lt53) in K. apply Bool.diff_true_false. rewrite <- Ht. symmetry.
    apply le_fle. eapply fle_trans; [exact H|exact K].
  - apply Bleb_fle; [apply proj2_sig|apply convert_not_nan; exact N|]. eapply fle_trans; [exact H|]. apply convert_mono. exact K.
Qed.

Lemma eps_consistent (eps x : double) : dle eps dzero = false -> float_lt_eps eps x = true -> dle (ddiv done eps) x = true.
Proof.
  intros He H. unfold float_lt_eps in H. destruct (dle x dzero) eqn:Hx; [discriminate|]. apply negb_true_iff in H.
  destruct (pos_split x Hx) as [Ex|[Fx Rx]]; [apply le_val_inf; auto|].
  destruct (pos_split eps He) as [Ee|[Fe Re]].
  - eapply dle_trans; [apply (ddiv_inf done eps one_finite Ee)|]. apply dle_total. auto.
  - destruct (Rle_or_lt (/ B2R (dval eps)) (B2R (dval x))) as [K|K].
    + eapply (rounds_le_r 53 1024 pos53); [exact Fx| |apply ddiv_rounds; auto using one_finite]. rewrite one_R. lra.
    + exfalso. apply Bool.diff_true_false. rewrite <- H. symmetry.
      eapply (rounds_le_l 53 1024 pos53); [exact Fe| |apply ddiv_rounds; auto using one_finite]. rewrite one_R. unfold Rdiv. rewrite Rmult_1_l.
      rewrite <- (Rinv_inv (B2R (dval eps))). apply Rinv_le; [auto|lra].
Qed.

Lemma float_usable mcs m a e p : 2 <= mcs -> usable (dzero : Double) (float_settings mcs m a e p).
Proof.
  intro Hm. constructor; cbn [min_cluster_size max_cluster_size cluster_selection_epsilon cluster_selection_persistence float_settings]; auto.
  - apply nat_mcs; auto.
  - intros lt_eps inv. destruct (dle e dzero) eqn:Ee; [discriminate|]. intro H. injection H as <- <-. split.
    + intros x y Hxy H. change (dle x y = true) in Hxy. unfold float_lt_eps in *. destruct (dle x dzero) eqn:Ex; [discriminate|].
      replace (dle y dzero) with false.
      * apply negb_true_iff in H. apply negb_true_iff. destruct (dle e (ddiv done y)) eqn:E; auto.
        rewrite (dle_trans _ _ _ E (inverse_anti x y Ex Hxy)) in H. discriminate.
      * symmetry. destruct (dle y dzero) eqn:E; auto. rewrite (dle_trans _ _ _ Hxy E) in Ex. discriminate.
    + intros x H. split; [apply eps_consistent; auto|]. unfold float_lt_eps in H. unfold wlt. change (negb (dle x dzero) = true).
      destruct (dle x dzero); auto.
  - intros persists. destruct (dle p dzero) eqn:E; [discriminate|]. intro H. injection H as <-. intros b b' d d' Hb Hd K. eapply persists_mono; eauto.
Qed.

Lemma float_ok by_parent mcs m a e p : sorts_by_parent by_parent -> 2 <= mcs ->
  setting_ok (float_lambda : Double -> Double) FloatLam (float_scores : Arith Double NatSize) by_parent (float_settings mcs m a e p).
Proof.
  intros HB Hm. constructor; auto.
  - apply float_usable; auto.
  - apply lam_laws.
  - exact float_lambda_anti.
  - exact float_lambda_pos.
Qed.

(** ** Mapping the weights of a tree *)
Section Map.
  Context {W W' : WOrd} (f : W -> W').
  Hypothesis mono : forall x y, wle x y = true -> wle (f x) (f y) = true.
  Let h (e : edge W) : edge W' := (esrc e, edst e, f (ewt e)).

  Lemma connected_h (P : W' -> bool) (E : list (edge W)) x y : connected (passing P (map h E)) x y <-> connected (passing (fun w => P (f w)) E) x y.
  Proof.
    split; intro H; (eapply connected_ind_equiv; [| | | |exact H]); eauto using connected_refl, connected_sym, connected_trans.
    - intros e He. apply in_passing in He as [He Hp]. apply in_map_iff in He as (g & <- & Hg). apply (connected_edge _ g). apply in_passing. auto.
    - intros e He. apply in_passing in He as [He Hp]. apply (connected_edge _ (h e)). apply in_passing. split; auto. apply in_map; auto.
  Qed.

  Lemma spanning_h n (T : list (edge W)) : spanning_tree n T -> spanning_tree n (map h T).
  Proof.
    intros [S1 S2 S3 S4]. split.
    - intros e He. apply in_map_iff in He as (g & <- & Hg). apply (S1 g Hg).
    - apply acyclic_strip. apply acyclic_strip in S2. unfold strip in *. rewrite map_map. exact S2.
    - intros x y Hx Hy. rewrite <- (passing_all (map h T)). apply connected_h. rewrite passing_all. auto.
    - now rewrite map_length.
  Qed.

  Lemma complete_h n (w : nat -> nat -> W) : complete_graph n (fun i j => f (w i j)) = map h (complete_graph n w).
  Proof.
    unfold complete_graph.
    assert (K : forall l, flat_map (fun i => map (fun j => (i, j, f (w i j))) (filter (fun j => negb (j =? i)) (seq 0 n))) l =
      map h (flat_map (fun i => map (fun j => (i, j, w i j)) (filter (fun j => negb (j =? i)) (seq 0 n))) l)).
    { induction l as [|i l IH]; cbn [flat_map map]; [reflexivity|]. rewrite IH, map_app, map_map. reflexivity. }
    apply K.
  Qed.

  Lemma msf_h n (w : nat -> nat -> W) (T : list (edge W)) :
    min_spanning_forest (complete_graph n w) (map (at_weight w) T) ->
    min_spanning_forest (complete_graph n (fun i j => f (w i j))) (map (at_weight (fun i j => f (w i j))) (map h T)).
  Proof.
    intros [I A L]. replace (map (at_weight (fun i j => f (w i j))) (map h T)) with (map h (map (at_weight w) T)) by (rewrite !map_map; reflexivity).
    rewrite complete_h. split.
    - now apply incl_map.
    - apply acyclic_strip. apply acyclic_strip in A. unfold strip in *. rewrite !map_map in *. exact A.
    - intros P HP x y. rewrite !connected_h. apply L. intros a b Hab. apply HP. now apply mono.
  Qed.
End Map.

(** ** Square roots *)
Lemma tree_root_mono (x y : Single) : wle x y = true -> wle (tree_root x) (tree_root y) = true.
Proof. intro H. apply root_mono. apply widened_mono. exact H. Qed.

Lemma tree_root_finite (x : Single) : wfinite x = true -> wlt (la_zero FloatLam) (float_lambda (tree_root x)) = true.
Proof.
  intro H. apply widened_bound in H. unfold wlt. change (negb (dle (float_lambda (tree_root x)) dzero) = true). apply negb_true_iff.
  destruct (dle (float_lambda (tree_root x)) dzero) eqn:E; auto. exfalso.
  assert (K : dle (float_lambda (f_root 53 1024 pos53 lt53 two128)) (float_lambda (tree_root x)) = true).
  { apply float_lambda_anti. apply root_mono. exact H. }
  assert (K' := dle_trans _ _ _ K E). revert K'. vm_compute. discriminate.
Qed.

(** ** From the data to the clusters *)
Section Run.
  Variables (data : nat -> nat -> Single) (n_features n leaf_size : nat).
  Hypothesis finite_data : forall i j, f_finite 24 128 (data i j) = true.
  Hypothesis leaf_ok : 0 < leaf_size.
  Hypothesis no_overflow : forall i j, i < n -> j < n -> wfinite (sample_rdist (C := SingleCoord) data n_features i j) = true.
  Notation rd := (sample_rdist (C := SingleCoord) data n_features : nat -> nat -> Single).

  Lemma float_tree mode min_samples : 2 <= n -> min_samples < n -> threads_available mode ->
    exists T nbrs core2,
      float_boruvka data n_features n leaf_size mode min_samples = Ok (T, nbrs, map core_root core2) /\
      core_distances n rd (f_zero 24 128) min_samples core2 /\
      spanning_tree n T /\
      (let w i j := tree_root (mutual (fun i => nth i core2 winf) rd i j) in
       min_spanning_forest (complete_graph n w) (map (at_weight w) T) /\
       (forall e, In e T -> equiv (ewt e) (w (esrc e) (edst e)))) /\
      (forall e, In e T -> wlt (la_zero FloatLam) (float_lambda (ewt e)) = true).
  Proof.
    intros Hn Hms Th.
    destruct (built_boruvka (C := SingleCoord) data n_features n leaf_size finite_data ltac:(lia) leaf_ok (fun x => x) mode min_samples no_overflow
      (fun x y H => H) Hn Hms Th (conj (wle_refl _) (wle_refl _))) as (N & b & T & nbrs & core & _ & _ & _ & E & R & C & ST & [M Q] & _).
    exists (map (fun e => (esrc e, edst e, tree_root (ewt e))) T), nbrs, core.
    assert (QD : forall e, In e (map (fun e => (esrc e, edst e, tree_root (ewt e))) T) -> exists g, In g T /\ e = (esrc g, edst g, tree_root (ewt g))).
    { intros e He. apply in_map_iff in He as (g & <- & Hg). eauto. }
    split; [|split; [exact C|split; [|split; [split|]]]].
    - unfold float_boruvka. rewrite E. cbn [bind]. change (snd (N, b)) with b.
      match goal with |- context [parallel_boruvka ?a ?b ?c ?d ?e ?f ?g ?h] => change (parallel_boruvka a b c d e f g h) with (parallel_boruvka (W := SingleCoord) a b c d czero f g h) end.
      match type of R with ?l = _ => replace (parallel_boruvka _ _ _ _ _ _ _ _) with l by reflexivity end. rewrite R. reflexivity.
    - apply (spanning_h (W := Single) (W' := Double)). exact ST.
    - apply (msf_h (W := Single) (W' := Double) tree_root tree_root_mono). exact M.
    - intros e He. destruct (QD e He) as (g & Hg & ->). destruct (Q g Hg) as [Q1 Q2]. split; apply tree_root_mono; auto.
    - intros e He. destruct (QD e He) as (g & Hg & ->). apply tree_root_finite. destruct (Q g Hg) as [Q1 _]. destruct (st_range _ _ ST g Hg) as [A B].
      eapply wle_lt_trans; [exact Q1|]. unfold mutual.
      assert (Fc : forall i, i < n -> wlt (nth i core winf) (winf : Single) = true).
      { intros i Hi. destruct C as (_ & C1 & C2). destruct (le_lt_dec min_samples 1) as [Hm|Hm]; [rewrite C1 by auto; reflexivity|].
        destruct (C2 Hm i Hi) as (Hi' & _). apply in_map_iff in Hi' as (j & <- & Hj). apply in_seq in Hj. apply no_overflow; lia. }
      unfold wmax. repeat match goal with |- context [if ?c then _ else _] => destruct c end; auto. apply no_overflow; auto.
  Qed.

  Lemma float_run mode min_samples garbage by_parent mcs m a e p :
    2 <= n -> min_samples < n -> threads_available mode -> sorts_by_parent by_parent -> 2 <= mcs ->
    let st := float_settings mcs m a e p in
    let r := float_hdbscan data n_features n leaf_size mode min_samples garbage by_parent st in
    completes FloatLam st n (fun _ => 1) r /\
    forall ls ps T, r = Ok (ls, ps, T) -> root_ok st -> large_clusters (Sz := NatSize) n (fun _ => 1) mcs ls /\ numbered n ls.
  Proof.
    intros Hn Hms Th HB Hm st r. destruct (float_tree mode min_samples Hn Hms Th) as (T & nbrs & core2 & E & _ & ST & _ & P).
    assert (Er : r = float_clusters garbage by_parent st T) by (unfold r, float_hdbscan; rewrite E; reflexivity).
    rewrite Er. pose proof (float_ok by_parent mcs m a e p HB Hm) as OK. split.
    - apply plain_total; auto.
    - intros ls ps T' Ec Hr. exact (plain_sizes _ _ _ _ _ st n T ls ps T' OK Hr ST Hn P Ec).
  Qed.
End Run.

Lemma float_neighbours (data : nat -> nat -> Single) n_features n leaf_size k :
  (forall i j, f_finite 24 128 (data i j) = true) -> 0 < n -> 0 < leaf_size -> 0 < k ->
  (forall i j, i < n -> j < n -> wfinite (sample_rdist (C := SingleCoord) data n_features i j) = true) ->
  exists N b rows,
    build_kdtree (C := SingleCoord) data n_features n leaf_size = Ok (N, b) /\
    parallel_tree_query (tree_of (N, b)) (sample_rdist (C := SingleCoord) data n_features) (node_bound (C := SingleCoord) data n_features b) core_root n k = Ok rows /\
    Forall2 (fun i row => S_SpaceTree.nearest core_root (sample_rdist (C := SingleCoord) data n_features i) n k row) (seq 0 n) rows.
Proof.
  intros F Hn Hl Hk O. apply (built_query (C := SingleCoord)); auto.
  - apply root_mono.
  - intros x Hx. apply root_finite. exact Hx.
Qed.

Lemma machine_distance (data : nat -> nat -> Single) n_features i j : (forall i j, f_finite 24 128 (data i j) = true) ->
  proj1_sig (sample_rdist (C := SingleCoord) data n_features i j : single) =
  raw_rdist 24 128 pos24 lt24 n_features (fun f => proj1_sig (data i f)) (fun f => proj1_sig (data j f)).
Proof. intro F. apply rdist_val; auto. Qed.

(** ** Examples *)
Definition at_exp (m e : Z) : Single := without_nan 24 128 (binary_normalize 24 128 pos24 lt24 mode_NE m e false).
(** A matrix of float32 numbers; (m, e) is m * 2^e. *)
Definition float_matrix (rows : list (list (Z * Z))) (i j : nat) : Single :=
  let (m, e) := nth j (nth i rows []) (0, 0)%Z in at_exp m e.
Definition one_schedule (n : nat) : query_mode := Plain (fun _ => seq 0 n).

Lemma float_matrix_finite rows : (forall r, In r rows -> forall me, In me r -> f_finite 24 128 (at_exp (fst me) (snd me)) = true) ->
  forall i j, f_finite 24 128 (float_matrix rows i j) = true.
Proof.
  intros H i j. unfold float_matrix. destruct (nth_in_or_default i rows []) as [Hi|Ei].
  - destruct (nth_in_or_default j (nth i rows []) (0, 0)%Z) as [Hj|Ej].
    + specialize (H _ Hi _ Hj). destruct (nth j _ _) as [m e]. exact H.
    + rewrite Ej. reflexivity.
  - rewrite Ei. destruct j; reflexivity.
Qed.
