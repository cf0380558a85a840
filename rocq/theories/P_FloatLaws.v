(** Conversions, roots, densities and scores of IEEE 754 numbers. *)
From Coq Require Import List Arith Bool ZArith Reals Lia Lra.
From Flocq Require Import Core.Core IEEE754.BinarySingleNaN.
From Verif Require Import Prelude Order Size Coord M_KDTree M_Float P_Float P_FloatOrd.
Import ListNotations.
Local Open Scope R_scope.

Section Convert.
  Variables (p e p' e' : Z).
  Context (pos : Prec_gt_0 p) (lt : Prec_lt_emax p e) (pos' : Prec_gt_0 p') (lt' : Prec_lt_emax p' e').

  Lemma convert_rounds (x : binary_float p e) : is_finite x = true -> rounds_to p' e' (convert p' e' pos' lt' x) (B2R x).
  Proof.
    destruct x as [s|s| |s m ex B]; try discriminate; intros _.
    - apply rounds_zero; auto.
    - cbn [convert]. pose proof (binary_normalize_correct p' e' pos' lt' mode_NE (cond_Zopp s (Zpos m)) ex s) as H.
      replace (F2R (Float radix2 (cond_Zopp s (Zpos m)) ex)) with (B2R (B754_finite s m ex B)) in H by reflexivity.
      set (z := binary_normalize _ _ _ _ _ _ _ _) in *. set (r := B2R _) in *. cbv zeta in H. cbn [round_mode] in H.
      destruct (Rlt_bool_spec (Rabs (round radix2 (SpecFloat.fexp p' e') ZnearestE r)) (bpow radix2 e')) as [Hr|Hr].
      + destruct H as (H1 & H2 & H3). left. auto.
      + apply overflow_inf in H; auto. destruct (beyond p' e' pos' r Hr) as [Hn Hp].
        destruct (Rle_or_lt r 0) as [Hr0|Hr0].
        * destruct (Rlt_bool_spec r 0) as [Hl|Hl].
          -- right. right. split; auto.
          -- exfalso. assert (r = 0) by lra. specialize (Hn Hr0). specialize (Hp ltac:(lra)). pose proof (top_pos e'). lra.
        * destruct (Rlt_bool_spec r 0) as [Hl|Hl]; [lra|]. right. left. split; [auto|apply Hp; lra].
  Qed.

  Lemma convert_not_nan (x : binary_float p e) : is_nan x = false -> is_nan (convert p' e' pos' lt' x) = false.
  Proof.
    intro H. destruct (raw_cases p e x H) as [->|[->|F]]; auto. eapply rounds_not_nan; eauto. apply convert_rounds; auto.
  Qed.

  Lemma convert_mono (x y : binary_float p e) : fle p e x y -> fle p' e' (convert p' e' pos' lt' x) (convert p' e' pos' lt' y).
  Proof.
    intros [->|[->|(F & F' & H)]]; [left|right;left|]; auto. eapply rounds_mono; eauto using convert_rounds.
  Qed.
End Convert.

Section Root.
  Variables (prec emax : Z).
  Context (prec_pos : Prec_gt_0 prec) (prec_lt : Prec_lt_emax prec emax).
  Notation raw := (binary_float prec emax).
  Notation number := (number prec emax).
  Notation val := (@proj1_sig raw (fun x => is_nan x = false)).
  Notation root := (f_root prec emax prec_pos prec_lt).
  Notation f_le := (f_le prec emax).
  Notation zero := (f_zero prec emax).

  Lemma sqrt_rounds (x : raw) : is_finite x = true -> 0 <= B2R x -> rounds_to prec emax (Bsqrt mode_NE x) (sqrt (B2R x)).
  Proof.
    intros F H. destruct (Bsqrt_correct prec emax prec_pos prec_lt mode_NE x) as (E & Fs & _). left. split; auto. rewrite Fs.
    destruct x as [s|s| |[] m e B]; auto; try discriminate. exfalso. cbn in H. pose proof (F2R_lt_0 radix2 (Float radix2 (Z.neg m) e) eq_refl). lra.
  Qed.
  Lemma sqrt_finite (x : raw) : is_finite x = true -> 0 <= B2R x -> is_finite (Bsqrt mode_NE x) = true.
  Proof.
    intros F H. destruct (Bsqrt_correct prec emax prec_pos prec_lt mode_NE x) as (E & Fs & _). rewrite Fs.
    destruct x as [s|s| |[] m e B]; auto; try discriminate. exfalso. cbn in H. pose proof (F2R_lt_0 radix2 (Float radix2 (Z.neg m) e) eq_refl). lra.
  Qed.
  Lemma root_zero : root zero = zero.
  Proof. reflexivity. Qed.
  Lemma root_pos x : f_le zero (root x) = true.
  Proof.
    unfold f_root. destruct (f_le zero x) eqn:E; [|reflexivity]. apply pos_cases in E as [E|[F H]].
    - apply le_val_inf. unfold f_sqrt. rewrite E. reflexivity.
    - eapply (rounds_le_l prec emax prec_pos); [reflexivity| |apply sqrt_rounds; auto]. cbn. apply sqrt_pos.
  Qed.
  Lemma root_mono x y : f_le x y = true -> f_le (root x) (root y) = true.
  Proof.
    intro H. destruct (f_le zero x) eqn:E.
    - assert (E' : f_le zero y = true) by (rewrite le_fle in *; eapply fle_trans; eauto).
      unfold f_root. rewrite E, E'. destruct (le_pos prec emax x y E H) as [Ey|(Fx & Fy & Hr)].
      + apply le_val_inf. unfold f_sqrt. rewrite Ey. reflexivity.
      + eapply (rounds_le prec emax prec_pos); [|apply sqrt_rounds|apply sqrt_rounds]; auto; try lra. apply sqrt_le_1; lra.
    - replace (root x) with zero by (unfold f_root; rewrite E; auto). apply root_pos.
  Qed.
  Lemma finite_lt_inf (x : number) : wfinite (W := FloatOrd prec emax) x = true <-> val x <> B754_infinity false.
  Proof.
    unfold wfinite, wlt. cbn [wle winf FloatOrd]. rewrite negb_true_iff. split.
    - intros H E. apply (Bool.diff_true_false). rewrite <- H. symmetry. now apply le_val_inf.
    - intro H. destruct (f_le (f_inf prec emax) x) eqn:E; auto. exfalso. apply H. unfold M_Float.f_le in E. apply inf_leb in E. auto.
  Qed.
  Lemma root_finite x : wfinite (W := FloatOrd prec emax) x = true -> wlt (W := FloatOrd prec emax) (root x) (root (f_inf prec emax)) = true.
  Proof.
    intro H. change (root (f_inf prec emax)) with (f_inf prec emax). change (wfinite (W := FloatOrd prec emax) (root x) = true). apply finite_lt_inf. apply finite_lt_inf in H.
    unfold f_root. destruct (f_le zero x) eqn:E; [|discriminate]. apply pos_cases in E as [E|[F Hr]]; [contradiction|].
    unfold f_sqrt. rewrite val_without by (eapply rounds_not_nan, sqrt_rounds; auto). intro E. pose proof (sqrt_finite (val x) F Hr) as K. rewrite E in K. discriminate.
  Qed.

  (** The machine's computation of squared distances produces no NaN: it is the model's. *)
  Notation C := (FloatCoord prec emax prec_pos prec_lt).
  Lemma square_val (a b : number) : f_finite prec emax a = true -> f_finite prec emax b = true ->
    let d := @csub C a b in val d = Bminus mode_NE (val a) (val b) /\ val (@cmul C d d) = Bmult mode_NE (val d) (val d).
  Proof.
    intros Fa Fb d. assert (E : val d = Bminus mode_NE (val a) (val b)) by (apply val_without; eapply rounds_not_nan, minus_rounds; auto).
    split; auto. apply val_without. pose proof (proj2_sig d) as Hn. cbn beta in Hn. destruct (raw_cases prec emax (val d) Hn) as [->|[->|F]]; auto.
    eapply rounds_not_nan, mult_rounds; auto.
  Qed.
  Lemma sum_val (a b : number) : f_le zero a = true -> f_le zero b = true -> val (@cadd C a b) = Bplus mode_NE (val a) (val b).
  Proof.
    intros Ha Hb. apply val_without. apply pos_cases in Ha as [->|[Fa _]], Hb as [Eb|[Fb _]].
    - rewrite Eb. auto.
    - unfold f_finite in Fb. destruct (val b); auto; discriminate.
    - rewrite Eb. unfold f_finite in Fa. destruct (val a); auto; discriminate.
    - eapply rounds_not_nan, plus_rounds; auto.
  Qed.

  Lemma square_pos (a b : number) : f_finite prec emax a = true -> f_finite prec emax b = true ->
    f_le zero (@cmul C (@csub C a b) (@csub C a b)) = true.
  Proof.
    intros Fa Fb. destruct (square_val a b Fa Fb) as [_ E]. set (d := @csub C a b) in *. rewrite le_fle, E.
    pose proof (proj2_sig d) as Hn. cbn beta in Hn. destruct (raw_cases prec emax (val d) Hn) as [->|[->|F]]; try (right; left; reflexivity).
    apply (rounds_mono prec emax prec_pos _ _ 0 (B2R (val d) * B2R (val d))); [nra|apply rounds_zero; auto|apply mult_rounds; auto].
  Qed.

  Lemma rdist_val (n_features : nat) (x y : nat -> number) :
    (forall i, f_finite prec emax (x i) = true) -> (forall i, f_finite prec emax (y i) = true) ->
    val (rdist (C := C) n_features x y) = raw_rdist prec emax prec_pos prec_lt n_features (fun i => val (x i)) (fun i => val (y i)).
  Proof.
    intros Fx Fy. unfold rdist, raw_rdist. cbv zeta.
    enough (H : forall l (acc : number), f_le zero acc = true ->
      val (fold_left (fun result i => @cadd C result (@cmul C (@csub C (x i) (y i)) (@csub C (x i) (y i)))) l acc) =
      fold_left (fun result i => Bplus mode_NE result (Bmult mode_NE (Bminus mode_NE (val (x i)) (val (y i))) (Bminus mode_NE (val (x i)) (val (y i))))) l (val acc)).
    { apply (H _ zero). reflexivity. }
    induction l as [|i l IH]; intros acc Ha; [reflexivity|]. cbn [fold_left].
    pose proof (square_pos (x i) (y i) (Fx i) (Fy i)) as Hs. destruct (square_val (x i) (y i) (Fx i) (Fy i)) as [E1 E2].
    set (d := @csub C (x i) (y i)) in *. set (q := @cmul C d d) in *. rewrite IH.
    - f_equal. rewrite <- E1, <- E2. apply sum_val; auto.
    - assert (H0 := @cadd_mono C zero acc zero q (wle_refl _) Ha (wle_refl _) Hs). destruct (@cadd_zero_l C zero (wle_refl _)) as [_ H1].
      exact (@wle_trans C _ _ _ H1 H0).
  Qed.
End Root.

(** ** Densities *)
Notation dval := (@proj1_sig (binary_float 53 1024) (fun x => is_nan x = false)).
Definition Double : WOrd := FloatOrd 53 1024.
Definition Single : WOrd := FloatOrd 24 128.

Lemma dle_trans x y z : dle x y = true -> dle y z = true -> dle x z = true.
Proof. exact (@wle_trans Double x y z). Qed.
Lemma dle_total x y : dle x y = false -> dle y x = true.
Proof. intro H. destruct (@wle_total Double x y) as [E|E]; auto. change (dle x y = true) in E. congruence. Qed.

Lemma stored_mono x y : dle x y = true -> dle (stored_single x) (stored_single y) = true.
Proof.
  unfold dle, stored_single. rewrite !le_fle, !val_without by (apply convert_not_nan, convert_not_nan, proj2_sig).
  intro H. apply convert_mono, convert_mono; auto.
Qed.
Lemma stored_zero : stored_single dzero = dzero.
Proof. apply number_eq. reflexivity. Qed.
Lemma stored_one : stored_single done = done.
Proof. apply number_eq. apply B2SF_inj. vm_compute. reflexivity. Qed.
Lemma stored_inf : stored_single dinf = dinf.
Proof. apply number_eq. reflexivity. Qed.
Lemma widened_mono x y : f_le 24 128 x y = true -> dle (widened x) (widened y) = true.
Proof.
  unfold dle, widened. rewrite !le_fle, !val_without by (apply convert_not_nan, proj2_sig). apply convert_mono.
Qed.

Lemma one_R : B2R (dval done) = 1.
Proof. change (dval done) with (Bone (prec := 53) (emax := 1024)). apply Bone_correct. Qed.
Lemma one_finite : is_finite (dval done) = true.
Proof. vm_compute. reflexivity. Qed.

Lemma pos_split (x : double) : dle x dzero = false -> dval x = B754_infinity false \/ (f_finite 53 1024 x = true /\ 0 < B2R (dval x)).
Proof.
  intro H. pose proof (dle_total _ _ H) as H'. destruct (pos_cases 53 1024 x H') as [E|[F Hr]]; auto. right. split; auto.
  destruct (Rle_lt_or_eq_dec _ _ Hr) as [|E]; auto. exfalso. assert (K : dle x dzero = true) by (apply (finite_le 53 1024 x dzero F eq_refl); cbn; lra). congruence.
Qed.

Lemma ddiv_inf (a b : double) : f_finite 53 1024 a = true -> dval b = B754_infinity false -> dle (ddiv a b) dzero = true /\ dle dzero (ddiv a b) = true.
Proof.
  intros F E. unfold ddiv, f_div, f_finite in *. rewrite E. destruct (dval a) as [s|s| |s m ex B]; try discriminate; destruct s; split; reflexivity.
Qed.
Lemma ddiv_rounds (a b : double) : f_finite 53 1024 a = true -> 0 < B2R (dval b) -> rounds_to 53 1024 (Bdiv mode_NE (dval a) (dval b)) (B2R (dval a) / B2R (dval b)).
Proof. intros F H. apply div_rounds; auto; lra. Qed.

Lemma inverse_anti (x y : double) : dle x dzero = false -> dle x y = true -> dle (ddiv done y) (ddiv done x) = true.
Proof.
  intros Hx Hxy. assert (Hy : dle y dzero = false).
  { destruct (dle y dzero) eqn:E; auto. rewrite (dle_trans _ _ _ Hxy E) in Hx. discriminate. }
  destruct (pos_split y Hy) as [Ey|[Fy Ry]].
  - eapply dle_trans; [apply (ddiv_inf done y one_finite Ey)|]. destruct (pos_split x Hx) as [Ex|[Fx Rx]].
    + apply (ddiv_inf done x one_finite Ex).
    + eapply (rounds_le_l 53 1024 pos53); [reflexivity| |apply ddiv_rounds; auto using one_finite]. rewrite one_R. cbn. apply Rlt_le, Rdiv_lt_0_compat; lra.
  - destruct (pos_split x Hx) as [Ex|[Fx Rx]].
    + exfalso. unfold dle, M_Float.f_le in Hxy. rewrite Ex in Hxy. apply inf_leb in Hxy. unfold f_finite in Fy. rewrite Hxy in Fy. discriminate.
    + assert (H := Hxy). apply (finite_le 53 1024 x y Fx Fy) in H.
      eapply (rounds_le 53 1024 pos53); [|apply ddiv_rounds; auto using one_finite|apply ddiv_rounds; auto using one_finite].
      rewrite one_R. unfold Rdiv. rewrite !Rmult_1_l. apply Rinv_le; auto.
Qed.

Lemma inverse_pos (x : double) : dle x dzero = false -> dle dzero (ddiv done x) = true.
Proof.
  intro H. destruct (pos_split x H) as [Ex|[Fx Rx]]; [apply (ddiv_inf done x one_finite Ex)|].
  eapply (rounds_le_l 53 1024 pos53); [reflexivity| |apply ddiv_rounds; auto using one_finite]. rewrite one_R. cbn. apply Rlt_le, Rdiv_lt_0_compat; lra.
Qed.

Lemma float_lambda_anti x y : dle x y = true -> dle (float_lambda y) (float_lambda x) = true.
Proof.
  intro H. unfold float_lambda. destruct (dle x dzero) eqn:Ex; [apply le_inf|].
  replace (dle y dzero) with false; [apply stored_mono, inverse_anti; auto|].
  symmetry. destruct (dle y dzero) eqn:E; auto. rewrite (dle_trans _ _ _ H E) in Ex. discriminate.
Qed.
Lemma float_lambda_pos x : dle dzero (float_lambda x) = true.
Proof.
  unfold float_lambda. destruct (dle x dzero) eqn:Ex; [reflexivity|]. rewrite <- stored_zero. apply stored_mono, inverse_pos; auto.
Qed.

(** ** Densities of float32 distances *)
Definition two128 : double := exist _ (@B754_finite 53 1024 false 4503599627370496 76 eq_refl) eq_refl.
Definition two_128 : double := exist _ (@B754_finite 53 1024 false 4503599627370496 (-180) eq_refl) eq_refl.

Lemma widened_bound (x : single) : wfinite (W := Single) x = true -> dle (widened x) two128 = true.
Proof.
  intro H. apply finite_lt_inf in H; auto. destruct (raw_cases 24 128 (proj1_sig x) (proj2_sig x)) as [E|[E|F]]; [|contradiction|].
  - unfold widened. rewrite E. reflexivity.
  - eapply (rounds_le_r 53 1024 pos53); [reflexivity| |apply convert_rounds; auto; typeclasses eauto].
    pose proof (abs_B2R_lt_emax _ _ (proj1_sig x)) as A. apply Rabs_lt_inv in A. cbn in A |- *. unfold F2R. cbn. lra.
Qed.

Lemma float_lambda_finite (x : single) : wfinite (W := Single) x = true -> dle (float_lambda (widened x)) dzero = false.
Proof.
  intro H. apply widened_bound in H. unfold float_lambda. destruct (dle (widened x) dzero) eqn:E; [reflexivity|].
  destruct (dle (stored_single _) dzero) eqn:E'; auto. exfalso.
  assert (K : dle two_128 (ddiv done (widened x)) = true).
  { eapply dle_trans; [|apply inverse_anti; [exact E|exact H]]. vm_compute. reflexivity. }
  apply stored_mono in K. assert (K' := dle_trans _ _ _ K E'). revert K'. vm_compute. discriminate.
Qed.
