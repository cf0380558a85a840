(** IEEE 754 numbers satisfy the laws that the theorems ask of coordinates,
    densities and strengths. *)
From Coq Require Import List Arith Bool ZArith Reals Lia Lra Eqdep_dec.
From Flocq Require Import Core.Core IEEE754.BinarySingleNaN.
From Verif Require Import Prelude Order Coord M_Float.
Import ListNotations.
Local Open Scope R_scope.

Section Float.
  Variables (prec emax : Z).
  Context (prec_pos : Prec_gt_0 prec) (prec_lt : Prec_lt_emax prec emax).
  Notation raw := (binary_float prec emax).
  Notation number := (number prec emax).
  Notation rnd := (round radix2 (SpecFloat.fexp prec emax) ZnearestE).
  Notation top := (bpow radix2 emax).

  Global Instance fexp_ok : Valid_exp (SpecFloat.fexp prec emax) := fexp_correct prec emax prec_pos.

  Lemma rnd_le x y : x <= y -> rnd x <= rnd y.
  Proof. apply round_le; auto with typeclass_instances. Qed.
  Lemma rnd_0 : rnd 0 = 0.
  Proof. apply round_0; auto with typeclass_instances. Qed.
  Lemma rnd_pos x : 0 <= x -> 0 <= rnd x.
  Proof. intro H. rewrite <- rnd_0. now apply rnd_le. Qed.
  Lemma rnd_neg x : x <= 0 -> rnd x <= 0.
  Proof. intro H. rewrite <- rnd_0. now apply rnd_le. Qed.
  Lemma rnd_opp x : rnd (- x) = - rnd x.
  Proof. apply round_NE_opp. Qed.
  Lemma rnd_B2R (x : raw) : rnd (B2R x) = B2R x.
  Proof. apply round_generic; auto with typeclass_instances. apply generic_format_B2R. Qed.
  Lemma top_pos : 0 < top.
  Proof. apply bpow_gt_0. Qed.

  (** The order of raw numbers that are not NaN. *)
  Definition fle (x y : raw) : Prop :=
    x = B754_infinity true \/ y = B754_infinity false \/ (is_finite x = true /\ is_finite y = true /\ B2R x <= B2R y).
  Lemma raw_cases (x : raw) : is_nan x = false -> x = B754_infinity true \/ x = B754_infinity false \/ is_finite x = true.
  Proof. destruct x as [s|[]| |s m e H]; cbn; auto; discriminate. Qed.
  Lemma leb_neginf (y : raw) : is_nan y = false -> Bleb (B754_infinity true) y = true.
  Proof. destruct y as [s|[]| |[] m e H]; auto; discriminate. Qed.
  Lemma leb_inf (x : raw) : is_nan x = false -> Bleb x (B754_infinity false) = true.
  Proof. destruct x as [s|[]| |[] m e H]; auto; discriminate. Qed.
  Lemma inf_leb (y : raw) : Bleb (B754_infinity false) y = true -> y = B754_infinity false.
  Proof. destruct y as [s|[]| |[] m e H]; auto; discriminate. Qed.
  Lemma leb_ninf (x : raw) : Bleb x (B754_infinity true) = true -> x = B754_infinity true.
  Proof. destruct x as [s|[]| |[] m e H]; auto; discriminate. Qed.
  Lemma Bleb_fle (x y : raw) : is_nan x = false -> is_nan y = false -> (Bleb x y = true <-> fle x y).
  Proof.
    intros Hx Hy. unfold fle. destruct (raw_cases x Hx) as [->|[->|Fx]].
    - split; auto. intros _. now apply leb_neginf.
    - split.
      + intro H. apply inf_leb in H. auto.
      + intros [H|[->|[H _]]]; try discriminate. reflexivity.
    - destruct (raw_cases y Hy) as [->|[->|Fy]].
      + split; [intro H; apply leb_ninf in H; auto|]. intros [->|[H|[_ [H _]]]]; try discriminate; reflexivity.
      + split; auto. intros _. now apply leb_inf.
      + rewrite Bleb_correct by auto. destruct (Rle_bool_spec (B2R x) (B2R y)).
        * split; auto.
        * split; [discriminate|]. intros [->|[->|[_ [_ H']]]]; try discriminate. lra.
  Qed.
  Lemma fle_refl x : is_nan x = false -> fle x x.
  Proof. intro Hx. destruct (raw_cases x Hx) as [->|[->|F]]; unfold fle; auto. right. right. repeat split; auto. lra. Qed.
  Lemma fle_total x y : is_nan x = false -> is_nan y = false -> fle x y \/ fle y x.
  Proof.
    intros Hx Hy. unfold fle. destruct (raw_cases x Hx) as [->|[->|Fx]]; auto. destruct (raw_cases y Hy) as [->|[->|Fy]]; auto.
    destruct (Rle_or_lt (B2R x) (B2R y)); [left|right]; right; right; repeat split; auto. lra.
  Qed.
  Lemma fle_trans x y z : fle x y -> fle y z -> fle x z.
  Proof.
    unfold fle. intros [->|[->|(F1 & F2 & H1)]]; auto.
    - intros [H|[->|[H _]]]; auto; discriminate.
    - intros [->|[->|(F3 & F4 & H2)]]; auto; try discriminate. right. right. repeat split; auto. lra.
  Qed.

  (** [z] is what rounding the real number [r] gives. *)
  Definition rounds_to (z : raw) (r : R) : Prop :=
    (is_finite z = true /\ B2R z = rnd r) \/ (z = B754_infinity false /\ top <= rnd r) \/ (z = B754_infinity true /\ rnd r <= - top).
  Lemma rounds_mono z1 z2 r1 r2 : r1 <= r2 -> rounds_to z1 r1 -> rounds_to z2 r2 -> fle z1 z2.
  Proof.
    intros H H1 H2. apply rnd_le in H. unfold fle. pose proof (abs_B2R_lt_emax _ _ z1) as A1. pose proof (abs_B2R_lt_emax _ _ z2) as A2. apply Rabs_lt_inv in A1, A2. pose proof top_pos.
    destruct H1 as [(F1 & E1)|[(-> & E1)|(-> & E1)]], H2 as [(F2 & E2)|[(-> & E2)|(-> & E2)]]; auto; try (exfalso; lra).
    right. right. repeat split; auto. lra.
  Qed.
  Lemma rounds_not_nan z r : rounds_to z r -> is_nan z = false.
  Proof. intros [(F & _)|[(-> & _)|(-> & _)]]; auto. destruct z; auto; discriminate. Qed.
  Lemma rounds_self (x : raw) : is_finite x = true -> rounds_to x (B2R x).
  Proof. intro F. left. split; auto. now rewrite rnd_B2R. Qed.
  Lemma rounds_zero s : rounds_to (B754_zero s) 0.
  Proof. left. split; auto. cbn. now rewrite rnd_0. Qed.

  Lemma sign_true (x : raw) : Bsign x = true -> B2R x <= 0.
  Proof. destruct x as [s|s| |s m e H]; cbn; try lra. intros ->. unfold F2R. cbn [Fnum Fexp]. pose proof (bpow_gt_0 radix2 e). assert (IZR (Z.neg m) <= 0) by (apply IZR_le; lia). cbn [cond_Zopp Z.opp]. nra. Qed.
  Lemma sign_false (x : raw) : Bsign x = false -> 0 <= B2R x.
  Proof. destruct x as [s|s| |s m e H]; cbn; try lra. intros ->. unfold F2R. cbn [Fnum Fexp]. pose proof (bpow_gt_0 radix2 e). assert (0 <= IZR (Z.pos m)) by (apply IZR_le; lia). cbn [cond_Zopp Z.opp]. nra. Qed.
  Lemma overflow_inf (z : raw) s : B2SF z = binary_overflow prec emax mode_NE s -> z = B754_infinity s.
  Proof. destruct z as [s'|s'| |s' m e H]; cbn; try discriminate. now intros [= ->]. Qed.
  Lemma beyond r : top <= Rabs (rnd r) -> (r <= 0 -> rnd r <= - top) /\ (0 <= r -> top <= rnd r).
  Proof.
    intro H. split; intro Hr; [apply rnd_neg in Hr; rewrite Rabs_left1 in H by auto; lra|apply rnd_pos in Hr; rewrite Rabs_pos_eq in H by auto; lra].
  Qed.

  Lemma minus_rounds (x y : raw) : is_finite x = true -> is_finite y = true -> rounds_to (Bminus mode_NE x y) (B2R x - B2R y).
  Proof.
    intros Fx Fy. pose proof (Bminus_correct prec emax prec_pos prec_lt mode_NE x y Fx Fy) as H. cbn [round_mode] in H.
    destruct (Rlt_bool_spec (Rabs (rnd (B2R x - B2R y))) top) as [_|Hb].
    - destruct H as (E & F & _). now left.
    - destruct H as [E Hs]. apply overflow_inf in E. apply beyond in Hb as [B1 B2]. right. destruct (Bsign x) eqn:Sx.
      + right. split; auto. apply B1. apply sign_true in Sx. destruct (Bsign y) eqn:Sy; [discriminate|]. apply sign_false in Sy. lra.
      + left. split; auto. apply B2. apply sign_false in Sx. destruct (Bsign y) eqn:Sy; [|discriminate]. apply sign_true in Sy. lra.
  Qed.
  Lemma plus_rounds (x y : raw) : is_finite x = true -> is_finite y = true -> rounds_to (Bplus mode_NE x y) (B2R x + B2R y).
  Proof.
    intros Fx Fy. pose proof (Bplus_correct prec emax prec_pos prec_lt mode_NE x y Fx Fy) as H. cbn [round_mode] in H.
    destruct (Rlt_bool_spec (Rabs (rnd (B2R x + B2R y))) top) as [_|Hb].
    - destruct H as (E & F & _). now left.
    - destruct H as [E Hs]. apply overflow_inf in E. apply beyond in Hb as [B1 B2]. right. destruct (Bsign x) eqn:Sx.
      + right. split; auto. apply B1. apply sign_true in Sx. symmetry in Hs. apply sign_true in Hs. lra.
      + left. split; auto. apply B2. apply sign_false in Sx. symmetry in Hs. apply sign_false in Hs. lra.
  Qed.
  Lemma mult_rounds (x y : raw) : is_finite x = true -> is_finite y = true -> rounds_to (Bmult mode_NE x y) (B2R x * B2R y).
  Proof.
    intros Fx Fy. pose proof (Bmult_correct prec emax prec_pos prec_lt mode_NE x y) as H. cbn [round_mode] in H.
    destruct (Rlt_bool_spec (Rabs (rnd (B2R x * B2R y))) top) as [_|Hb].
    - destruct H as (E & F & _). left. rewrite F, Fx, Fy. auto.
    - apply overflow_inf in H. apply beyond in Hb as [B1 B2]. right. rewrite H.
      destruct (Bsign x) eqn:Sx, (Bsign y) eqn:Sy; cbn [xorb]; [left|right|right|left]; split; auto;
        (apply B1 || apply B2); try apply sign_true in Sx; try apply sign_true in Sy; try apply sign_false in Sx; try apply sign_false in Sy; nra.
  Qed.
  Lemma div_rounds (x y : raw) : is_finite x = true -> B2R y <> 0 -> rounds_to (Bdiv mode_NE x y) (B2R x / B2R y).
  Proof.
    intros Fx Hy. pose proof (Bdiv_correct prec emax prec_pos prec_lt mode_NE x y Hy) as H. cbn [round_mode] in H.
    destruct (Rlt_bool_spec (Rabs (rnd (B2R x / B2R y))) top) as [_|Hb].
    - destruct H as (E & F & _). left. rewrite F, Fx. auto.
    - apply overflow_inf in H. apply beyond in Hb as [B1 B2]. right. rewrite H.
      assert (Hp : B2R y > 0 -> 0 < / B2R y) by (intro; apply Rinv_0_lt_compat; lra). assert (Hn : B2R y < 0 -> / B2R y < 0) by (intro; now apply Rinv_lt_0_compat).
      destruct (Bsign x) eqn:Sx, (Bsign y) eqn:Sy; cbn [xorb]; [left|right|right|left]; split; auto;
        (apply B1 || apply B2); unfold Rdiv; try apply sign_true in Sx; try apply sign_true in Sy; try apply sign_false in Sx; try apply sign_false in Sy; nra.
  Qed.
End Float.
