(** Stabilities in float32 respect zero and the sign. *)
From Coq Require Import List Arith Bool ZArith Reals Lia Lra.
From Flocq Require Import Core.Core IEEE754.BinarySingleNaN.
From Verif Require Import Prelude Order Size Coord M_Select S_Pipeline M_Float P_Float P_FloatOrd P_FloatLaws M_FloatRun.
Import ListNotations.
Local Open Scope R_scope.

Notation raw32 := (binary_float 24 128).
Notation fle32 := (fle 24 128).
Notation rounds32 := (rounds_to 24 128).
Definition score_zero (x : raw32) : Prop := is_finite x = true /\ B2R x = 0.
Definition score_nonneg (x : raw32) : Prop := x = B754_infinity false \/ (is_finite x = true /\ 0 <= B2R x).
Definition score_pos (x : raw32) : Prop := x = B754_infinity false \/ (is_finite x = true /\ 0 < B2R x).

Lemma pos_up (x y : raw32) : score_pos x -> fle32 x y -> score_pos y.
Proof.
  intros [->|[F H]] [E|[->|(F1 & F2 & K)]]; try (left; reflexivity); try discriminate; try (subst; discriminate).
  right. split; auto. lra.
Qed.
Lemma nonneg_up (x y : raw32) : score_nonneg x -> fle32 x y -> score_nonneg y.
Proof.
  intros [->|[F H]] [E|[->|(F1 & F2 & K)]]; try (left; reflexivity); try discriminate; try (subst; discriminate).
  right. split; auto. lra.
Qed.
Lemma inf_plus (y : raw32) : score_nonneg y -> Bplus mode_NE (B754_infinity false) y = B754_infinity false.
Proof. intros [->|[F _]]; [reflexivity|]. destruct y; auto; discriminate. Qed.
Lemma plus_inf (y : raw32) : score_nonneg y -> Bplus mode_NE y (B754_infinity false) = B754_infinity false.
Proof. intros [->|[F _]]; [reflexivity|]. destruct y; auto; discriminate. Qed.
Lemma pos_nonneg (x : raw32) : score_pos x -> score_nonneg x.
Proof. intros [->|[F H]]; [left|right]; auto. split; auto. lra. Qed.
Lemma zero_nonneg (x : raw32) : score_zero x -> score_nonneg x.
Proof. intros [F H]. right. split; auto. lra. Qed.

Lemma plus_up_r (x y : raw32) : score_nonneg x -> score_nonneg y -> fle32 y (Bplus mode_NE x y).
Proof.
  intros Hx Hy. destruct Hx as [->|[Fx Rx]]; [rewrite inf_plus by auto; right; left; auto|].
  destruct Hy as [->|[Fy Ry]]; [rewrite plus_inf by (right; auto); right; left; auto|].
  apply (rounds_mono 24 128 pos24 _ _ (B2R y) (B2R x + B2R y)); [lra|apply rounds_self; auto; apply pos24|apply plus_rounds; auto].
Qed.
Lemma plus_up_l (x y : raw32) : score_nonneg x -> score_nonneg y -> fle32 x (Bplus mode_NE x y).
Proof.
  intros Hx Hy. destruct Hx as [->|[Fx Rx]]; [rewrite inf_plus by auto; right; left; auto|].
  destruct Hy as [->|[Fy Ry]]; [rewrite plus_inf by (right; auto); right; left; auto|].
  apply (rounds_mono 24 128 pos24 _ _ (B2R x) (B2R x + B2R y)); [lra|apply rounds_self; auto; apply pos24|apply plus_rounds; auto].
Qed.

(** ** Sizes *)
Lemma of_nat_ge_1 (k : nat) : (1 <= k)%nat -> f_finite 24 128 (of_nat 24 128 pos24 lt24 k) = true /\ 1 <= B2R (proj1_sig (of_nat 24 128 pos24 lt24 k)).
Proof.
  intro Hk. unfold of_nat. set (z := binary_normalize _ _ _ _ _ _ _ _). cbv zeta. destruct (is_finite z) eqn:F.
  - unfold f_finite. rewrite val_without by (destruct z; auto; discriminate). split; auto.
    pose proof (binary_normalize_correct 24 128 pos24 lt24 mode_NE (Z.of_nat k) 0 false) as H. fold z in H. cbv zeta in H. cbn [round_mode] in H.
    destruct (Rlt_bool_spec (Rabs (round radix2 (SpecFloat.fexp 24 128) ZnearestE (F2R (Float radix2 (Z.of_nat k) 0)))) (bpow radix2 128)) as [Hr|Hr].
    + destruct H as (-> & _ & _).
      assert (E1 : round radix2 (SpecFloat.fexp 24 128) ZnearestE 1 = 1).
      { rewrite <- (Bone_correct 24 128 pos24 lt24) at 1. rewrite (rnd_B2R 24 128). apply Bone_correct. }
      rewrite <- E1. apply rnd_le; [apply pos24|]. unfold F2R. cbn. rewrite Rmult_1_r. apply IZR_le. lia.
    + apply overflow_inf in H. rewrite H in F. discriminate.
  - split; [vm_compute; reflexivity|]. unfold f_one. rewrite val_without by (vm_compute; reflexivity). rewrite (Bone_correct 24 128 pos24 lt24). lra.
Qed.

(** ** Densities *)
Notation to32 x := (convert 24 128 pos24 lt24 x).
Notation to64 x := (convert 53 1024 pos53 lt53 x).
Definition tiny32 : raw32 := @B754_finite 24 128 false 1 (-149) eq_refl.
Definition tiny64 : binary_float 53 1024 := @B754_finite 53 1024 false 4503599627370496 (-201) eq_refl.

Lemma pos_tiny (x : raw32) : is_finite x = true -> 0 < B2R x -> B2R tiny32 <= B2R x.
Proof.
  intros F H. replace (B2R tiny32) with (bpow radix2 (SpecFloat.emin 24 128)).
  - replace (B2R x) with (Rabs (B2R x)) by (apply Rabs_pos_eq; lra). apply abs_B2R_ge_emin. apply is_finite_strict_B2R. lra.
  - cbn. unfold F2R. cbn. lra.
Qed.
Lemma same_tiny : B2R tiny64 = B2R tiny32.
Proof. cbn. unfold F2R. cbn. lra. Qed.

(** A positive density stays positive as a float32 number. *)
Lemma density_pos (d : double) : dle (float_lambda d) dzero = false -> score_pos (to32 (dval (float_lambda d))).
Proof.
  intro H. unfold float_lambda in *. destruct (dle d dzero); [left; reflexivity|].
  set (v := ddiv done d) in *. set (y := to32 (dval v)).
  assert (Ny : is_nan y = false) by (apply convert_not_nan, proj2_sig).
  assert (Ev : dval (stored_single v) = to64 y).
  { unfold stored_single. apply val_without. apply convert_not_nan; auto. }
  assert (Hy : score_pos y).
  { destruct (raw_cases 24 128 y Ny) as [E|[E|F]]; [|left; auto|].
    - exfalso. assert (K : dle (stored_single v) dzero = true); [|congruence]. apply le_fle. rewrite Ev, E. left. reflexivity.
    - right. split; auto. destruct (Rle_or_lt (B2R y) 0) as [K|K]; auto. exfalso.
      assert (K' : dle (stored_single v) dzero = true); [|congruence]. apply le_fle. rewrite Ev.
      apply (convert_mono 24 128 53 1024 pos53 lt53 y (B754_zero false)). right. right. split; auto. }
  rewrite Ev. apply (pos_up tiny32); [right; split; auto; cbn; unfold F2R; cbn; lra|].
  apply (fle_trans 24 128 _ (to32 tiny64)).
  - apply (rounds_mono 24 128 pos24 _ _ (B2R tiny32) (B2R tiny64)); [rewrite same_tiny; lra|apply rounds_self; auto; apply pos24|apply convert_rounds; auto].
  - apply convert_mono. destruct Hy as [->|[F R]]; [right; left; reflexivity|].
    apply (rounds_mono 53 1024 pos53 _ _ (B2R tiny64) (B2R y)); [rewrite same_tiny; apply pos_tiny; auto|apply rounds_self; auto; apply pos53|apply convert_rounds; auto].
Qed.

Lemma ltb_pos (x y : raw32) : score_nonneg x -> Bltb x y = true -> score_pos y.
Proof.
  intros Hx H. destruct (is_nan y) eqn:Ny.
  { destruct y; try discriminate. destruct x as [[]|[]| |[]]; discriminate. }
  destruct (raw_cases 24 128 y Ny) as [->|[->|Fy]]; [|left; auto|].
  - destruct x as [[]|[]| |[]]; discriminate.
  - destruct Hx as [->|[Fx Rx]]; [destruct y as [[]|[]| |[]]; discriminate|]. rewrite Bltb_correct in H by auto.
    destruct (Rlt_bool_spec (B2R x) (B2R y)); [|discriminate]. right. split; auto. lra.
Qed.
Lemma not_ltb_pos (x y : raw32) : score_nonneg x -> score_pos y -> Bltb x y = false -> score_pos x.
Proof.
  intros [->|[Fx Rx]] Hy H; [left; auto|]. destruct Hy as [->|[Fy Ry]].
  - exfalso. destruct x as [[]|[]| |[]]; discriminate.
  - rewrite Bltb_correct in H by auto. destruct (Rlt_bool_spec (B2R x) (B2R y)); [discriminate|]. right. split; auto. lra.
Qed.

Lemma zero_value (x : raw32) r : rounds32 x r -> r = 0 -> score_zero x.
Proof.
  intros H ->. unfold rounds_to in H. rewrite (rnd_0 24 128) in H. destruct H as [[F E]|[[_ H]|[_ H]]]; [split; auto| |]; exfalso; revert H; cbn; lra.
Qed.

Lemma float_score_laws : ScoreLaws (float_lambda : Double -> Double) (float_scores : Arith Double NatSize) (dzero : Double) score_zero score_nonneg score_pos.
Proof.
  constructor; cbn [num num_zero num_add num_opp num_mul num_lt float_scores].
  - split; reflexivity.
  - intros l s H1 H2 Hs. change (dle l dzero = true) in H1. change (dle dzero l = true) in H2. apply Nat.leb_le in Hs.
    destruct (of_nat_ge_1 s Hs) as [Fs Rs]. unfold f_finite in Fs.
    assert (F : is_finite (dval l) = true /\ B2R (dval l) = 0).
    { apply le_fle in H1, H2. destruct H2 as [E|[E|(_ & F & K)]]; [discriminate| |].
      - rewrite E in H1. destruct H1 as [?|[?|(? & _)]]; discriminate.
      - destruct H1 as [E|[E|(_ & _ & K')]]; [rewrite E in F; discriminate|discriminate|]. cbn in *. split; auto. lra. }
    destruct F as [F R]. pose proof (convert_rounds 53 1024 24 128 pos24 lt24 (dval l) F) as K. rewrite R in K.
    destruct (zero_value _ _ K eq_refl) as [F0 R0]. eapply zero_value; [apply mult_rounds; auto|]. rewrite R0. ring.
  - intros d s H Hs. apply Nat.leb_le in Hs. destruct (of_nat_ge_1 s Hs) as [Fs Rs]. unfold f_finite in Fs.
    assert (Hd : dle (float_lambda d) dzero = false) by (unfold wlt in H; apply negb_true_iff in H; exact H).
    pose proof (density_pos d Hd) as Hp. set (x := to32 (dval (float_lambda d))) in *. set (k := proj1_sig (of_nat 24 128 pos24 lt24 s)) in *.
    destruct Hp as [->|[Fx Rx]].
    + left. clear - Fs Rs. destruct k as [s0|s0| |[] m e B]; try discriminate; auto.
      * exfalso. cbn in Rs. lra.
      * exfalso. cbn in Rs. pose proof (F2R_lt_0 radix2 (Float radix2 (Z.neg m) e) eq_refl). lra.
    + apply (pos_up x); [right; auto|]. apply (rounds_mono 24 128 pos24 _ _ (B2R x) (B2R x * B2R k)); [nra|apply rounds_self; auto; apply pos24|apply mult_rounds; auto].
  - intros x [F R]. split; [rewrite is_finite_Bopp; auto|]. rewrite B2R_Bopp, R. ring.
  - intros x y [Fx Rx] [Fy Ry]. eapply zero_value; [apply plus_rounds; auto|]. lra.
  - intros x y Hx Hy. eapply nonneg_up; [exact Hx|]. apply plus_up_l; auto.
  - intros x y Hx Hy. eapply pos_up; [exact Hx|]. apply plus_up_l; auto using pos_nonneg.
  - intros x y Hx Hy. eapply pos_up; [exact Hy|]. apply plus_up_r; auto using pos_nonneg.
  - exact zero_nonneg.
  - exact pos_nonneg.
  - intros x [->|[F R]]; [reflexivity|]. rewrite Bltb_correct by auto. cbn. destruct (Rlt_bool_spec (B2R x) 0); auto. lra.
  - exact ltb_pos.
  - exact not_ltb_pos.
  - intros x y [Fx Rx] [->|[Fy Ry]]; [destruct x as [[]|[]| |[]]; try discriminate; auto|].
    rewrite Bltb_correct by auto. destruct (Rlt_bool_spec (B2R x) (B2R y)); auto. lra.
Qed.

(** The density of an infinite distance is zero. *)
Lemma infinite_density : float_lambda dinf = dzero.
Proof. apply number_eq. vm_compute. reflexivity. Qed.
