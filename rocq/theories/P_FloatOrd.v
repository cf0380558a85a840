(** Orders, coordinates and densities of IEEE 754 numbers. *)
From Coq Require Import List Arith Bool ZArith Reals Lia Lra Eqdep_dec.
From Flocq Require Import Core.Core IEEE754.BinarySingleNaN.
From Verif Require Import Prelude Order Coord M_Float P_Float.
Import ListNotations.
Local Open Scope R_scope.

Section Float.
  Variables (prec emax : Z).
  Context (prec_pos : Prec_gt_0 prec) (prec_lt : Prec_lt_emax prec emax).
  Notation raw := (binary_float prec emax).
  Notation number := (number prec emax).
  Notation rnd := (round radix2 (SpecFloat.fexp prec emax) ZnearestE).
  Notation rounds_to := (rounds_to prec emax).
  Notation fle := (fle prec emax).
  Notation val := (@proj1_sig raw (fun x => is_nan x = false)).

  Lemma number_eq (x y : number) : val x = val y -> x = y.
  Proof. destruct x as [x Hx], y as [y Hy]. cbn. intros <-. f_equal. apply UIP_dec, bool_dec. Qed.
  Lemma val_without (z : raw) : is_nan z = false -> val (without_nan prec emax z) = z.
  Proof. intro H. unfold without_nan. generalize (eq_refl (is_nan z)). pattern (is_nan z) at 2 3. rewrite H. reflexivity. Qed.
  Lemma le_fle (x y : number) : f_le prec emax x y = true <-> fle (val x) (val y).
  Proof. apply Bleb_fle; apply proj2_sig. Qed.

  Definition FloatOrd : WOrd.
    refine {| wcar := number; wle := f_le prec emax; winf := f_inf prec emax |}.
    - intros x y. rewrite !le_fle. apply fle_total; apply proj2_sig.
    - intros x y z. rewrite !le_fle. apply fle_trans.
    - intro x. rewrite le_fle. right. left. reflexivity.
  Defined.

  (** Comparisons as real numbers. *)
  Lemma finite_le (x y : number) : f_finite prec emax x = true -> f_finite prec emax y = true -> (f_le prec emax x y = true <-> B2R (val x) <= B2R (val y)).
  Proof.
    unfold f_finite. intros Fx Fy. rewrite le_fle. unfold fle. split; auto. intros [E|[E|(_ & _ & H)]]; auto; [rewrite E in Fx|rewrite E in Fy]; discriminate.
  Qed.
  Lemma pos_cases (x : number) : f_le prec emax (f_zero prec emax) x = true -> val x = B754_infinity false \/ (f_finite prec emax x = true /\ 0 <= B2R (val x)).
  Proof. rewrite le_fle. intros [E|[E|(_ & F & H)]]; auto. discriminate. Qed.
  Lemma le_pos (x y : number) : f_le prec emax (f_zero prec emax) x = true -> f_le prec emax x y = true ->
    val y = B754_infinity false \/ (f_finite prec emax x = true /\ f_finite prec emax y = true /\ 0 <= B2R (val x) <= B2R (val y)).
  Proof.
    intros Hx Hxy. rewrite le_fle in Hxy. destruct Hxy as [E|[E|(F & F' & H)]]; auto.
    - apply pos_cases in Hx as [E'|[F' _]]; [rewrite E in E'; discriminate|unfold f_finite in F'; rewrite E in F'; discriminate].
    - right. apply pos_cases in Hx as [E'|[_ H']]; [rewrite E' in F; discriminate|]. auto.
  Qed.
  Lemma rounds_le (z1 z2 : raw) r1 r2 : r1 <= r2 -> rounds_to z1 r1 -> rounds_to z2 r2 -> f_le prec emax (without_nan prec emax z1) (without_nan prec emax z2) = true.
  Proof.
    intros H H1 H2. rewrite le_fle, !val_without by (eapply rounds_not_nan; eauto). eapply rounds_mono; eauto.
  Qed.
  Lemma rounds_le_l (x : number) (z : raw) r : f_finite prec emax x = true -> B2R (val x) <= r -> rounds_to z r -> f_le prec emax x (without_nan prec emax z) = true.
  Proof. intros F H H1. rewrite le_fle, val_without by (eapply rounds_not_nan; eauto). eapply rounds_mono; eauto. now apply rounds_self. Qed.
  Lemma rounds_le_r (x : number) (z : raw) r : f_finite prec emax x = true -> r <= B2R (val x) -> rounds_to z r -> f_le prec emax (without_nan prec emax z) x = true.
  Proof. intros F H H1. rewrite le_fle, val_without by (eapply rounds_not_nan; eauto). eapply rounds_mono; eauto. now apply rounds_self. Qed.
  Lemma le_inf (x : number) : f_le prec emax x (f_inf prec emax) = true.
  Proof. rewrite le_fle. right. left. reflexivity. Qed.
  Lemma le_val_inf (x y : number) : val y = B754_infinity false -> f_le prec emax x y = true.
  Proof. intro E. rewrite le_fle. right. left. auto. Qed.

  (** Squares. *)
  Lemma square_opp (x y : raw) : is_nan x = false -> (is_finite x = true /\ is_finite y = true /\ B2R y = - B2R x) \/ (is_finite x = false /\ exists s, x = B754_infinity s /\ y = B754_infinity (negb s)) ->
    Bmult mode_NE x x = Bmult mode_NE y y.
  Proof.
    intros Hn [(Fx & Fy & E)|(_ & s & -> & ->)]; [|destruct s; reflexivity].
    pose proof (Bmult_correct prec emax prec_pos prec_lt mode_NE x x) as H1. pose proof (Bmult_correct prec emax prec_pos prec_lt mode_NE y y) as H2.
    replace (B2R y * B2R y) with (B2R x * B2R x) in H2 by (rewrite E; ring). rewrite !xorb_nilpotent in *.
    destruct (Rlt_bool _ _).
    - destruct H1 as (E1 & F1 & S1), H2 as (E2 & F2 & S2). rewrite Fx in F1. rewrite Fy in F2. cbn in F1, F2.
      apply B2R_Bsign_inj; auto; [congruence|]. rewrite S1, S2; auto; [destruct (Bmult mode_NE y y)|destruct (Bmult mode_NE x x)]; auto; discriminate.
    - apply overflow_inf in H1, H2. congruence.
  Qed.
  Lemma minus_opp (a b : raw) : is_finite a = true -> is_finite b = true ->
    (is_finite (Bminus mode_NE a b) = true /\ is_finite (Bminus mode_NE b a) = true /\ B2R (Bminus mode_NE b a) = - B2R (Bminus mode_NE a b)) \/
    (is_finite (Bminus mode_NE a b) = false /\ exists s, Bminus mode_NE a b = B754_infinity s /\ Bminus mode_NE b a = B754_infinity (negb s)).
  Proof.
    intros Fa Fb. pose proof (minus_rounds prec emax prec_pos prec_lt a b Fa Fb) as H1. pose proof (minus_rounds prec emax prec_pos prec_lt b a Fb Fa) as H2.
    unfold P_Float.rounds_to in *.
    replace (B2R b - B2R a) with (- (B2R a - B2R b)) in H2 by ring. rewrite rnd_opp in H2.
    pose proof (abs_B2R_lt_emax _ _ (Bminus mode_NE a b)) as A1. pose proof (abs_B2R_lt_emax _ _ (Bminus mode_NE b a)) as A2. apply Rabs_lt_inv in A1, A2. pose proof (top_pos emax).
    destruct H1 as [(F1 & E1)|[(E1 & T1)|(E1 & T1)]], H2 as [(F2 & E2)|[(E2 & T2)|(E2 & T2)]]; try (exfalso; lra).
    - left. repeat split; auto. lra.
    - right. rewrite E1, E2. split; auto. exists false. auto.
    - right. rewrite E1, E2. split; auto. exists true. auto.
  Qed.

  Definition FloatCoord : Coord.
    refine {| cord := FloatOrd; cneginf := f_neginf prec emax; czero := f_zero prec emax; cadd := f_add prec emax prec_pos prec_lt; csub := f_sub prec emax prec_pos prec_lt;
              cmul := f_mul prec emax prec_pos prec_lt; cnum := fun x : number => f_finite prec emax x = true |}; cbn [wle wcar winf FloatOrd].
    - intros x F. unfold wlt. cbn [wle FloatOrd winf]. unfold f_finite in F. split.
      + destruct (f_le prec emax x (f_neginf prec emax)) eqn:E; auto. rewrite le_fle in E. destruct E as [E|[E|(_ & E & _)]]; try discriminate. rewrite E in F. discriminate.
      + destruct (f_le prec emax (f_inf prec emax) x) eqn:E; auto. rewrite le_fle in E. destruct E as [E|[E|(E & _ & _)]]; try discriminate. rewrite E in F. discriminate.
    - intros a b c Fa Fb Fc H. rewrite finite_le in H by auto. eapply rounds_le; [|apply minus_rounds; auto|apply minus_rounds; auto]. lra.
    - intros a b c Fa Fb Fc H. rewrite finite_le in H by auto. eapply rounds_le; [|apply minus_rounds; auto|apply minus_rounds; auto]. lra.
    - intros a b Fa Fb H. rewrite finite_le in H by auto. eapply rounds_le_l; [reflexivity| |apply minus_rounds; auto]. cbn. lra.
    - intros a Fa. eapply rounds_le_r; [reflexivity| |apply minus_rounds; auto]. cbn. lra.
    - intros a b Fa Fb. apply number_eq. unfold f_mul, f_sub. rewrite !(val_without (Bminus _ _ _)) by (eapply rounds_not_nan, minus_rounds; auto). do 2 f_equal.
      apply square_opp; [eapply rounds_not_nan, minus_rounds; auto|]. now apply minus_opp.
    - intros x y Hx Hxy. destruct (le_pos x y Hx Hxy) as [E|(Fx & Fy & H)].
      + apply le_val_inf. unfold f_mul. rewrite E. reflexivity.
      + eapply rounds_le; [|apply mult_rounds; auto|apply mult_rounds; auto]. nra.
    - split; reflexivity.
    - intros a b c d Ha Hab Hc Hcd. destruct (le_pos a b Ha Hab) as [E|(Fa & Fb & H1)]; [|destruct (le_pos c d Hc Hcd) as [E|(Fc & Fd & H2)]].
      + apply le_val_inf. unfold f_add. rewrite E. destruct (val d) as [s|[]| |s m e H] eqn:Ed; try reflexivity.
      + apply le_val_inf. unfold f_add. rewrite E. destruct (val b) as [s|[]| |s m e H] eqn:Eb; try reflexivity; unfold f_finite in Fb; rewrite Eb in Fb; discriminate.
      + eapply rounds_le; [|apply plus_rounds; auto|apply plus_rounds; auto]. lra.
    - intros x Hx. destruct (pos_cases x Hx) as [E|[F H]].
      + rewrite (number_eq (f_add prec emax prec_pos prec_lt (f_zero prec emax) x) x); [split; rewrite le_fle; apply fle_refl, proj2_sig|]. unfold f_add. rewrite E. reflexivity.
      + pose proof (plus_rounds prec emax prec_pos prec_lt (val (f_zero prec emax)) (val x) eq_refl F) as R. split; [eapply rounds_le_r; [exact F| |exact R]|eapply rounds_le_l; [exact F| |exact R]]; cbn; lra.
    - intros x Hx. destruct (pos_cases x Hx) as [E|[F H]].
      + rewrite (number_eq (f_add prec emax prec_pos prec_lt x (f_zero prec emax)) x); [split; rewrite le_fle; apply fle_refl, proj2_sig|]. unfold f_add. rewrite E. reflexivity.
      + pose proof (plus_rounds prec emax prec_pos prec_lt (val x) (val (f_zero prec emax)) F eq_refl) as R. split; [eapply rounds_le_r; [exact F| |exact R]|eapply rounds_le_l; [exact F| |exact R]]; cbn; lra.
  Defined.
End Float.
