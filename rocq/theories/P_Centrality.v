(** Centralities, and moving the data. *)
From Coq Require Import List Arith Bool ZArith QArith Qcanon Lia.
From Verif Require Import Prelude Order Graph Size Num M_Kruskal M_KruskalEntry S_Kruskal M_Linkage M_Condense M_Select M_Labels M_Pipeline S_Pipeline M_Estimator M_Layers
  M_SubClusters M_LensGraph M_Detector M_Centrality S_Centrality P_Sort P_Estimator P_SubRun P_Detector.
Import ListNotations.
Local Open Scope nat_scope.

(** ** Sums *)
Lemma qsum_cons x l : qsum (x :: l) = (x + qsum l)%Qc.
Proof. reflexivity. Qed.
Section Sums.
  Context {A : Type}.
  Local Open Scope Qc_scope.
  Lemma qsum_ext (f g : A -> Qc) l : (forall x, In x l -> f x = g x) -> qsum (map f l) = qsum (map g l).
  Proof. induction l as [|x l IH]; intro H; auto. cbn [map]. rewrite !qsum_cons, (H x) by (left; auto). f_equal. apply IH. intros y Hy. apply H. right. auto. Qed.
  Lemma qsum_plus (f g : A -> Qc) l : qsum (map (fun x => f x + g x) l) = qsum (map f l) + qsum (map g l).
  Proof. induction l as [|x l IH]; cbn [map]; [cbn; ring|]. rewrite !qsum_cons, IH. ring. Qed.
  Lemma qsum_scale (c : Qc) (f : A -> Qc) l : qsum (map (fun x => c * f x) l) = c * qsum (map f l).
  Proof. induction l as [|x l IH]; cbn [map]; [cbn; ring|]. rewrite !qsum_cons, IH. ring. Qed.
  Lemma qsum_nonneg (f : A -> Qc) l : (forall x, In x l -> 0 <= f x) -> 0 <= qsum (map f l).
  Proof.
    induction l as [|x l IH]; intro H; cbn [map]; [apply Qcle_refl|]. rewrite qsum_cons. replace 0 with (0 + 0) by ring. apply Qcplus_le_compat; [apply H; left; auto|]. apply IH. intros y Hy. apply H. right. auto.
  Qed.
  Lemma qsum_positive (f : A -> Qc) l y : (forall x, In x l -> 0 <= f x) -> In y l -> 0 < f y -> 0 < qsum (map f l).
  Proof.
    induction l as [|x l IH]; intros H Hy Hp; [destruct Hy|]. cbn [map]. rewrite qsum_cons. destruct Hy as [->|Hy].
    - apply Qclt_le_trans with (f y + 0); [now replace (f y + 0) with (f y) by ring|]. apply Qcplus_le_compat; [apply Qcle_refl|]. apply qsum_nonneg. intros z Hz. apply H. right. auto.
    - apply Qclt_le_trans with (0 + qsum (map f l)); [replace (0 + qsum (map f l)) with (qsum (map f l)) by ring|apply Qcplus_le_compat; [apply H; left; auto|apply Qcle_refl]].
      apply IH; auto. intros z Hz. apply H. right. auto.
  Qed.
End Sums.
Lemma qsum_swap {A B} (f : A -> B -> Qc) la lb : qsum (map (fun a => qsum (map (f a) lb)) la) = qsum (map (fun b => qsum (map (fun a => f a b) la)) lb).
Proof.
  induction la as [|a la IH]; cbn [map].
  - induction lb as [|b lb IH]; cbn [map]; auto. rewrite qsum_cons, <- IH. cbn. ring.
  - rewrite qsum_cons, IH. rewrite (qsum_ext (fun b => qsum (f a b :: map (fun a => f a b) la)) (fun b => f a b + qsum (map (fun a => f a b) la))%Qc) by auto. symmetry. apply qsum_plus.
Qed.

Lemma nth_seq_map {A} (f : nat -> A) d n j : j < n -> nth j (map f (seq 0 n)) d = f j.
Proof. intro H. rewrite (nth_indep _ d (f 0)) by now rewrite map_length, seq_length. rewrite map_nth, seq_nth by auto. auto. Qed.
Lemma qc_eq_bool_false x y : Qc_eq_bool x y = false <-> x <> y.
Proof. unfold Qc_eq_bool. destruct (Qc_eq_dec x y); split; congruence. Qed.

Section Centroid.
  Variable dim : nat.
  Local Open Scope Qc_scope.

  Lemma average_spec rows weights : length rows = length weights ->
    match average_of dim rows weights with
    | Ok c => qsum weights <> 0 /\ balances dim rows weights c
    | Err e => e = ZeroDivisionError /\ qsum weights = 0
    end.
  Proof.
    intro HL. unfold average_of. destruct (Qc_eq_bool (qsum weights) 0) eqn:E.
    - split; auto. unfold Qc_eq_bool in E. destruct (Qc_eq_dec (qsum weights) 0); congruence.
    - apply qc_eq_bool_false in E. split; auto. split; [now rewrite map_length, seq_length|]. intros j Hj. rewrite nth_seq_map by auto.
      set (s := qsum (map (fun rw : point * Qc => nth j (fst rw) 0 * snd rw) (combine rows weights))).
      rewrite (qsum_ext _ (fun rw : point * Qc => nth j (fst rw) 0 * snd rw + - (s / qsum weights) * snd rw)) by (intros; ring).
      rewrite qsum_plus, qsum_scale. fold s.
      assert (ET : qsum (map snd (combine rows weights)) = qsum weights).
      { f_equal. clear - HL. revert weights HL. induction rows as [|r rows IH]; intros [|w weights] HL; try discriminate; auto. cbn. f_equal. auto. }
      transitivity (s + - (s / qsum weights) * qsum weights); [f_equal; f_equal; exact ET|].
      transitivity (s + - (s * (/ qsum weights * qsum weights))); [unfold Qcdiv; ring|]. rewrite Qcmult_inv_l by auto. ring.
  Qed.

  Lemma balances_unique rows weights c c' : length rows = length weights -> qsum weights <> 0 -> balances dim rows weights c -> balances dim rows weights c' -> c = c'.
  Proof.
    intros HL Ht [L H] [L' H']. apply nth_ext with (d := 0) (d' := 0); [congruence|]. intros j Hj. rewrite L in Hj. specialize (H j Hj). specialize (H' j Hj).
    set (cj := nth j c 0) in *. set (cj' := nth j c' 0) in *.
    assert (ET : qsum (map snd (combine rows weights)) = qsum weights).
    { f_equal. clear - HL. revert weights HL. induction rows as [|r rows IH]; intros [|w weights] HL; try discriminate; auto. cbn. f_equal. auto. }
    assert (E : forall k, qsum (map (fun rw : point * Qc => snd rw * (nth j (fst rw) 0 - k)) (combine rows weights)) =
                          qsum (map (fun rw : point * Qc => snd rw * nth j (fst rw) 0) (combine rows weights)) + - k * qsum weights).
    { intro k. transitivity (qsum (map (fun rw : point * Qc => snd rw * nth j (fst rw) 0) (combine rows weights)) + - k * qsum (map snd (combine rows weights))).
      - rewrite <- qsum_scale, <- qsum_plus. apply qsum_ext. intros; ring.
      - f_equal. f_equal. exact ET. }
    rewrite E in H, H'.
    assert (D : (cj' - cj) * qsum weights = 0).
    { transitivity ((qsum (map (fun rw : point * Qc => snd rw * nth j (fst rw) 0) (combine rows weights)) + - cj * qsum weights) -
                    (qsum (map (fun rw : point * Qc => snd rw * nth j (fst rw) 0) (combine rows weights)) + - cj' * qsum weights)); [ring|]. rewrite H, H'. ring. }
    apply Qcmult_integral in D as [D|D]; [|congruence]. transitivity (cj' - (cj' - cj)); [ring|]. rewrite D. ring.
  Qed.

  Variable f : point -> point.
  Hypothesis Hf : motion dim f.

  Lemma minus_nth a b j : (j < dim)%nat -> nth j (minus dim a b) 0 = nth j a 0 - nth j b 0.
  Proof. intro H. unfold minus. now rewrite nth_seq_map. Qed.

  Lemma motion_square a b : square dim (minus dim (f a) (f b)) = square dim (minus dim a b).
  Proof.
    destruct Hf as [(A & s & HA & HN)]. unfold square.
    rewrite (qsum_ext (fun j => nth j (minus dim a b) 0 * nth j (minus dim a b) 0) (fun k => (nth k a 0 - nth k b 0) * (nth k a 0 - nth k b 0)))
      by (intros j Hj; apply in_seq in Hj; now rewrite minus_nth by lia).
    rewrite <- (HN (fun k => nth k a 0 - nth k b 0)).
    apply qsum_ext. intros j Hj. apply in_seq in Hj. rewrite minus_nth, !HA by lia.
    assert (E : qsum (map (fun k => A j k * nth k a 0) (seq 0 dim)) + s j - (qsum (map (fun k => A j k * nth k b 0) (seq 0 dim)) + s j) =
                qsum (map (fun k => A j k * (nth k a 0 - nth k b 0)) (seq 0 dim))).
    { rewrite (qsum_ext (fun k => A j k * (nth k a 0 - nth k b 0)) (fun k => A j k * nth k a 0 + (-(1)) * (A j k * nth k b 0))) by (intros; ring).
      rewrite qsum_plus, qsum_scale. ring. }
    rewrite E. reflexivity.
  Qed.

  Lemma motion_average rows weights : length rows = length weights ->
    match average_of dim rows weights, average_of dim (map f rows) weights with
    | Ok c, Ok c' => forall r, square dim (minus dim (f r) c') = square dim (minus dim r c)
    | Err e, Err e' => e = e'
    | _, _ => False
    end.
  Proof.
    intro HL. pose proof (average_spec rows weights HL) as H1. pose proof (average_spec (map f rows) weights) as H2. rewrite map_length in H2. specialize (H2 HL).
    destruct (average_of dim rows weights) as [c|e], (average_of dim (map f rows) weights) as [c'|e'].
    2: destruct H1, H2; contradiction. 2: destruct H1, H2; contradiction. 2: destruct H1, H2; congruence.
    destruct H1 as [Ht H1], H2 as [_ H2].
    assert (E : forall j, (j < dim)%nat -> nth j c' 0 = nth j (f c) 0).
    { set (c2 := map (fun j => nth j (f c) 0) (seq 0 dim)).
      assert (Hc : balances dim (map f rows) weights c2).
      { split; [unfold c2; now rewrite map_length, seq_length|]. intros j Hj. unfold c2. rewrite nth_seq_map by auto. destruct Hf as [(A & s & HA & _)]. destruct H1 as [_ H1].
        assert (EM : forall ws : list Qc, combine (map f rows) ws = map (fun rw : point * Qc => (f (fst rw), snd rw)) (combine rows ws)).
        { clear. induction rows as [|r rows IH]; intros [|w ws]; auto. cbn. f_equal. auto. }
        rewrite EM, map_map. cbn [fst snd].
        rewrite (qsum_ext _ (fun rw : point * Qc => qsum (map (fun k => A j k * (snd rw * (nth k (fst rw) 0 - nth k c 0))) (seq 0 dim)))).
        2:{ intros [r w] _. cbn [fst snd]. rewrite !HA by auto.
            rewrite (qsum_ext (fun k => A j k * (w * (nth k r 0 - nth k c 0))) (fun k => w * (A j k * nth k r 0) + (- w) * (A j k * nth k c 0))) by (intros; ring).
            rewrite qsum_plus, !qsum_scale. ring. }
        rewrite qsum_swap.
        rewrite (qsum_ext _ (fun _ => 0 * 0)).
        - rewrite qsum_scale. ring.
        - intros k Hk. apply in_seq in Hk. rewrite qsum_scale, H1 by lia. ring. }
      intros j Hj. rewrite (balances_unique (map f rows) weights c' c2) by (try rewrite map_length; auto). unfold c2. now rewrite nth_seq_map. }
    intro r. rewrite <- (motion_square r c). unfold square. apply qsum_ext. intros j Hj. apply in_seq in Hj. rewrite !minus_nth by lia. now rewrite E by lia.
  Qed.
End Centroid.
