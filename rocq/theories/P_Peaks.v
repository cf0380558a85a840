(** find_peaks returns the midpoints of the flat local maxima. *)
From Coq Require Import List Arith Lia Bool ZArith QArith Sorted.
From Verif Require Import Prelude Order Size M_Linkage S_Linkage M_Condense S_Condense M_Labels M_Layers S_Layers.
Import ListNotations.
Local Open Scope nat_scope.

Lemma ssorted_snoc l y : StronglySorted lt l -> (forall z, In z l -> z < y) -> StronglySorted lt (l ++ [y]).
Proof.
  induction 1 as [|a l Hl IH Ha]; intro Hy; cbn [app]; constructor; try constructor.
  - apply IH. intros z Hz. apply Hy. now right.
  - apply Forall_app. split; auto. constructor; auto. apply Hy. now left.
Qed.

Section Peaks.
  Context {W : WOrd}.
  Variable l : list W.
  Let n := length l.
  Let x i := nth i l winf.

  Lemma veq_iff (a b : W) : veq a b = true <-> wle a b = true /\ wle b a = true.
  Proof. unfold veq. apply andb_true_iff. Qed.
  Lemma wlt_iff (a b : W) : wlt a b = true <-> wle b a = false.
  Proof. unfold wlt. apply negb_true_iff. Qed.

  Lemma skip_ok i : i < n - 1 -> forall fuel a, i < a <= n - 1 -> n <= fuel + a -> (forall k, i <= k < a -> veq (x k) (x i) = true) ->
    exists a', skip_equal x n fuel i a = Ok a' /\ a <= a' <= n - 1 /\ (forall k, i <= k < a' -> veq (x k) (x i) = true) /\ (a' = n - 1 \/ veq (x a') (x i) = false).
  Proof.
    intro Hi. induction fuel as [|f IH]; intros a Ha Hf He; cbn [skip_equal].
    - destruct (Nat.ltb_spec a (n - 1)) as [H|H]; [lia|]. cbn [andb]. exists a. split; auto. split; [lia|]. split; auto. left. lia.
    - destruct (Nat.ltb_spec a (n - 1)) as [H|H]; cbn [andb].
      + destruct (veq (x a) (x i)) eqn:E.
        * destruct (IH (S a)) as (a' & E' & H1 & H2 & H3); [lia|lia| |].
          { intros k Hk. destruct (Nat.eq_dec k a) as [->|]; auto. apply He. lia. }
          exists a'. split; auto. split; [lia|]. auto.
        * exists a. split; auto. split; [lia|]. auto.
      + exists a. split; auto. split; [lia|]. split; auto. left. lia.
  Qed.

  Definition inv i mid : Prop :=
    StronglySorted lt mid /\ (forall m, In m mid -> m < i) /\
    (forall m, In m mid <-> exists a b, plateau l a b /\ a < i /\ m = (a + b) / 2) /\
    (forall a b, plateau l a b -> a < i -> S b < i) /\ 2 * length mid < i.

  Lemma plateau_eq a b k : plateau l a b -> a <= k <= b -> veq (x k) (x a) = true.
  Proof. intros (_ & _ & H & _) Hk. apply veq_iff. now apply H. Qed.

  Lemma plateau_unique a b b' : plateau l a b -> plateau l a b' -> b = b'.
  Proof.
    assert (H : forall b b', plateau l a b -> plateau l a b' -> b < b' -> False).
    { intros c c' (H1 & H2 & H3 & H4 & H5) (G1 & G2 & G3 & G4 & G5) Hlt. destruct (G3 (S c)) as [_ G]; [lia|]. apply wlt_iff in H5. congruence. }
    intros H1 H2. destruct (Nat.lt_trichotomy b b') as [Hl|[Hl|Hl]]; auto; exfalso; eauto.
  Qed.

  (** No plateau starts at [i]: the next position keeps the invariant. *)
  Lemma inv_skip i mid : inv i mid -> (forall b, ~ plateau l i b) -> inv (i + 1) mid.
  Proof.
    intros (I1 & I2 & I3 & I4 & I5) Hn. split; auto. split; [intros m Hm; specialize (I2 m Hm); lia|]. split; [|split; [|lia]].
    - intro m. rewrite I3. split; intros (a & b & H1 & H2 & H3); exists a, b; split; auto; split; auto; [lia|].
      destruct (Nat.eq_dec a i) as [->|]; [exfalso; eapply Hn; eauto|lia].
    - intros a b H1 H2. destruct (Nat.eq_dec a i) as [->|]; [exfalso; eapply Hn; eauto|]. specialize (I4 a b H1). lia.
  Qed.

  Lemma inv_peak i a mid : inv i mid -> plateau l i (a - 1) -> i < a -> inv (a + 1) (mid ++ [(i + (a - 1)) / 2]).
  Proof.
    intros (I1 & I2 & I3 & I4 & I5) Hp Ha.
    assert (Hmid : i <= (i + (a - 1)) / 2 < a).
    { split; [apply Nat.div_le_lower_bound; lia|apply Nat.div_lt_upper_bound; lia]. }
    assert (Hno : forall c b, plateau l c b -> c < a + 1 -> c < i \/ c = i /\ b = a - 1).
    { intros c b Hc Hl. destruct (Nat.lt_trichotomy c i) as [|[->|Hgt]]; [auto|right; split; auto; eapply plateau_unique; eauto|].
      exfalso. destruct Hc as (G1 & G2 & G3 & G4 & G5). pose proof Hp as (H1 & H2 & H3 & H4 & H5). apply wlt_iff in G4.
      destruct (Nat.eq_dec c a) as [->|Hne].
      - replace (S (a - 1)) with a in H5 by lia. apply wlt_iff in H5. destruct (H3 (a - 1)) as [_ K]; [lia|].
        destruct (wle_total W (nth (a - 1) l winf) (nth a l winf)) as [T|T]; [|congruence].
        rewrite (wle_trans W _ _ _ K T) in H5. discriminate.
      - destruct (H3 c) as [K1 _]; [lia|]. destruct (H3 (c - 1)) as [_ K2]; [lia|]. rewrite (wle_trans W _ _ _ K1 K2) in G4. discriminate. }
    split; [apply ssorted_snoc; auto; intros z Hz; specialize (I2 z Hz); lia|].
    split; [intros m Hm; apply in_app_or in Hm as [Hm|[<-|[]]]; [specialize (I2 m Hm); lia|lia]|].
    split; [|split].
    - intro m. rewrite in_app_iff, I3. split.
      + intros [(c & b & H1 & H2 & H3)|[<-|[]]]; [exists c, b; split; auto; split; auto; lia|]. exists i, (a - 1). split; auto. split; auto. lia.
      + intros (c & b & H1 & H2 & ->). destruct (Hno c b H1 H2) as [H|[-> ->]]; [left; eauto|right; now left].
    - intros c b H1 H2. destruct (Hno c b H1 H2) as [H|[-> ->]]; [specialize (I4 c b H1 H); lia|lia].
    - rewrite app_length. cbn [length]. lia.
  Qed.

  Lemma loop_ok : forall fuel i mid, 1 <= i -> n <= fuel + i -> inv i mid ->
    exists ms j, peaks_loop x n fuel i mid = Ok ms /\ inv j ms /\ n - 1 <= j.
  Proof.
    induction fuel as [|f IH]; intros i mid Hi Hf HI; cbn [peaks_loop].
    - destruct (Nat.ltb_spec i (n - 1)) as [H|H]; [lia|]. eauto.
    - destruct (Nat.ltb_spec i (n - 1)) as [H|H]; [|eauto].
      destruct (wlt (x (i - 1)) (x i)) eqn:E.
      + destruct (skip_ok i H n (i + 1)) as (a & Ea & H1 & H2 & H3); [lia|lia| |].
        { intros k Hk. replace k with i by lia. apply veq_iff. split; apply wle_refl. }
        rewrite Ea. cbn [bind]. destruct (wlt (x a) (x i)) eqn:E2.
        * assert (Hp : plateau l i (a - 1)).
          { split; [lia|]. split; [unfold n in *; lia|]. split; [intros k Hk; apply veq_iff; apply H2; lia|]. split; auto. replace (S (a - 1)) with a by lia. auto. }
          destruct (Nat.ltb_spec (length mid) (n / 2)) as [Hc|Hc].
          -- apply IH; [lia|lia|]. apply inv_peak; auto. lia.
          -- exfalso. destruct HI as (_ & _ & _ & _ & I5). assert (n / 2 * 2 <= i - 1) by lia.
             pose proof (Nat.div_mod n 2). pose proof (Nat.mod_upper_bound n 2). lia.
        * apply IH; [lia|lia|]. apply inv_skip; auto. intros b Hb. pose proof Hb as (G1 & G2 & G3 & G4 & G5).
          assert (a = S b).
          { destruct (Nat.lt_trichotomy a (S b)) as [Hl|[|Hl]]; auto; exfalso.
            - destruct H3 as [->|H3]; [unfold n in *; lia|]. rewrite (plateau_eq i b a Hb) in H3; [discriminate|lia].
            - assert (Hv : veq (x (S b)) (x i) = true) by (apply H2; lia). apply veq_iff in Hv as [_ Hv]. apply wlt_iff in G5. unfold x in Hv. congruence. }
          subst a. unfold x in E2. congruence.
      + apply IH; [lia|lia|]. apply inv_skip; auto. intros b (_ & _ & _ & G & _). unfold x in E. congruence.
  Qed.

  Lemma find_peaks_ok : exists ms, find_peaks l = Ok ms /\ StronglySorted lt ms /\
    forall m, In m ms <-> exists a b, plateau l a b /\ m = (a + b) / 2.
  Proof.
    destruct (loop_ok n 1 []) as (ms & j & E & (I1 & I2 & I3 & I4 & I5) & Hj); [lia|lia| |].
    - split; [constructor|]. split; [intros m []|]. split; [|split; [|cbn; lia]].
      + intro m. split; [intros []|]. intros (a & b & ((H & _) & _) & H2 & _). lia.
      + intros a b ((H & _) & _) H2. lia.
    - exists ms. split; [exact E|]. split; auto. intro m. rewrite I3. split.
      + intros (a & b & H1 & _ & H3). eauto.
      + intros (a & b & H1 & H3). exists a, b. split; auto. split; auto. destruct H1 as ((H & H') & H2 & _). unfold n in *. lia.
  Qed.
End Peaks.
