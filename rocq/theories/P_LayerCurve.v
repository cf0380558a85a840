(** The total persistence curve. *)
From Coq Require Import List Arith Lia Bool ZArith QArith Sorted Permutation.
From Verif Require Import Prelude Order Size P_Sort M_Layers S_Layers.
Import ListNotations.
Local Open Scope nat_scope.

Lemma first_geq_iff l v : StronglySorted lt l -> forall k j d, j < length l -> d = k + length l ->
  (first_geq l v k d <= k + j <-> v <= nth j l 0).
Proof.
  induction 1 as [|a l H IH Hf]; intros k j d Hj Hd; cbn in *; [lia|].
  destruct (Nat.leb_spec v a) as [Hle|Hlt].
  - split; [|lia]. intros _. destruct j as [|j]; auto. rewrite Forall_forall in Hf. specialize (Hf (nth j l 0)). 
    assert (In (nth j l 0) l) by (apply nth_In; lia). specialize (Hf H0). lia.
  - destruct j as [|j].
    + split; [|lia]. intro Hc. exfalso. assert (Hge : forall l k d, k <= d -> k <= first_geq l v k d).
      { clear. induction l as [|b l IH]; intros k d Hd; cbn; auto. destruct (v <=? b); auto. destruct (Nat.eq_dec k d); [|specialize (IH (S k) d); lia].
        subst. clear IH. assert (forall l k, d <= k -> d <= first_geq l v k d). { clear. induction l as [|c l IH]; intros k Hk; cbn; auto. destruct (v <=? c); auto. }
        apply H. lia. }
      specialize (Hge l (S k) d ltac:(lia)). lia.
    + specialize (IH (S k) j d ltac:(lia) ltac:(lia)). rewrite <- IH. replace (S k + j) with (k + S j) by lia. tauto.
Qed.

Lemma first_geq_default l v : In v l -> forall k d d', first_geq l v k d = first_geq l v k d'.
Proof.
  induction l as [|a l IH]; intros Hi k d d'; [destruct Hi|]. cbn. destruct (Nat.leb_spec v a); auto. apply IH. destruct Hi as [->|]; auto. lia.
Qed.

Lemma unique_ssorted l : StronglySorted lt (unique l).
Proof.
  pose proof (unique_sorted l) as H. pose proof (unique_NoDup l) as HN. unfold nsorted in H. induction H as [|a m H IH Hf]; [constructor|].
  apply NoDup_cons_iff in HN as [Ha HN]. constructor; auto. rewrite Forall_forall in *. intros x Hx. specialize (Hf x Hx). cbn in Hf. assert (x <> a) by congruence. lia.
Qed.

Section Curve.
  Context {D P : Type}.
  Variables (pzero : P) (accumulate : P -> nat -> nat -> D -> P) (b : barcode D).
  Notation acc p i := (accumulate p (b_births b i) (b_deaths b i) (b_lambdas b i)).

  Lemma range_fold (f : P -> P) lo len : forall total k,
    fold_left (fun t k => upd t k (f (t k))) (seq lo len) total k = if (lo <=? k) && (k <? lo + len) then f (total k) else total k.
  Proof.
    revert lo. induction len as [|len IH]; intros lo total k; cbn [seq fold_left].
    - destruct (Nat.leb_spec lo k), (Nat.ltb_spec k (lo + 0)); cbn; auto; lia.
    - rewrite IH. destruct (Nat.eq_dec k lo) as [->|Hne].
      + rewrite upd_eq. destruct (Nat.leb_spec (S lo) lo), (Nat.leb_spec lo lo), (Nat.ltb_spec lo (lo + S len)); cbn; auto; lia.
      + rewrite upd_neq by auto. destruct (Nat.leb_spec (S lo) k), (Nat.leb_spec lo k), (Nat.ltb_spec k (S lo + len)), (Nat.ltb_spec k (lo + S len)); cbn; auto; lia.
  Qed.

  Notation sizes := (unique (map (b_births b) (seq 0 (b_nodes b)))).

  Lemma step_at total i k : i < b_nodes b -> k < length sizes ->
    persistence_step accumulate sizes b total i k =
    if (b_births b i <=? nth k sizes 0) && (nth k sizes 0 <? b_deaths b i) then acc (total k) i else total k.
  Proof.
    intros Hi Hk. unfold persistence_step.
    assert (Hsort : StronglySorted lt sizes) by apply unique_ssorted.
    assert (Hin : In (b_births b i) sizes) by (apply unique_in, in_map, in_seq; lia).
    destruct (Nat.leb_spec (b_deaths b i) (b_births b i)) as [H|H].
    - destruct (Nat.leb_spec (b_births b i) (nth k sizes 0)), (Nat.ltb_spec (nth k sizes 0) (b_deaths b i)); cbn; auto; lia.
    - rewrite (range_fold (fun p => acc p i)). rewrite (first_geq_default sizes (b_births b i) Hin 0 0 (length sizes)).
      pose proof (first_geq_iff sizes (b_births b i) Hsort 0 k (length sizes) Hk eq_refl) as H1. cbn in H1.
      pose proof (first_geq_iff sizes (b_deaths b i) Hsort 0 k (length sizes) Hk eq_refl) as H2. cbn in H2.
      set (x := first_geq sizes (b_births b i) 0 (length sizes)) in *. set (y := first_geq sizes (b_deaths b i) 0 (length sizes)) in *.
      set (s := nth k sizes 0) in *.
      destruct (Nat.leb_spec x k), (Nat.ltb_spec k (x + (y - x))), (Nat.leb_spec (b_births b i) s), (Nat.ltb_spec s (b_deaths b i)); cbn; auto; lia.
  Qed.

  Lemma fold_at k : k < length sizes -> forall l total, (forall i, In i l -> i < b_nodes b) ->
    fold_left (persistence_step accumulate sizes b) l total k =
    fold_left (fun p i => acc p i) (filter (fun i => (b_births b i <=? nth k sizes 0) && (nth k sizes 0 <? b_deaths b i)) l) (total k).
  Proof.
    intro Hk. induction l as [|i l IH]; intros total Hl; auto. cbn [fold_left filter]. rewrite IH by (intros; apply Hl; now right).
    rewrite step_at; auto; [|apply Hl; now left]. now destruct ((b_births b i <=? nth k sizes 0) && (nth k sizes 0 <? b_deaths b i)).
  Qed.

  (** Entry k is the sum over the clusters other than the root that are alive at
      size k. *)
  Lemma curve_ok : 0 < b_nodes b -> forall ss total, compute_total_persistence pzero accumulate b = (ss, total) ->
    StronglySorted lt ss /\ (forall s, In s ss <-> exists i, i < b_nodes b /\ b_births b i = s) /\ length total = length ss /\
    forall k, k < length ss -> nth k total pzero = fold_left (fun p i => acc p i) (filter (fun i => negb (i =? 0)) (alive b (nth k ss 0))) pzero.
  Proof.
    intros Hb ss total E. unfold compute_total_persistence in E. injection E as <- <-. split; [apply unique_ssorted|]. split.
    { intro s. rewrite unique_in, in_map_iff. split; intros (i & H1 & H2); exists i; [apply in_seq in H2; split; auto; lia|split; auto; apply in_seq; lia]. }
    split; [now rewrite map_length, seq_length|]. intros k Hk.
    rewrite (nth_indep _ pzero (fold_left (persistence_step accumulate sizes b) (seq 1 (b_nodes b - 1)) (fun _ => pzero) 0)) by now rewrite map_length, seq_length.
    rewrite map_nth, seq_nth by auto. cbn [Nat.add]. rewrite fold_at; auto; [|intros i Hi; apply in_seq in Hi; lia]. generalize (nth k sizes 0). intro s. f_equal. unfold alive.
    replace (seq 0 (b_nodes b)) with (0 :: seq 1 (b_nodes b - 1)) by (destruct (b_nodes b); [lia|cbn; now rewrite Nat.sub_0_r]).
    set (g := fun i => (b_births b i <=? s) && (s <? b_deaths b i)).
    assert (Hf : forall l, (forall i, In i l -> i <> 0) -> filter (fun i => negb (i =? 0)) (filter g l) = filter g l).
    { induction l as [|i l IH]; intro Hl; auto. cbn [filter]. destruct (g i); cbn [filter]; rewrite IH by (intros; apply Hl; now right); auto.
      destruct (Nat.eqb_spec i 0); auto. now destruct (Hl i (or_introl eq_refl)). }
    cbn [filter]. destruct (g 0); cbn [filter Nat.eqb negb]; symmetry; apply Hf; intros i Hi; apply in_seq in Hi; lia.
  Qed.
End Curve.
