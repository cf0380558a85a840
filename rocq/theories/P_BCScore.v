(** BCubed scores. *)
From Coq Require Import List Arith Lia Bool ZArith QArith Qcanon Permutation.
From Verif Require Import Prelude Order Size Num M_Linkage M_Condense S_Condense M_Select S_Select M_Pipeline S_BCubed M_BCubed P_CTree P_Below P_Cut P_Eom P_EomTop P_SelectTop P_BCElements.
Import ListNotations.
Local Open Scope nat_scope.

(** ** Counting *)
Lemma count_up_cases d k : (exists c, dict_get d k = Ok c /\ In k (map fst d) /\ count_up d k = dict_set d k (c + 1)) \/
  (~ In k (map fst d) /\ count_up d k = d ++ [(k, 1)]).
Proof.
  unfold count_up. destruct (in_dec Nat.eq_dec k (map fst d)) as [H|H].
  - left. destruct (dict_get_in d k H) as (c & E). rewrite E. eauto.
  - right. rewrite (dict_get_none d k H). split; auto. now apply dict_set_new.
Qed.

Lemma counts_snoc l k : counts (l ++ [k]) = count_up (counts l) k.
Proof. unfold counts. now rewrite fold_left_app. Qed.

Lemma counts_spec l : NoDup (map fst (counts l)) /\ (forall k, In k (map fst (counts l)) <-> In k l) /\
  (forall k c, In (k, c) (counts l) -> c = count_occ Nat.eq_dec l k).
Proof.
  induction l as [|x l (HN & Hk & Hc)] using rev_ind.
  - unfold counts. simpl. split; [constructor|]. split; [tauto|]. intros k c [].
  - rewrite counts_snoc. destruct (count_up_cases (counts l) x) as [(c & Ec & Hi & ->)|[Hi ->]].
    + split; [now rewrite dict_set_keys|]. split.
      * intro k. rewrite dict_set_keys by auto. rewrite Hk, in_app_iff. simpl. split; [tauto|]. intros [H|[<-|[]]]; auto. now apply Hk.
      * intros k c' H. apply dict_get_unique in H; [|now rewrite dict_set_keys]. rewrite dict_get_set in H. rewrite count_occ_app. simpl.
        destruct (Nat.eqb_spec k x) as [->|Hne].
        -- injection H as <-. apply dict_get_found in Ec. rewrite (Hc _ _ Ec). destruct (Nat.eq_dec x x); lia.
        -- apply dict_get_found in H. rewrite (Hc _ _ H). destruct (Nat.eq_dec x k); [congruence|lia].
    + assert (Hx : ~ In x l) by (rewrite <- Hk; auto). split; [|split].
      * rewrite map_app. apply NoDup_app_intro'; auto; [repeat constructor; simpl; tauto|]. intros y Hy [<-|[]]. contradiction.
      * intro k. rewrite map_app, !in_app_iff, Hk. simpl. tauto.
      * intros k c H. rewrite count_occ_app. simpl. apply in_app_or in H as [H|[H|[]]].
        -- rewrite (Hc _ _ H). destruct (Nat.eq_dec x k) as [->|]; [|lia]. exfalso. apply Hi. apply in_map_iff. exists (k, c). auto.
        -- injection H as <- <-. destruct (Nat.eq_dec x x); [|congruence]. rewrite (proj1 (count_occ_not_In _ _ _) Hx). auto.
Qed.

Lemma counts_get l k : In k l -> dict_get (counts l) k = Ok (count_occ Nat.eq_dec l k).
Proof.
  destruct (counts_spec l) as (HN & Hk & Hc). intro H. apply Hk in H. destruct (dict_get_in _ _ H) as (c & E). rewrite E.
  apply dict_get_found in E. now rewrite (Hc _ _ E).
Qed.

Definition spread (d : list (nat * nat)) : list nat := flat_map (fun kc => repeat (fst kc) (snd kc)) d.
Lemma counts_spread l : Permutation l (spread (counts l)).
Proof.
  induction l as [|x l IH] using rev_ind; [constructor|]. rewrite counts_snoc.
  rewrite <- Permutation_cons_append. destruct (count_up_cases (counts l) x) as [(c & Ec & Hi & ->)|[Hi ->]].
  - rewrite IH at 1. clear IH Hi. revert Ec. induction (counts l) as [|[a b] d IHd]; [discriminate|]. simpl. destruct (Nat.eqb_spec x a) as [->|Hne]; intro Ec.
    + injection Ec as ->. rewrite Nat.add_1_r. reflexivity.
    + unfold spread in *. simpl. rewrite <- (IHd Ec). apply Permutation_middle.
  - unfold spread. rewrite flat_map_app. simpl. rewrite <- Permutation_cons_append. now constructor.
Qed.

Lemma counts_total l : list_sum (map snd (counts l)) = length l.
Proof.
  rewrite (Permutation_length (counts_spread l)). unfold spread. induction (counts l) as [|[a b] d IH]; simpl; auto.
  rewrite app_length, repeat_length. now rewrite IH.
Qed.

Lemma qsum_perm l1 l2 : Permutation l1 l2 -> qsum l1 = qsum l2.
Proof. induction 1; unfold qsum in *; simpl; auto; [now rewrite IHPermutation|ring|congruence]. Qed.
Lemma qsum_scale {X} (f : X -> Qc) (a : Qc) l : qsum (map (fun x => f x / a)%Qc l) = (qsum (map f l) / a)%Qc.
Proof. unfold Qcdiv. induction l as [|x l IH]; unfold qsum in *; simpl; [ring|]. rewrite IH. ring. Qed.

Lemma counts_weighted (g : nat -> Qc) l : qsum (map (fun kc => nat_as_q (snd kc) * g (fst kc))%Qc (counts l)) = qsum (map g l).
Proof.
  rewrite (qsum_perm _ _ (Permutation_map g (counts_spread l))). unfold spread. induction (counts l) as [|[a b] d IH]; auto.
  cbn [flat_map map]. rewrite map_app, qsum_app, <- IH. cbn [fst snd]. transitivity (nat_as_q b * g a + qsum (map (fun kc => nat_as_q (snd kc) * g (fst kc))%Qc d))%Qc; [reflexivity|].
  f_equal. clear. induction b as [|b IHb].
  - unfold qsum. cbn [repeat map fold_right]. change (nat_as_q 0) with 0%Qc. ring.
  - cbn [repeat map]. transitivity (g a + qsum (map g (repeat a b)))%Qc; [|reflexivity]. rewrite <- IHb.
    change (nat_as_q (S b)) with (nat_as_q (1 + b)). fold nat_q. change nat_as_q with nat_q. rewrite nat_q_add. change (nat_q 1) with 1%Qc. ring.
Qed.

(** ** The score of a set of labelled points *)
Lemma nat_as_q_pos k : 0 < k -> (0 < nat_as_q k)%Qc.
Proof. intro H. unfold nat_as_q, Qclt. cbn [this Q2Qc]. rewrite !Qred_correct. change 0%Q with (inject_Z 0). rewrite <- Zlt_Qlt. lia. Qed.
Lemma pos_neq (x : Qc) : (0 < x)%Qc -> x <> 0%Qc.
Proof. intros H E. subst. exact (Qclt_not_eq _ _ H eq_refl). Qed.
Lemma nat_as_q_neq k : 0 < k -> nat_as_q k <> 0%Qc.
Proof. intro H. now apply pos_neq, nat_as_q_pos. Qed.
Lemma nat_as_q_add a b : nat_as_q (a + b) = (nat_as_q a + nat_as_q b)%Qc.
Proof. exact (nat_q_add a b). Qed.

Section Scores.
  Variable labels : list Z.
  Notation LI := (label_indices_of labels).
  Notation all := (labelled_samples labels).
  Notation lab := (fun x => Z.to_nat (label labels x)).
  Variable pts : list nat.
  Hypothesis HN : NoDup pts.
  Hypothesis HL : forall x, In x pts -> labelled labels x.

  Lemma pts_all : incl pts all.
  Proof. intros x Hx. now apply labelled_iff, HL. Qed.
  Lemma agreeing_count l x : (forall y, In y l -> labelled labels y) -> labelled labels x ->
    count_occ Nat.eq_dec (map lab l) (lab x) = agreeing labels l x.
  Proof.
    intros Hl Hx. unfold agreeing. induction l as [|y l IH]; auto. cbn [map filter]. cbn [count_occ].
    assert (Hy := Hl y (or_introl eq_refl)). unfold labelled in *. specialize (IH (fun z H => Hl z (or_intror H))).
    destruct (Nat.eq_dec (lab y) (lab x)) as [E|E], (Z.eqb_spec (label labels y) (label labels x)) as [E'|E']; try (exfalso; lia).
    - cbn [length]. now rewrite IH.
    - auto.
  Qed.
  Lemma agreeing_le l l' x : NoDup l -> incl l l' -> agreeing labels l x <= agreeing labels l' x.
  Proof.
    intros Hl Hi. apply NoDup_incl_length; [now apply NoDup_filter|]. intros y Hy. apply filter_In in Hy as [H1 H2].
    apply filter_In. auto.
  Qed.
  Lemma agreeing_len l x : agreeing labels l x <= length l.
  Proof. unfold agreeing. induction l as [|y l IH]; simpl; auto. destruct (_ =? _)%Z; simpl; lia. Qed.
  Lemma agreeing_pos l x : In x l -> 0 < agreeing labels l x.
  Proof.
    intro H. unfold agreeing. destruct (filter _ l) eqn:E; simpl; [|lia].
    assert (In x []) as []. rewrite <- E. apply filter_In. split; auto. apply Z.eqb_refl.
  Qed.

  (** A summand: [(l, k)] stands for a point [x] of the set. *)
  Lemma label_of_count l k : In (l, k) (counts (map lab pts)) -> exists x, In x pts /\ l = lab x /\ k = agreeing labels pts x.
  Proof.
    destruct (counts_spec (map lab pts)) as (_ & Hk & Hc). intro H. pose proof (Hc _ _ H) as ->.
    assert (Hl : In l (map lab pts)) by (apply Hk, in_map_iff; exists (l, count_occ Nat.eq_dec (map lab pts) l); auto).
    apply in_map_iff in Hl as (x & <- & Hx). exists x. split; auto. split; auto. apply agreeing_count; auto.
  Qed.

  Lemma class_total x : In x pts -> dict_get (counts (map snd LI)) (lab x) = Ok (agreeing labels all x).
  Proof.
    intro Hx. rewrite li_eq, map_map. cbn [snd]. rewrite counts_get; [|apply (in_map lab); now apply pts_all].
    f_equal. apply agreeing_count; auto. intros y Hy. now apply labelled_iff.
  Qed.
  Lemma all_total : list_sum (map snd (counts (map snd LI))) = length all.
  Proof. rewrite counts_total, li_eq, !map_length. auto. Qed.

  Lemma points_labels : map_res (dict_get LI) pts = Ok (map lab pts).
  Proof.
    clear HN. induction pts as [|x l IH]; auto. cbn [map_res map]. rewrite label_get by (apply HL; simpl; auto). cbn [bind].
    rewrite IH; auto. intros y Hy. apply HL. simpl; auto.
  Qed.

  (** Any arithmetic. *)
  Lemma bcubed_of_ok (B : BArith) (N : bscore B -> Prop) : BLaws B N ->
    exists b, bcubed_of B LI (counts (map snd LI)) (list_sum (map snd (counts (map snd LI)))) pts = Ok b /\ N b.
  Proof.
    intro HB. unfold bcubed_of. destruct pts as [|x0 l0] eqn:E0; [exists (b_zero B); split; auto; apply HB|]. rewrite <- E0 in *. clear x0 l0 E0.
    rewrite points_labels. cbn [bind].
    assert (H : forall d acc, N acc -> incl d (counts (map lab pts)) -> exists b,
      fold_res (fun lk acc =>
                    let* total_num_of_class_label := dict_get (counts (map snd LI)) (fst lk) in
                    let* t := b_term B (snd lk) (length pts) total_num_of_class_label (list_sum (map snd (counts (map snd LI)))) in
                    Ok (b_add B acc t)) d acc = Ok b /\ N b).
    { induction d as [|[l k] d IH]; intros acc Hacc Hd; cbn [fold_res fst snd]; eauto.
      destruct (label_of_count l k) as (x & Hx & -> & ->); [apply Hd; simpl; auto|].
      rewrite (class_total x Hx). cbn [bind]. rewrite all_total.
      destruct (bl_term B N HB (agreeing labels pts x) (length pts) (agreeing labels all x) (length all)) as (b & Eb & HNb).
      - pose proof (agreeing_pos pts x Hx). pose proof (agreeing_len pts x). lia.
      - pose proof (agreeing_le pts all x HN pts_all). pose proof (agreeing_len all x). lia.
      - apply NoDup_incl_length; auto. apply pts_all.
      - rewrite Eb. cbn [bind]. rewrite <- all_total. apply IH; [now apply (bl_add B N HB)|]. intros y Hy. apply Hd. simpl; auto. }
    apply H; [apply HB|apply incl_refl].
  Qed.

  (** Exact arithmetic. *)
  Lemma f_measure_eq x : In x pts ->
    f_measure labels pts x = (nat_as_q 2 * nat_as_q (agreeing labels pts x) / nat_as_q (length pts + agreeing labels all x))%Qc.
  Proof.
    intro Hx. unfold f_measure, precision, recall.
    assert (H1 : 0 < agreeing labels pts x) by now apply agreeing_pos.
    pose proof (agreeing_len pts x). pose proof (agreeing_le pts all x HN pts_all).
    pose proof (nat_as_q_pos (agreeing labels pts x) H1) as P1.
    pose proof (nat_as_q_pos (length pts) ltac:(lia)) as P2.
    pose proof (nat_as_q_pos (agreeing labels all x) ltac:(lia)) as P3.
    pose proof (nat_as_q_pos (length pts + agreeing labels all x) ltac:(lia)) as P4. rewrite nat_as_q_add in *.
    set (k := nat_as_q (agreeing labels pts x)) in *. set (p := nat_as_q (length pts)) in *. set (m := nat_as_q (agreeing labels all x)) in *.
    assert (E : (k / p + k / m = k * (p + m) / (p * m))%Qc) by (field; split; now apply pos_neq).
    rewrite E. field. repeat split; now apply pos_neq.
  Qed.
  Lemma exact_term_eq k p m t : 0 < k <= p -> k <= m <= t -> p <= t ->
    exact_term k p m t = Ok (nat_as_q k * (nat_as_q 2 * nat_as_q k / nat_as_q (p + m) / nat_as_q t))%Qc.
  Proof.
    intros H1 H2 H3. unfold exact_term. cbn [existsb]. rewrite !(proj2 (Nat.eqb_neq 0 _)) by lia. cbn [orb]. f_equal. f_equal.
    pose proof (nat_as_q_pos k ltac:(lia)) as P1. pose proof (nat_as_q_pos p ltac:(lia)) as P2.
    pose proof (nat_as_q_pos m ltac:(lia)) as P3. pose proof (nat_as_q_pos t ltac:(lia)) as P4.
    pose proof (nat_as_q_pos (p + m) ltac:(lia)) as P5. rewrite nat_as_q_add in *.
    set (k' := nat_as_q k) in *. set (p' := nat_as_q p) in *. set (m' := nat_as_q m) in *. set (t' := nat_as_q t) in *.
    assert (E : (1 / (k' / p' / t') + 1 / (k' / m' / t') = t' * (p' + m') / k')%Qc) by (field; repeat split; now apply pos_neq).
    rewrite E. field. repeat split; now apply pos_neq.
  Qed.

  Lemma bcubed_of_exact : bcubed_of ExactB LI (counts (map snd LI)) (list_sum (map snd (counts (map snd LI)))) pts = Ok (bcubed_score labels pts).
  Proof.
    unfold bcubed_of. destruct pts as [|x0 l0] eqn:E0.
    { f_equal. unfold bcubed_score. simpl. unfold qsum. simpl. unfold Qcdiv. rewrite Qcmult_0_l. reflexivity. }
    rewrite <- E0 in *. clear x0 l0 E0. rewrite points_labels. cbn [bind].
    set (g := fun l => (nat_as_q 2 * nat_as_q (count_occ Nat.eq_dec (map lab pts) l) / nat_as_q (length pts + count_occ Nat.eq_dec (map lab all) l) / nat_as_q (length all))%Qc).
    assert (Hg : forall x, In x pts -> g (lab x) = (f_measure labels pts x / nat_as_q (length all))%Qc).
    { intros x Hx. rewrite f_measure_eq by auto. unfold g. rewrite !agreeing_count; auto. intros y Hy. now apply labelled_iff. }
    assert (H : forall d (acc : Qc), incl d (counts (map lab pts)) ->
      fold_res (fun lk acc =>
                    let* total_num_of_class_label := dict_get (counts (map snd LI)) (fst lk) in
                    let* t := b_term ExactB (snd lk) (length pts) total_num_of_class_label (list_sum (map snd (counts (map snd LI)))) in
                    Ok (b_add ExactB acc t)) d acc = Ok (acc + qsum (map (fun kc => nat_as_q (snd kc) * g (fst kc))%Qc d))%Qc).
    { induction d as [|[l k] d IH]; intros acc Hd; cbn [fold_res fst snd map].
      { f_equal. change (qsum []) with 0%Qc. symmetry. apply Qcplus_0_r. }
      destruct (label_of_count l k) as (x & Hx & -> & ->); [apply Hd; simpl; auto|].
      rewrite (class_total x Hx). cbn [bind b_term ExactB]. rewrite all_total.
      rewrite exact_term_eq.
      - cbn [bind]. rewrite all_total in IH. cbn [b_term ExactB] in IH. rewrite IH by (intros y Hy; apply Hd; simpl; auto).
        f_equal. cbn [b_add]. unfold qsum at 2. cbn [fold_right]. fold (qsum (map (fun kc => nat_as_q (snd kc) * g (fst kc))%Qc d)).
        rewrite Hg by auto. rewrite f_measure_eq by auto. unfold ExactB at 1. cbn [b_add]. rewrite <- Qcplus_assoc. reflexivity.
      - pose proof (agreeing_pos pts x Hx). pose proof (agreeing_len pts x). lia.
      - pose proof (agreeing_le pts all x HN pts_all). pose proof (agreeing_len all x). lia.
      - apply NoDup_incl_length; auto. apply pts_all. }
    rewrite H by apply incl_refl. f_equal. rewrite counts_weighted. cbn [b_zero ExactB].
    unfold bcubed_score. rewrite map_map. rewrite <- qsum_scale. rewrite (map_ext_in _ _ _ Hg). ring.
  Qed.
End Scores.

Lemma exact_b_laws : BLaws ExactB (fun b => (0 <= b)%Qc).
Proof.
  constructor; cbn [b_term b_zero b_add t_lt t_eq b_cast t_zero bscore btotal ExactB].
  - intros k p m t H1 H2 H3. rewrite exact_term_eq by auto. eexists. split; [reflexivity|].
    unfold Qcdiv. assert (P : forall j, (0 <= nat_as_q j)%Qc) by (intro j; exact (nat_q_nonneg j)).
    assert (PI : forall j, 0 < j -> (0 <= / nat_as_q j)%Qc).
    { intros j Hj. pose proof (nat_as_q_pos j Hj) as Hp. destruct (Qclt_le_dec (/ nat_as_q j) 0) as [Hneg|]; auto. exfalso.
      apply (Qcmult_lt_compat_r _ _ _ Hp) in Hneg. rewrite Qcmult_0_l, Qcmult_comm, Qcmult_inv_r in Hneg by now apply pos_neq.
      discriminate Hneg. }
    assert (PM : forall a b, (0 <= a)%Qc -> (0 <= b)%Qc -> (0 <= a * b)%Qc).
    { intros a b Ha Hb. rewrite <- (Qcmult_0_l b). now apply Qcmult_le_compat_r. }
    repeat apply PM; auto; apply PI; lia.
  - apply Qcle_refl.
  - intros x y Hx Hy. rewrite <- (Qcplus_0_l 0). now apply Qcplus_le_compat.
  - intros x Hx. apply negb_false_iff. now apply Qcleb_le.
  - intros x y H1 H2. apply negb_false_iff in H1, H2. now rewrite H1, H2.
Qed.

Lemma filter_perm {X} (p : X -> bool) l l' : Permutation l l' -> Permutation (filter p l) (filter p l').
Proof.
  induction 1; cbn [filter]; auto.
  - destruct (p x); auto.
  - destruct (p x), (p y); auto. apply perm_swap.
  - etransitivity; eauto.
Qed.
Lemma bcubed_score_perm labels l l' : Permutation l l' -> bcubed_score labels l = bcubed_score labels l'.
Proof.
  intro H. unfold bcubed_score. f_equal. rewrite (qsum_perm _ _ (Permutation_map (f_measure labels l) H)). f_equal. apply map_ext.
  intro x. unfold f_measure, precision, recall, agreeing. rewrite (Permutation_length (filter_perm _ _ _ H)), (Permutation_length H). auto.
Qed.

(** ** All nodes *)
Lemma map_res_pairs {X Y} (f : X -> res Y) (d : list (nat * X)) : (forall k x, In (k, x) d -> exists y, f x = Ok y) ->
  exists e, map_res (fun ce => let* b := f (snd ce) in Ok (fst ce, b)) d = Ok e /\ map fst e = map fst d /\
    (forall k x, dict_get d k = Ok x -> exists y, f x = Ok y /\ dict_get e k = Ok y).
Proof.
  induction d as [|[a x] d IH]; intro H; cbn [map_res].
  - exists []. split; auto. split; auto. intros k x E. discriminate.
  - destruct (H a x (or_introl eq_refl)) as (y & Ey). cbn [fst snd]. rewrite Ey. cbn [bind].
    destruct IH as (e & Ee & Hk & He); [intros; eapply H; right; eauto|]. rewrite Ee. cbn [bind]. eexists. split; [reflexivity|].
    split; [cbn [map fst]; now rewrite Hk|]. intros k x'. cbn [dict_get]. destruct (k =? a); [intro E; injection E as <-; eauto|auto].
Qed.
