(** A persistence threshold and merges at density zero.  If every positive
    density reaches the threshold, the simplified clusters still do not join
    samples across a merge at density zero. *)
From Coq Require Import List Arith Lia Bool ZArith Permutation Sorted QArith Qcanon.
From Verif Require Import Prelude Order Graph Size Num Forest S_Kruskal S_Precomputed M_Kruskal M_Linkage S_Linkage M_Condense S_Condense
  P_CondenseTop P_Pairs M_Select S_Select P_CTree P_Below P_Eom P_EomTop P_EomValue M_Labels S_Labels P_LabelsEx
  M_Epsilon S_Epsilon P_EpsilonTop M_Simplify S_Simplify P_Simplify P_SimplifyTop P_Faithful M_Pipeline S_Pipeline P_Pipeline P_PipelineTop P_PipelineRun P_PipelineEx.
Import ListNotations.
Local Open Scope nat_scope.

Section Tree.
  Context {V : WOrd} {Sz : SOrd}.
  Variables (n : nat) (wt : nat -> Sz) (mcs : Sz) (T : list (crow V Sz)).
  Hypothesis HT : condensed n wt mcs T.

  Lemma descends_lt c d : descends n T c d -> c < d.
  Proof.
    induction 1 as [r Hr Hc|c d e H1 IH1 H2 IH2]; [|lia].
    apply (parent_lt_child n wt mcs T HT). now apply (in_ct n T).
  Qed.
  Lemma aob_refl c : at_or_below n T c c.
  Proof. left; auto. Qed.
  Lemma aob_trans a b c : at_or_below n T a b -> at_or_below n T b c -> at_or_below n T a c.
  Proof. intros [->|H1] [->|H2]; unfold at_or_below; auto. right. eapply desc_trans; eauto. Qed.
  Lemma aob_row r : In r T -> n <= c_child r -> at_or_below n T (c_parent r) (c_child r).
  Proof. intros. right. now constructor. Qed.
  Lemma aob_le a b : at_or_below n T a b -> a <= b.
  Proof. intros [->|H]; [lia|]. apply descends_lt in H. lia. Qed.

  (** The cluster whose row a sample is in lies at or below every cluster of the sample. *)
  Lemma below_parent c x r : below n T c x -> In r T -> c_child r = x -> at_or_below n T c (c_parent r).
  Proof.
    induction 1 as [q x Hq Ex Hx|q x Hq Hc Hb IH]; intros Hr Er.
    - assert (q = r) as -> by (eapply row_eq; eauto; congruence). left; auto.
    - eapply aob_trans; [apply aob_row; eauto|auto].
  Qed.

  Lemma first_step e d : descends n T e d -> exists a, In a T /\ n <= c_child a /\ c_parent a = e /\ at_or_below n T (c_child a) d.
  Proof.
    induction 1 as [a Ha Hc|c d e H1 IH1 H2 IH2]; [exists a; auto using aob_refl|].
    destruct IH1 as (a & Ha & Hc & E & Hab). exists a. repeat split; auto. eapply aob_trans; eauto. right. auto.
  Qed.
  Lemma desc_row c d : descends n T c d -> exists b, In b T /\ n <= c_child b /\ c_child b = d.
  Proof. induction 1; eauto. Qed.
  (** Births get denser further down. *)
  Lemma births_mono a b : In a T -> In b T -> n <= c_child a -> n <= c_child b -> at_or_below n T (c_child a) (c_child b) ->
    wle (c_lam a) (c_lam b) = true.
  Proof.
    intros Ha Hb Hca Hcb [E|H].
    - assert (b = a) as -> by (eapply row_eq; eauto). apply wle_refl.
    - remember (c_child a) as c eqn:Ec. remember (c_child b) as d eqn:Ed. revert a b Ha Hb Hca Hcb Ec Ed.
      induction H as [r Hr Hc|c d e H1 IH1 H2 IH2]; intros a b Ha Hb Hca Hcb Ec Ed.
      + assert (r = b) as -> by (eapply row_eq; eauto). apply (ct_lambda _ _ _ _ HT); auto. lia.
      + destruct (desc_row _ _ H1) as (m & Hm & Hcm & Em). apply (wle_trans V _ (c_lam m)); [apply IH1|apply IH2]; auto; lia.
  Qed.

  Hypothesis HO : splits_once n T.
  Lemma same_split r q : In r T -> In q T -> n <= c_child r -> n <= c_child q -> c_parent r = c_parent q -> c_lam r = c_lam q.
  Proof.
    intros Hr Hq Hcr Hcq E. destruct (even_length n wt mcs T HT) as (k & Hk). destruct (two_exists k _ Hk) as (PL & HPL).
    pose proof (in_ct n T r Hr Hcr) as Cr. pose proof (in_ct n T q Hq Hcq) as Cq. rewrite HPL in Cr, Cq.
    apply in_two in Cr as (p & Hp & Er). apply in_two in Cq as (p' & Hp' & Eq).
    destruct (pl_in n wt mcs T HT PL HPL p Hp) as (_ & E1 & E2 & _). destruct (pl_in n wt mcs T HT PL HPL p' Hp') as (_ & E1' & E2' & _).
    assert (p' = p) as ->.
    { apply (pl_parent n wt mcs T HT HO PL HPL); auto. unfold pp in *. destruct Er as [->| ->], Eq as [->| ->]; congruence. }
    unfold pd in *. destruct Er as [->| ->], Eq as [->| ->]; congruence.
  Qed.
  Lemma one_sibling c d d' : siblings n T c d -> siblings n T c d' -> d = d'.
  Proof.
    intros H H'. destruct (even_length n wt mcs T HT) as (k & Hk). destruct (two_exists k _ Hk) as (PL & HPL).
    apply (siblings_pair n wt mcs T HT HO PL HPL) in H as (p & Hp & E).
    apply (siblings_pair n wt mcs T HT HO PL HPL) in H' as (p' & Hp' & E').
    assert (p' = p) as ->. { apply (pl_child n wt mcs T HT PL HPL); auto. destruct E as [[? ?]|[? ?]], E' as [[? ?]|[? ?]]; subst; auto. }
    pose proof (pl_in n wt mcs T HT PL HPL p Hp). destruct E as [[? ?]|[? ?]], E' as [[? ?]|[? ?]]; subst; auto; lia.
  Qed.
End Tree.

Section Persist.
  Context {W V : WOrd} {Sz : SOrd}.
  Variables (lam : W -> V) (zero : V) (persists : V -> V -> bool) (garbage : nat -> V)
    (n : nat) (wt : nat -> Sz) (mcs : Sz) (L : list (lrow W Sz)) (T0 : list (crow V Sz)).
  Hypothesis HD : dendrogram n L.
  Hypothesis HH : heights_sorted L.
  Hypothesis Hlam : forall x y, wle x y = true -> wle (lam y) (lam x) = true.
  Hypothesis HT0 : condensed n wt mcs T0.
  Hypothesis HF : faithful n L wt mcs None lam T0.
  Hypothesis HO0 : splits_once n T0.
  Hypothesis HA : ascending T0.
  Hypothesis Hone : slt sone mcs = true.
  Hypothesis Hz : sle (s := Sz) szero sone = true.
  Hypothesis Hne : cluster_rows n T0 <> [].
  Hypothesis Hmono : forall b b' d d', wle b b' = true -> wle d' d = true -> persists b d = true -> persists b' d' = true.
  Notation at0 r := (wle (c_lam r) zero = true).
  Notation dense r := (wlt zero (c_lam r) = true).
  (** Positive densities persist over zero, and zero does not. *)
  Hypothesis Hdense : forall r q, In r T0 -> In q T0 -> dense r -> at0 q -> persists (c_lam r) (c_lam q) = true.
  Hypothesis Hflat : forall r q, In r T0 -> In q T0 -> at0 r -> at0 q -> persists (c_lam r) (c_lam q) = false.

  Lemma dense_not (r : crow V Sz) : dense r -> ~ at0 r.
  Proof. intros H H'. apply wlt_nle in H. congruence. Qed.
  Lemma not_dense (r : crow V Sz) : ~ dense r -> at0 r.
  Proof. intro H. unfold wlt in H. destruct (wle (c_lam r) zero); auto. Qed.
  Lemma dense_up (r q : crow V Sz) : wle (c_lam r) (c_lam q) = true -> dense r -> dense q.
  Proof.
    intros H Hr. unfold wlt. destruct (wle (c_lam q) zero) eqn:E; auto. exfalso. apply (dense_not r Hr).
    eapply wle_trans; eauto.
  Qed.

  Lemma split_all q q0 : In q T0 -> In q0 T0 -> n <= c_child q0 -> c_parent q = c_parent q0 -> at0 q0 -> at0 q.
  Proof.
    intros Hq Hq0 Hc Ep H0. apply (wle_trans V _ (c_lam q0)); auto. apply (split_densest n L wt mcs lam T0 HD HH Hlam HF); auto.
  Qed.

  Lemma peak_exists c : is_cluster n T0 c -> exists v, peak n T0 c v.
  Proof.
    intro Hc. apply (is_cluster_iff n wt mcs T0 HT0) in Hc. destruct (even_length n wt mcs T0 HT0) as (k & Hk). destruct (two_exists k _ Hk) as (PL & HPL).
    eexists. eapply (peak_births persists garbage n wt mcs T0 HT0 HO0 Hone Hz Hne Hmono PL HPL); eauto.
  Qed.

  Lemma last_row_in c r : last_row T0 c r -> In r T0.
  Proof. intros (T1 & T2 & E & _). rewrite E. apply in_elt. Qed.
  Lemma last_ge r : In r T0 -> exists q, last_row T0 (c_parent r) q /\ wle (c_lam r) (c_lam q) = true.
  Proof.
    intro Hr. destruct (last_exists T0 (c_parent r)) as (q & Hq); [eauto|]. exists q. split; auto.
    destruct Hq as (T1 & T2 & E & Ep & Hno). rewrite E in Hr. apply in_app_iff in Hr as [Hr|[->|Hr]].
    - apply (HA T1 q T2 E); auto.
    - apply wle_refl.
    - exfalso. apply (Hno r Hr). auto.
  Qed.

  (** A cluster born at density zero with a dense row below it is persistent. *)
  Lemma dense_persists b r : In b T0 -> n <= c_child b -> at0 b -> In r T0 -> dense r -> at_or_below n T0 (c_child b) (c_parent r) ->
    persistent persists n T0 (c_child b).
  Proof.
    intros Hb Hc H0 Hr Hd Hab. destruct (peak_exists (c_child b)) as (v & Hv); [right; eauto|].
    exists b, v. split; auto. split; auto. split; auto. split; auto.
    destruct (last_ge r Hr) as (q & Hq & Hle). destruct Hv as [(d & p & _ & Hp & <-) Hall].
    apply Hdense; auto; [eapply last_row_in; eauto|]. apply (dense_up q); [eauto|]. apply (dense_up r); auto.
  Qed.
  Lemma below_persists b x r : In b T0 -> n <= c_child b -> at0 b -> below n T0 (c_child b) x -> In r T0 -> c_child r = x -> dense r ->
    persistent persists n T0 (c_child b).
  Proof. intros Hb Hc H0 Hx Hr Er Hd. apply (dense_persists b r); auto. eapply below_parent; eauto. Qed.
  (** A kept cluster born at density zero has a dense row below it. *)
  Lemma kept_dense b : In b T0 -> n <= c_child b -> at0 b -> kept persists n T0 (c_child b) ->
    exists r, In r T0 /\ dense r /\ at_or_below n T0 (c_child b) (c_parent r).
  Proof.
    intros Hb Hc H0 (_ & _ & (b' & v & Hb' & _ & Eb & Hv & Hp) & _).
    assert (b' = b) as -> by (eapply row_eq; eauto). destruct Hv as [(d & p & Hd & Hl & <-) _].
    exists p. pose proof (last_row_in _ _ Hl) as Hin. split; auto. destruct Hl as (_ & _ & _ & -> & _). split; auto.
    unfold wlt. destruct (wle (c_lam p) zero) eqn:E; auto. rewrite (Hflat p b) in Hp; auto.
  Qed.

  (** Both sides of a split persist: the split stays. *)
  Lemma both_kept a b : In a T0 -> In b T0 -> n <= c_child a -> n <= c_child b -> c_parent a = c_parent b -> c_child a <> c_child b ->
    persistent persists n T0 (c_child a) -> persistent persists n T0 (c_child b) -> kept persists n T0 (c_child a).
  Proof.
    intros Ha Hb Hca Hcb Ep Hab Pa Pb. split; [right; eauto|]. split.
    { pose proof (ct_child_in n wt mcs T0 HT0 a (in_ct n T0 a Ha Hca)). lia. }
    split; auto. intros d Hs. assert (Hs' : siblings n T0 (c_child a) (c_child b)) by (exists a, b; auto 10).
    now rewrite (one_sibling n wt mcs T0 HT0 HO0 _ _ _ Hs Hs').
  Qed.

  (** A sample that stays in [c] is not dense if [c] still splits at density zero. *)
  Lemma no_mix c b0 r1 : In b0 T0 -> n <= c_child b0 -> at0 b0 -> kept persists n T0 (c_child b0) ->
    In r1 T0 -> dense r1 -> stays_at persists n T0 (c_parent r1) c ->
    forall e x, below n T0 e x -> x = c_child r1 -> at_or_below n T0 c e -> descends n T0 e (c_child b0) -> False.
  Proof.
    intros Hb0 Hc0 H0 Hk Hr1 Hd1 (_ & _ & Hst).
    assert (Hnk : forall d x, kept persists n T0 d -> below n T0 d x -> x = c_child r1 -> c < d -> False).
    { intros d x Hkd Hx -> Hlt. pose proof (Hst d Hkd (below_parent n wt mcs T0 HT0 d _ r1 Hx Hr1 eq_refl)) as H.
      apply (aob_le n wt mcs T0 HT0) in H. lia. }
    intros e x Hb. induction Hb as [r x Hr Ex Hx|r x Hr Hc Hb IH]; intros E1 Hce Hde.
    - assert (Hrow : r = r1) by (eapply row_eq; eauto; congruence). subst r.
      destruct (first_step n T0 _ _ Hde) as (a & Ha & Hca & Ea & Hab).
      assert (Ha0 : at0 a) by (apply (wle_trans V _ (c_lam b0)); auto; apply (births_mono n wt mcs T0 HT0); auto).
      apply (dense_not r1 Hd1). apply (split_all r1 a); auto.
    - destruct (first_step n T0 _ _ Hde) as (a & Ha & Hca & Ea & Hab).
      assert (Ha0 : at0 a) by (apply (wle_trans V _ (c_lam b0)); auto; apply (births_mono n wt mcs T0 HT0); auto).
      assert (Hr0 : at0 r) by (apply (split_all r a); auto).
      assert (Hcr : c < c_child r).
      { pose proof (aob_le n wt mcs T0 HT0 _ _ Hce). pose proof (parent_lt_child n wt mcs T0 HT0 r (in_ct n T0 r Hr Hc)). lia. }
      destruct (Nat.eq_dec (c_child a) (c_child r)) as [Ear|Har].
      + rewrite Ear in Hab. destruct Hab as [E|Hd].
        * apply (Hnk (c_child b0) x); auto; [rewrite E; auto|lia].
        * apply IH; auto. apply (aob_trans n T0 _ (c_parent r)); auto. now apply aob_row.
      + apply (Hnk (c_child r) x); auto. apply (both_kept r a); auto.
        * apply (below_persists r x r1); auto.
        * destruct (kept_dense b0 Hb0 Hc0 H0 Hk) as (q & Hq & Hqd & Hqa).
          apply (dense_persists a q); auto. eapply aob_trans; eauto.
  Qed.

  (** ** The simplified tree *)
  Variables (T : list (crow V Sz)) (new : nat -> nat).
  Notation K c := (@eq nat c n \/ kept persists n T0 c).
  Hypothesis HT : condensed n wt mcs T.
  Hypothesis HO : splits_once n T.
  Hypothesis Hn0 : 0 < n.
  Hypothesis Hlt : forall c d, K c -> c < d -> new c < new d.
  Hypothesis Hcl : forall c', is_cluster n T c' <-> exists c, K c /\ new c = c'.
  Hypothesis Hbel : forall c x, K c -> (below n T (new c) x <-> below n T0 c x).
  Hypothesis Hkept : forall r, In r T0 -> kept persists n T0 (c_child r) ->
    exists r' c, In r' T /\ c_child r' = new (c_child r) /\ c_lam r' = c_lam r /\ c_size r' = c_size r /\
      stays_at persists n T0 (c_parent r) c /\ c_parent r' = new c.
  Hypothesis Hsam : forall r, In r T0 -> c_child r < n ->
    exists r' c, In r' T /\ c_child r' = c_child r /\
      stays_at persists n T0 (c_parent r) c /\ c_parent r' = new c /\
      (~ lowered persists n T0 (c_parent r) -> c_lam r' = c_lam r) /\
      (lowered persists n T0 (c_parent r) -> forall o, In o T0 -> c_child o = c_parent r -> c_lam r' = c_lam o).

  Lemma new_inj c d : K c -> K d -> new c = new d -> c = d.
  Proof.
    intros Hc Hd E. destruct (Nat.lt_trichotomy c d) as [H|[H|H]]; auto; [pose proof (Hlt c d Hc H)|pose proof (Hlt d c Hd H)]; lia.
  Qed.
  Lemma stays_K p c : stays_at persists n T0 p c -> K c.
  Proof. now intros [H _]. Qed.

  (** Sample rows of the simplified tree are no denser. *)
  Lemma sample_lowers r0 : In r0 T0 -> c_child r0 < n -> exists r c, In r T /\ c_child r = c_child r0 /\
    stays_at persists n T0 (c_parent r0) c /\ c_parent r = new c /\ wle (c_lam r) (c_lam r0) = true.
  Proof.
    intros Hr0 Hx. destruct (Hsam r0 Hr0 Hx) as (r & c & Hr & Ec & Hst & Ep & H1 & H2). exists r, c. repeat (split; auto).
    destruct (wle (c_lam r) (c_lam r0)) eqn:E; auto. exfalso.
    assert (Hnl : ~ lowered persists n T0 (c_parent r0)).
    { intro Hlow. assert (exists o, In o T0 /\ n <= c_child o /\ c_child o = c_parent r0) as (o & Ho & Hco & Eo).
      { destruct Hlow as (d & v & w & (ro & qo & Ho & _ & Hc & _ & Eo & _) & _). eauto. }
      rewrite (H2 Hlow o Ho Eo) in E. rewrite (ct_lambda _ _ _ _ HT0 o r0) in E; auto. discriminate. }
    rewrite (H1 Hnl), wle_refl in E. discriminate.
  Qed.

  (** A row of the simplified tree that creates a cluster. *)
  Lemma cluster_back q : In q T -> n <= c_child q -> exists b c, In b T0 /\ n <= c_child b /\ kept persists n T0 (c_child b) /\
    c_child q = new (c_child b) /\ c_lam q = c_lam b /\ stays_at persists n T0 (c_parent b) c /\ c_parent q = new c.
  Proof.
    intros Hq Hc. assert (Hic : is_cluster n T (c_child q)) by (right; eauto). apply Hcl in Hic as (d & Hd & Ed).
    assert (Hnn : n <= new n).
    { assert (H : is_cluster n T (new n)) by (apply Hcl; eauto). apply (is_cluster_iff n wt mcs T HT) in H. lia. }
    assert (Hroot : new n = n).
    { assert (H : is_cluster n T n) by (left; auto). apply Hcl in H as (c & Hc' & E).
      destruct Hc' as [->|Hk]; auto. destruct Hk as (Hk & Hne' & _). apply (is_cluster_iff n wt mcs T0 HT0) in Hk.
      pose proof (Hlt n c (or_introl eq_refl) ltac:(lia)). lia. }
    destruct Hd as [->|Hk].
    { pose proof (ct_child_in n wt mcs T HT q (in_ct n T q Hq Hc)). lia. }
    pose proof (proj1 Hk) as [->|[Hge (b & Hb & Eb)]]; [destruct Hk as (_ & Hx & _); congruence|].
    rewrite <- Eb in *. destruct (Hkept b Hb Hk) as (q' & c & Hq' & Ec' & El & _ & Hst & Ep).
    assert (q' = q) as -> by (eapply row_eq; eauto; congruence). exists b, c. auto 10.
  Qed.

  Lemma closed q q0 : In q T -> In q0 T -> n <= c_child q0 -> c_parent q = c_parent q0 -> at0 q0 -> at0 q.
  Proof.
    intros Hq Hq0 Hc0 Ep H0. destruct (Nat.lt_ge_cases (c_child q) n) as [Hx|Hx].
    2:{ now rewrite (same_split n wt mcs T HT HO q q0). }
    apply not_dense. intro Hd.
    destruct (cluster_back q0 Hq0 Hc0) as (b0 & c & Hb0 & Hcb0 & Hk & _ & El & Hst & Epq).
    destruct (sample_row n wt mcs T0 HT0 (c_child q) Hx) as (r1 & Hr1 & Er1).
    destruct (sample_lowers r1 Hr1 ltac:(lia)) as (q' & c' & Hq' & Ec' & Hst' & Ep' & Hle).
    assert (q' = q) as -> by (eapply row_eq; eauto; congruence).
    assert (c' = c) as -> by (apply new_inj; [eapply stays_K|eapply stays_K|]; eauto; congruence).
    rewrite El in H0.
    apply (no_mix c b0 r1 Hb0 Hcb0 H0 Hk Hr1 (dense_up q r1 Hle Hd) Hst' c (c_child r1)); auto using aob_refl.
    - apply Hbel; [eapply stays_K; eauto|]. rewrite <- Ep', Er1. now apply below_here.
    - destruct Hst as (_ & Hab & _). destruct Hab as [<-|Hab]; [now constructor|].
      eapply desc_trans; [exact Hab|]. now constructor.
  Qed.

  (** Kept clusters further down are further down in the simplified tree. *)
  Lemma new_desc c b : K c -> In b T0 -> n <= c_child b -> kept persists n T0 (c_child b) -> descends n T0 c (c_child b) ->
    descends n T (new c) (new (c_child b)).
  Proof.
    intros Hc Hb Hcb Hk Hd. pose proof (descends_lt n wt mcs T0 HT0 _ _ Hd) as Hl.
    destruct (ct_sizes _ _ _ _ HT0 b Hb Hcb) as (Hm & xs & _ & Hxs & Es).
    destruct xs as [|x xs].
    { exfalso. rewrite Es in Hm. cbn in Hm. apply slt_true in Hone. rewrite (sle_trans Sz mcs szero sone) in Hone; auto. discriminate. }
    assert (Hx : below n T0 (c_child b) x) by (apply Hxs; simpl; auto).
    assert (Hx' : below n T0 c x).
    { apply (descends_sub n wt mcs T0 HT0) in Hd as [Hd _]. apply (below_up n wt mcs T0 HT0 c (c_child b)); auto. }
    apply (descends_sub n wt mcs T HT). pose proof (Hlt c (c_child b) Hc Hl) as Hnl. split; [|lia].
    apply (Hbel c x Hc) in Hx'. apply (Hbel _ x (or_intror Hk)) in Hx.
    destruct (below_nested n wt mcs T HT _ _ _ Hx Hx') as [|H]; auto.
    exfalso. destruct (Nat.eq_dec (new c) (new (c_child b))) as [|Hne']; [lia|].
    assert (Hdd : descends n T (new (c_child b)) (new c)) by (apply (descends_sub n wt mcs T HT); auto).
    apply (descends_lt n wt mcs T HT) in Hdd. lia.
  Qed.

  Lemma kept_together s x y rx ry : K s ->
    (forall q, In q T -> n <= c_child q -> descends n T (new s) (c_child q) -> dense q) ->
    In rx T0 -> c_child rx = x -> dense rx -> In ry T0 -> c_child ry = y -> dense ry ->
    forall e, below n T0 e x -> below n T0 e y -> at_or_below n T0 s e -> is_cluster n T0 e ->
    exists i r, nth_error L i = Some r /\ wlt zero (lam (l_d r)) = true /\ under n L (n + i) x /\ under n L (n + i) y.
  Proof.
    intros Hs Hdz Hrx Ex Hdx Hry Ey Hdy.
    (* all rows of e towards x and y are dense *)
    assert (Hfin : forall e, below n T0 e x -> below n T0 e y -> is_cluster n T0 e ->
      (forall q, In q T0 -> n <= c_child q -> c_parent q = e -> below n T0 (c_child q) x \/ below n T0 (c_child q) y -> dense q) ->
      exists i r, nth_error L i = Some r /\ wlt zero (lam (l_d r)) = true /\ under n L (n + i) x /\ under n L (n + i) y).
    { intros e Hbx Hby He Hq. apply (leave_together n L wt mcs lam T0 HD HF e x y (fun v => wlt zero v = true) He Hbx Hby).
      - intros q Hq1 Ep [Ec|[Hc Hb]]; [|apply Hq; auto]. assert (q = rx) as -> by (apply (row_eq n wt mcs T0 HT0); auto; congruence). auto.
      - intros q Hq1 Ep [Ec|[Hc Hb]]; [|apply Hq; auto]. assert (q = ry) as -> by (apply (row_eq n wt mcs T0 HT0); auto; congruence). auto. }
    intros e Hbx. induction Hbx as [r x Hr Er Hxn|r x Hr Hc Hb IH]; intros Hby Hse He.
    - apply (Hfin (c_parent r)); auto; [rewrite <- Er; apply below_here; auto; lia|]. intros q Hq Hcq Ep _.
      unfold wlt. destruct (wle (c_lam q) zero) eqn:E; auto. exfalso.
      assert (r = rx) as -> by (apply (row_eq n wt mcs T0 HT0); auto; congruence).
      apply (dense_not rx Hdx). apply (split_all rx q); auto.
    - destruct (wlt zero (c_lam r)) eqn:Edr.
      + apply (Hfin (c_parent r)); auto; [now apply below_deep|]. intros q Hq Hcq Ep _. rewrite (same_split n wt mcs T0 HT0 HO0 q r); auto.
      + assert (Hr0 : at0 r) by (apply wlt_false in Edr; auto).
        assert (Hpr : persistent persists n T0 (c_child r)) by (apply (below_persists r x rx); auto).
        assert (exists q, In q T0 /\ n <= c_child q /\ c_parent q = c_parent r /\ below n T0 (c_child q) y) as (q & Hq & Hcq & Epq & Hqy).
        { destruct (below_first n T0 _ _ Hby) as (q & Hq & Ep & [Ec|[Hcq Hqy]]); [|eauto].
          exfalso. assert (q = ry) as -> by (apply (row_eq n wt mcs T0 HT0); auto; congruence).
          apply (dense_not ry Hdy). apply (split_all ry r); auto. }
        destruct (Nat.eq_dec (c_child q) (c_child r)) as [E|E].
        * rewrite E in Hqy. apply IH; auto; [|right; eauto]. apply (aob_trans n T0 _ (c_parent r)); auto. now apply aob_row.
        * exfalso. assert (Hq0 : at0 q) by (apply (split_all q r); auto).
          assert (Hpq : persistent persists n T0 (c_child q)) by (apply (below_persists q y ry); auto).
          assert (Hk : kept persists n T0 (c_child r)) by (apply (both_kept r q); auto).
          destruct (Hkept r Hr Hk) as (r' & c & Hr' & Ec' & El & _).
          assert (Hd : descends n T0 s (c_child r)).
          { destruct Hse as [<-|Hse]; [now constructor|]. eapply desc_trans; [exact Hse|]. now constructor. }
          pose proof (new_desc s r Hs Hr Hc Hk Hd) as Hnd. rewrite <- Ec' in Hnd.
          assert (Hcr' : n <= c_child r') by (destruct (desc_row n T _ _ Hnd) as (? & _ & ? & <-); auto).
          apply (dense_not r' (Hdz r' Hr' Hcr' Hnd)). now rewrite El.
  Qed.
End Persist.

(** ** Complete runs *)
Section Runs.
  Context {W V : WOrd} {Sz : SOrd}.
  Variables (lam : W -> V) (LA : LamArith V) (A : Arith V Sz) (garbage : nat -> V)
    (by_parent : list (crow V Sz) -> list (crow V Sz)) (st : settings V Sz) (persists : V -> V -> bool).
  Variables (n : nat) (wt : nat -> Sz) (M : list (edge W)) (L : list (lrow W Sz)).
  Notation zero := (la_zero LA).
  Notation mcs := (min_cluster_size st).
  Hypothesis HK : setting_ok lam LA A by_parent st.
  Hypothesis HL : linkage_facts n wt M L.
  Hypothesis Hn : 2 <= n.
  Hypothesis Hsz : sle (s := Sz) szero sone = true.
  Hypothesis Hwt : forall x, x < n -> sle mcs (wt x) = false.
  Hypothesis Hper : cluster_selection_persistence st = Some persists.
  Hypothesis Hdense : forall e f, In e M -> In f M -> wlt zero (lam (ewt e)) = true -> wle (lam (ewt f)) zero = true ->
    persists (lam (ewt e)) (lam (ewt f)) = true.
  Hypothesis Hflat : forall e f, In e M -> In f M -> wle (lam (ewt e)) zero = true -> wle (lam (ewt f)) zero = true ->
    persists (lam (ewt e)) (lam (ewt f)) = false.
  Notation run := (clusters_from_linkage_tree lam LA A garbage by_parent st wt n L).

  Lemma res_together_persist Z N P ls ps T : ScoreLaws lam A zero Z N P -> run = Ok (ls, ps, T) ->
    forall x y, x < n -> y < n -> nth x ls 0%Z <> (-1)%Z -> nth x ls 0%Z = nth y ls 0%Z ->
    connected (passing (fun w => wlt zero (lam w)) M) x y.
  Proof.
    intros HSL ER x y Hx Hy Hl Exy. pose proof HK as [H1 H2 H3 H4 H5 H6]. pose proof HL as (L1 & L2 & L3 & _).
    destruct (c24 W V Sz n L wt mcs None lam L1 L2 L3 H5 Hwt Hn) as (T0 & ET0 & HT0 & HF & HO0). specialize (HO0 eq_refl).
    pose proof (c24_ascending W V Sz n L wt mcs lam T0 L1 L2 L3 H5 Hwt Hn ET0) as HA.
    pose proof (us_size _ _ H1) as Hone. assert (Hn0 : 0 < n) by lia.
    destruct (linkage_cases lam LA (plain_sel A st n) garbage by_parent st n wt L H2 H1 H3 (plain_selects LA A st n wt H1 H4 Hn) Hsz Hn H5 H6 L1 L2 L3 Hwt)
      as [(T' & S & E & ls' & ps' & EC & ER' & HX & HT & HO & Hp & _)|(_ & ER' & _)].
    2:{ rewrite plain_run in ER. congruence. }
    rewrite plain_run in ER. rewrite ER in ER'. injection ER' as <- <- <-.
    assert (ES : simplify_hierarchy persists garbage T0 = Ok T).
    { unfold condensed_tree_of in EC. rewrite ET0 in EC. cbn [bind] in EC. rewrite Hper in EC. destruct T0 as [|r0 T0']; auto.
      exfalso. apply (rows_nonempty n wt mcs [] HT0); auto. }
    assert (Hne : cluster_rows n T0 <> []).
    { intro E0. rewrite (c31_empty V Sz persists garbage n wt mcs T0 HT0 Hone E0) in ES. discriminate. }
    pose proof (us_persist _ _ H1 persists Hper) as Hmono.
    destruct (c31 V Sz persists garbage n wt mcs T0 HT0 HO0 Hone Hsz Hne Hmono) as (T' & new & ES' & _ & _ & _ & Hlt & Hcl & Hbel & Hkept & Hsam & _).
    rewrite ES in ES'. injection ES' as <-.
    assert (Hrow : forall r, In r T0 -> exists e, In e M /\ c_lam r = lam (ewt e)).
    { intros r Hr. destruct (row_height n L wt mcs lam T0 HF r Hr) as (q & Hq & ->).
      pose proof HL as (_ & _ & _ & Em & _). assert (Hi : In (l_d q) (map ewt (sort_mst M))) by (rewrite <- Em; now apply in_map).
      apply in_map_iff in Hi as (e & <- & He). exists e. split; auto. eapply Permutation_in; [apply Permutation_sym, sort_mst_perm|auto]. }
    assert (Hd' : forall r q, In r T0 -> In q T0 -> wlt zero (c_lam r) = true -> wle (c_lam q) zero = true -> persists (c_lam r) (c_lam q) = true).
    { intros r q Hr Hq. destruct (Hrow r Hr) as (e & He & ->). destruct (Hrow q Hq) as (f & Hf & ->). auto. }
    assert (Hf' : forall r q, In r T0 -> In q T0 -> wle (c_lam r) zero = true -> wle (c_lam q) zero = true -> persists (c_lam r) (c_lam q) = false).
    { intros r q Hr Hq. destruct (Hrow r Hr) as (e & He & ->). destruct (Hrow q Hq) as (f & Hf & ->). auto. }
    destruct (share_cluster LA (plain_sel A st n) by_parent st n wt Hn T S E ls ps HX HT Hp x y Hx Hy Hl Exy)
      as (t & rx & ry & Ht & Hrx & Hry & Ex & Ey & Hlx & Hly & Hbx & Hby).
    assert (Hspl : forall q q0, In q T -> In q0 T -> n <= c_child q0 -> c_parent q = c_parent q0 ->
        wle (c_lam q0) zero = true -> wle (c_lam q) zero = true).
    { eapply closed with (lam := lam) (L := L) (T0 := T0) (new := new); eauto. }
    assert (HlT : forall r, In r T -> exists d, c_lam r = lam d).
    { intros r Hr. destruct (c31_lambdas V Sz persists garbage n wt mcs T0 T HT0 HO0 Hone Hsz Hne Hmono ES r Hr) as (r0 & Hr0 & ->).
      destruct (Hrow r0 Hr0) as (e & _ & ->). eauto. }
    assert (Hdz := labelled_not_zero lam LA (plain_sel A st n) by_parent st n wt H1 Hn A Z N P (fun T => eq_refl) HSL T S E ls ps HX HT HlT Hp Hspl t Ht rx Hrx
      ltac:(lia) ltac:(rewrite Ex; auto) Hlx).
    pose proof (oc_E_clusters _ _ _ _ _ _ _ _ _ _ HX t Ht) as Hct. apply Hcl in Hct as (s & Hs & Es).
    assert (Hup : forall z r, In r T -> c_child r = z -> z < n -> wlt zero (c_lam r) = true -> exists r0, In r0 T0 /\ c_child r0 = z /\ wlt zero (c_lam r0) = true).
    { intros z r Hr Er Hz Hlr. destruct (sample_row n wt mcs T0 HT0 z Hz) as (r0 & Hr0 & Er0). exists r0. split; auto. split; auto.
      destruct (sample_lowers persists n wt mcs T0 HT0 T new Hsam r0 Hr0 ltac:(lia)) as (r' & c & Hr' & Ec & _ & _ & Hle).
      assert (r' = r) as -> by (apply (row_eq n wt mcs T HT); auto; congruence).
      unfold wlt. destruct (wle (c_lam r0) zero) eqn:E0; auto. apply wlt_nle in Hlr.
      rewrite (wle_trans V _ _ _ Hle E0) in Hlr. discriminate. }
    destruct (Hup x rx Hrx Ex Hx Hlx) as (rx0 & Hrx0 & Ex0 & Hlx0). destruct (Hup y ry Hry Ey Hy Hly) as (ry0 & Hry0 & Ey0 & Hly0).
    rewrite <- Es in *. apply (Hbel s x Hs) in Hbx. apply (Hbel s y Hs) in Hby.
    assert (Hcs : is_cluster n T0 s) by (destruct Hs as [->|Hs]; [left; auto|exact (proj1 Hs)]).
    destruct (kept_together lam zero persists garbage n wt mcs L T0 L1 L3 H5 HT0 HF HO0 HA Hone Hsz Hne Hmono Hd' T new HT Hn0 Hlt Hbel Hkept
      s x y rx0 ry0 Hs Hdz Hrx0 Ex0 Hlx0 Hry0 Ey0 Hly0 s Hbx Hby (aob_refl n T0 s) Hcs) as (i & r & Hr & Hlr & Ux & Uy).
    apply (facts_connected n wt M L (fun w => wlt zero (lam w)) HL) with (i := i) (r := r); auto.
    intros a b Hab Hb. unfold wlt in *. apply negb_true_iff in Hb. apply negb_true_iff.
    destruct (wle (lam a) zero) eqn:Ea; auto. rewrite (wle_trans V (lam b) (lam a) zero) in Hb; auto.
  Qed.
End Runs.

(** ** Exact arithmetic *)
Lemma exact_dense (p : Qc) (w w' : QInf) : (0 < p)%Qc ->
  (forall d, w = Some d -> (p * d <= 1)%Qc) ->
  wlt (Some 0%Qc : QInf) (hdbscan_lambda_value w) = true -> wle (hdbscan_lambda_value w') (Some 0%Qc : QInf) = true ->
  exact_persists p (hdbscan_lambda_value w) (hdbscan_lambda_value w') = true.
Proof.
  intros Hp Hw H1 H2. assert (E : hdbscan_lambda_value w' = Some 0%Qc).
  { pose proof (exact_nonneg w') as H3. destruct (hdbscan_lambda_value w') as [l|]; [|discriminate].
    cbn in H2, H3. apply Qcleb_le in H2, H3. f_equal. now apply Qcle_antisym. }
  rewrite E. destruct w as [d|]; [|discriminate]. cbn [hdbscan_lambda_value] in *. destruct (Qcleb d 0) eqn:Ed; [reflexivity|].
  cbn. apply Qcleb_le. apply Qcleb_gt in Ed. specialize (Hw d eq_refl).
  replace (/ d - 0)%Qc with (/ d)%Qc by ring.
  assert (Hd : d <> 0%Qc) by (intro E0; rewrite E0 in Ed; apply (Qclt_not_eq _ _ Ed); auto).
  replace p with (p * d * / d)%Qc by (field; auto). replace (/ d)%Qc with (1 * / d)%Qc at 2 by ring.
  apply Qcmult_le_compat_r; auto. apply Qclt_le_weak, Qcinv_pos; auto.
Qed.
Lemma exact_flat (p : Qc) (w w' : QInf) : (0 < p)%Qc ->
  wle (hdbscan_lambda_value w) (Some 0%Qc : QInf) = true -> wle (hdbscan_lambda_value w') (Some 0%Qc : QInf) = true ->
  exact_persists p (hdbscan_lambda_value w) (hdbscan_lambda_value w') = false.
Proof.
  intros Hp. assert (E : forall w, wle (hdbscan_lambda_value w) (Some 0%Qc : QInf) = true -> hdbscan_lambda_value w = Some 0%Qc).
  { intros u H2. pose proof (exact_nonneg u) as H3. destruct (hdbscan_lambda_value u) as [l|]; [|discriminate].
    cbn in H2, H3. apply Qcleb_le in H2, H3. f_equal. now apply Qcle_antisym. }
  intros H1 H2. rewrite (E _ H1), (E _ H2). cbn. apply Qcleb_gt. replace (0 - 0)%Qc with 0%Qc by ring. auto.
Qed.

Section ExactRuns.
  Variables (garbage : nat -> QInf).
  Lemma exact_together_persist by_parent mcs m a e p n M ls ps T :
    sorts_by_parent by_parent -> 2 <= mcs -> spanning_tree n M -> 2 <= n -> (0 < p)%Qc -> edges_within p M ->
    exact_clusters garbage by_parent (exact_settings (Sz := NatSize) mcs m a e p) M = Ok (ls, ps, T) ->
    forall x y, x < n -> y < n -> nth x ls 0%Z <> (-1)%Z -> nth x ls 0%Z = nth y ls 0%Z -> connected (passing wfinite M) x y.
  Proof.
    intros HB Hm HM Hn Hp HW ER x y Hx Hy Hl E. apply passing_finite.
    destruct (linkage_plain n M HM) as (L & EL & HL). unfold exact_clusters, clusters_from_spanning_tree in ER. rewrite EL in ER. cbn [bind] in ER.
    rewrite (facts_length n M HM) in ER. assert (Hs : slt (S := NatSize) sone mcs = true) by (apply nat_mcs; auto).
    eapply (res_together_persist hdbscan_lambda_value ExactLam (ExactArith NatSize nat_as_q) garbage by_parent (exact_settings (Sz := NatSize) mcs m a e p)
      (exact_persists p) n (fun _ => 1) M L); eauto.
    - apply exact_ok; auto.
    - intros z _. apply slt_true in Hs. auto.
    - cbn. apply Qcleb_gt in Hp. now rewrite Hp.
    - intros f g Hf Hg H1 H2. apply exact_dense; auto. intros d Ed. exact (HW f d Hf Ed).
    - intros f g Hf Hg H1 H2. apply exact_flat; auto.
    - apply exact_laws. apply nat_pos.
  Qed.
  Lemma exact_together_persist_weighted by_parent mcs m a e p n M ws ls ps T :
    sorts_by_parent by_parent -> (1 < mcs)%Qc -> spanning_tree n M -> 2 <= n -> (0 < p)%Qc -> edges_within p M ->
    length ws = n -> (forall w, In w ws -> (w < mcs)%Qc) ->
    exact_clusters_weighted garbage by_parent (exact_settings (Sz := QcSize) mcs m a e p) M ws = Ok (ls, ps, T) ->
    forall x y, x < n -> y < n -> nth x ls 0%Z <> (-1)%Z -> nth x ls 0%Z = nth y ls 0%Z -> connected (passing wfinite M) x y.
  Proof.
    intros HB Hm HM Hn Hp HW Hw Hws ER x y Hx Hy Hl E. apply passing_finite.
    destruct (linkage_weighted (Sz := QcSize) n M ws HM Hw) as (L & EL & HL). unfold exact_clusters_weighted, clusters_from_spanning_tree_weighted in ER. rewrite EL in ER. cbn [bind] in ER.
    rewrite (facts_length n M HM) in ER. assert (Hs : slt (S := QcSize) sone mcs = true) by (apply slt_true; apply Qcleb_gt; auto).
    eapply (res_together_persist hdbscan_lambda_value ExactLam (ExactArith QcSize (fun q => q)) garbage by_parent (exact_settings (Sz := QcSize) mcs m a e p)
      (exact_persists p) n _ M L); eauto.
    - apply exact_ok; auto.
    - intros z Hz. apply Qcleb_gt. apply Hws. apply nth_In. exact (eq_ind_r (fun k => z < k) Hz Hw).
    - cbn. apply Qcleb_gt in Hp. now rewrite Hp.
    - intros f g Hf Hg H1 H2. apply exact_dense; auto. intros d Ed. exact (HW f d Hf Ed).
    - intros f g Hf Hg H1 H2. apply exact_flat; auto.
    - apply exact_laws. intros s Hs'. apply Qcleb_le in Hs'. eapply Qclt_le_trans; [|exact Hs']. reflexivity.
  Qed.

  Lemma exact_cannot_link_persist by_parent mcs m a e p n CL E M ls ps T :
    sorts_by_parent by_parent -> 2 <= mcs -> 2 <= n -> (0 < p)%Qc -> edges_within p M -> bridged_result n CL E M ->
    exact_clusters garbage by_parent (exact_settings (Sz := NatSize) mcs m a e p) M = Ok (ls, ps, T) ->
    forall x y, x < n -> y < n -> CL x y -> nth x ls 0%Z = nth y ls 0%Z -> nth x ls 0%Z = (-1)%Z.
  Proof.
    intros HB Hm Hn Hp HW HM ER x y Hx Hy Hxy E'. destruct (Z.eq_dec (nth x ls 0%Z) (-1)) as [|Hl]; auto. exfalso.
    pose proof HM as (F & B & EM & HF & HT & HBr). apply (cf_respects _ _ _ HF x y Hxy).
    eapply connected_incl; [|eapply (exact_together_persist by_parent mcs m a e p n M ls ps T); eauto].
    intros f Hf. apply in_passing in Hf as [Hf Hfin]. rewrite EM in Hf. apply in_app_or in Hf as [|Hf]; auto.
    rewrite Forall_forall in HBr. destruct (HBr f Hf) as [Ew _]. rewrite Ew in Hfin. discriminate.
  Qed.
End ExactRuns.
