(** cluster_selection_persistence: the result in terms of the tree it starts from. *)
From Coq Require Import List Arith Lia Bool ZArith QArith Qcanon Permutation.
From Verif Require Import Prelude Order Size Num Forest P_Pairs M_Linkage S_Linkage M_Condense S_Condense M_Select P_CTree P_Below P_Eom
  P_CondenseTop P_SelectTop M_Simplify S_Simplify P_Simplify P_SimplifyMap.
Import ListNotations.
Local Open Scope nat_scope.

Section Spec.
  Context {V : WOrd} {Sz : SOrd}.
  Variables (persists : V -> V -> bool) (garbage : nat -> V) (n : nat) (wt : nat -> Sz) (mcs : Sz) (T : list (crow V Sz)).
  Hypothesis HT : condensed n wt mcs T.
  Hypothesis HO : splits_once n T.
  Hypothesis Hone : slt sone mcs = true.
  Hypothesis Hz : sle (s := Sz) szero sone = true.
  Hypothesis Hne : cluster_rows n T <> [].
  Hypothesis Hmono : forall b b' d d', wle b b' = true -> wle d' d = true -> persists b d = true -> persists b' d' = true.
  Notation CT := (cluster_rows n T).
  Notation ch := (children_of CT).
  Notation top := (top_id n T).
  Notation sb := (sub ch top).
  Notation up := (ct_up n wt mcs T HT).
  Notation bound := (ct_bound n wt mcs T HT).
  Notation cone := (ct_one n wt mcs T HT).
  Variable PL : list (crow V Sz * crow V Sz).
  Hypothesis HPL : CT = two PL.
  Notation PI := (pl_in n wt mcs T HT PL HPL).
  Notation s := (sf persists garbage n T).
  Notation INV := (sf_inv persists garbage n wt mcs T HT HO Hmono PL HPL).
  Notation mb := (max_births s).
  Notation pm := (parent_map s).
  Notation kp := (kp persists garbage n T).
  Notation rep := (rep persists garbage n T).
  Notation KI := (kp_iff persists garbage n wt mcs T HT HO Hmono PL HPL).
  Notation RO := (rep_ok persists garbage n wt mcs T HT HO Hmono PL HPL).
  Notation births0 := (births0 garbage T).

  Lemma has_row c : n <= c < top -> exists r, In r T /\ c_parent r = c.
  Proof.
    intro Hc. destruct (Nat.eq_dec c n) as [->|Hn].
    - destruct (root_children n wt mcs T HT Hne) as (r & Hr & E). exists r. split; auto. now apply (ct_in n T).
    - assert (Hi : is_cluster n T c) by (apply (is_cluster_iff n wt mcs T HT); auto).
      destruct Hi as [|(_ & r & Hr & Ec)]; [contradiction|].
      destruct (ct_sizes _ _ _ _ HT r Hr) as (Hm & xs & _ & Hxs & Es); [lia|].
      destruct xs as [|x xs].
      + exfalso. rewrite Es in Hm. cbn in Hm. apply slt_true in Hone.
        rewrite (sle_trans Sz mcs szero sone) in Hone; auto. discriminate.
      + assert (Hb : below n T c x) by (rewrite <- Ec; apply Hxs; simpl; auto). inversion Hb as [q y Hq|q y Hq]; exists q; auto.
  Qed.
  Lemma last_exists L c : (exists r, In r L /\ c_parent r = c) -> exists r, last_row (Sz := Sz) (V := V) L c r.
  Proof.
    induction L as [|q L IH] using rev_ind; intros (r & Hr & Ep); [destruct Hr|].
    destruct (Nat.eq_dec (c_parent q) c) as [E|E].
    - exists q, L, []. repeat split; auto; intros ? [].
    - apply in_app_iff in Hr as [Hr|[<-|[]]]; [|contradiction].
      destruct IH as (r' & L1 & L2 & -> & E1 & H2); [eauto|].
      exists r', L1, (L2 ++ [q]). split; [now rewrite <- app_assoc|]. split; auto.
      intros x Hx. apply in_app_iff in Hx as [Hx|[<-|[]]]; auto.
  Qed.
  Lemma births0_last c r : last_row T c r -> births0 c = c_lam r.
  Proof.
    intros (T1 & T2 & -> & Ep & H2). unfold P_SimplifyMap.births0. rewrite fold_left_app. cbn [fold_left].
    set (b := fold_left _ T1 garbage). clearbody b. rewrite Ep.
    assert (H : forall L b, (forall q : crow V Sz, In q L -> c_parent q <> c) -> fold_left (fun births (r : crow V Sz) => upd births (c_parent r) (c_lam r)) L b c = b c).
    { induction L as [|q L IH]; intros b' H; auto. cbn [fold_left]. rewrite IH by (intros; apply H; simpl; auto).
      apply upd_neq. intro E. apply (H q); simpl; auto. }
    rewrite H by auto. apply upd_eq.
  Qed.

  Lemma aob_sub c d : at_or_below n T c d <-> In d (sb c).
  Proof.
    unfold at_or_below. rewrite (descends_sub n wt mcs T HT). split.
    - intros [->|[]]; auto. apply (sub_self ch top up bound).
    - intro H. destruct (Nat.eq_dec d c); auto.
  Qed.
  Lemma sub_in c d : n <= c < top -> In d (sb c) -> n <= d < top.
  Proof. intros Hc Hd. apply (sub_range n wt mcs T HT) in Hd as [->|]; lia. Qed.

  Lemma births_ge c : forall d, In d (sb c) -> wle (births0 d) (mb c) = true.
  Proof.
    revert c. apply (sub_ind ch top up bound (fun c => forall d, In d (sb c) -> wle (births0 d) (mb c) = true)).
    intros c IH d Hd. apply (sub_inv ch top up bound) in Hd as [->|(u & Hu & Hd)]; [apply (i_ge _ _ _ _ _ INV)|].
    eapply wle_trans; [apply (IH u Hu d Hd)|]. apply (ch_pl n wt mcs T HT PL HPL) in Hu as (p & Hp & <- & E).
    destruct (i_child _ _ _ _ _ INV p Hp). destruct E as [->| ->]; auto.
  Qed.
  Lemma births_att c : exists d, In d (sb c) /\ mb c = births0 d.
  Proof.
    revert c. apply (sub_ind ch top up bound (fun c => exists d, In d (sb c) /\ mb c = births0 d)).
    intros c IH. destruct (i_att _ _ _ _ _ INV c) as [E|(p & Hp & Ec & E)].
    - exists c. split; auto. apply (sub_self ch top up bound).
    - assert (Ha : In (pa p) (ch c)) by (apply (ch_pl n wt mcs T HT PL HPL); eauto).
      assert (Hb : In (pb p) (ch c)) by (apply (ch_pl n wt mcs T HT PL HPL); eauto).
      destruct E as [E|E]; [destruct (IH _ Ha) as (d & Hd & Ed); exists d; split; [now apply (sub_child ch top up bound c _ Ha)|congruence]
                           |destruct (IH _ Hb) as (d & Hd & Ed); exists d; split; [now apply (sub_child ch top up bound c _ Hb)|congruence]].
  Qed.
  Lemma peak_births c : n <= c < top -> peak n T c (mb c).
  Proof.
    intro Hc. split.
    - destruct (births_att c) as (d & Hd & E). destruct (last_exists T d (has_row d (sub_in c d Hc Hd))) as (r & Hr).
      exists d, r. split; [now apply aob_sub|]. split; auto. rewrite E. symmetry. now apply births0_last.
    - intros d r Hd Hr. apply aob_sub in Hd. rewrite <- (births0_last d r Hr). now apply births_ge.
  Qed.
  Lemma peak_eqv c v : n <= c < top -> peak n T c v -> wle v (mb c) = true /\ wle (mb c) v = true.
  Proof.
    intros Hc [(d & r & Hd & Hr & <-) H2]. destruct (peak_births c Hc) as [(d' & r' & Hd' & Hr' & <-) H2'].
    split; [exact (H2' d r Hd Hr)|exact (H2 d' r' Hd' Hr')].
  Qed.

  Lemma persistent_iff c o : In o CT -> c_child o = c -> (persistent persists n T c <-> persists (mb c) (c_lam o) = true).
  Proof.
    intros Ho Ec. pose proof (ct_child_in n wt mcs T HT o Ho) as Hr. assert (Hc : n <= c < top) by lia. split.
    - intros (r & v & Hr' & Hcr & E & Hv & Hp). assert (r = o) as -> by (apply (ct_row_eq n wt mcs T HT); auto; [now apply (in_ct n T)|congruence]).
      destruct (peak_eqv c v Hc Hv). eapply Hmono; [| |exact Hp]; auto. apply wle_refl.
    - intro H. exists o, (mb c). split; [now apply (ct_in n T)|]. split; [lia|]. split; auto. split; auto. now apply peak_births.
  Qed.
  Lemma stays_iff p : In p PL -> (stays persists s p = true <-> persistent persists n T (pa p) /\ persistent persists n T (pb p)).
  Proof.
    intro Hp. destruct (PI p Hp) as (Eb & E1 & E2 & Hlt & Hf & Hsn & Htop).
    rewrite (persistent_iff (pa p) (fst p) Hf eq_refl), (persistent_iff (pb p) (snd p) Hsn eq_refl), E2. fold (pd p).
    unfold stays, wmin. destruct (wlt (mb (pb p)) (mb (pa p))) eqn:E.
    - split; [|tauto]. intro H. split; auto. eapply Hmono; [| |exact H]; [now apply wlt_le|apply wle_refl].
    - apply wlt_false in E. split; [|tauto]. intro H. split; auto. eapply Hmono; [| |exact H]; auto. apply wle_refl.
  Qed.

  Lemma siblings_pair c d : siblings n T c d <-> exists p, In p PL /\ ((c = pa p /\ d = pb p) \/ (c = pb p /\ d = pa p)).
  Proof.
    split.
    - intros (r & q & Hr & Hq & Hcr & Hcq & <- & <- & Ep & Hcd).
      assert (HrC : In r CT) by now apply (in_ct n T). assert (HqC : In q CT) by now apply (in_ct n T).
      assert (H1 : In (c_child r) (ch (c_parent r))) by (apply (ch_in n T); eauto).
      assert (H2 : In (c_child q) (ch (c_parent r))) by (apply (ch_in n T); eauto).
      apply (ch_pl n wt mcs T HT PL HPL) in H1 as (p & Hp & Epp & H1). apply (ch_pl n wt mcs T HT PL HPL) in H2 as (p' & Hp' & Epp' & H2).
      assert (p' = p) as -> by (apply (pl_parent n wt mcs T HT HO PL HPL); auto; congruence).
      exists p. split; auto. destruct H1 as [H1|H1], H2 as [H2|H2]; auto; congruence.
    - intros (p & Hp & E). destruct (PI p Hp) as (Eb & E1 & E2 & Hlt & Hf & Hsn & Htop). unfold pa, pb, pp in *.
      assert (In (fst p) T) by now apply (ct_in n T). assert (In (snd p) T) by now apply (ct_in n T).
      destruct E as [[-> ->]|[-> ->]]; [exists (fst p), (snd p)|exists (snd p), (fst p)]; repeat (split; auto); lia.
  Qed.

  Lemma kept_iff c : kept persists n T c <-> n < c < top /\ pm c = c.
  Proof.
    unfold kept. rewrite (is_cluster_iff n wt mcs T HT).
    assert (Hpair : forall p, In p PL -> c = pa p \/ c = pb p -> (pm c = c <-> stays persists s p = true)).
    { intros p Hp E. pose proof (PI p Hp). destruct (pm_pair persists garbage n wt mcs T HT HO Hmono PL HPL p Hp) as [(-> & M1 & M2)|(-> & M1 & M2)];
        destruct E as [->| ->]; split; auto; lia. }
    split.
    - intros (Hc & Hn & Hp & Hs). split; [lia|]. destruct (pl_of n wt mcs T HT PL HPL c) as (p & Hpp & E); [lia|].
      apply (Hpair p Hpp E). apply stays_iff; auto. destruct E as [->| ->]; split; auto; apply Hs; apply siblings_pair; eauto.
    - intros [Hc Hm]. split; [lia|]. split; [lia|]. destruct (pl_of n wt mcs T HT PL HPL c Hc) as (p & Hpp & E).
      apply (Hpair p Hpp E) in Hm. apply stays_iff in Hm as [H1 H2]; auto.
      assert (Hboth : forall x, x = pa p \/ x = pb p -> persistent persists n T x) by (intros x [->| ->]; auto).
      split; [now apply Hboth|]. intros d Hd. apply siblings_pair in Hd as (p' & Hp' & E').
      assert (p' = p) as -> by (apply (pl_child n wt mcs T HT PL HPL); auto; destruct E, E' as [[-> _]|[-> _]]; auto).
      apply Hboth. destruct E' as [[_ ->]|[_ ->]]; auto.
  Qed.
  Lemma kept_kp c : kept persists n T c -> n <= c < top /\ kp c = true.
  Proof. intro H. apply kept_iff in H as [H1 H2]. split; [lia|]. apply KI; auto. lia. Qed.
  Lemma kp_kept c : n <= c < top -> kp c = true -> c = n \/ kept persists n T c.
  Proof. intros Hc K. apply KI in K; auto. destruct (Nat.eq_dec c n); auto. right. apply kept_iff. split; auto. lia. Qed.

  Lemma splits_iff d : n <= d < top -> (splits PL pm d <-> exists e, kept persists n T e /\ descends n T d e).
  Proof.
    intro Hd. split.
    - intro H. clear Hd. induction H as [p d Hp Hd Hk|p d Hp Hd Hm Hs IH];
        assert (Hch : In d (ch (pp p))) by (apply (ch_pl n wt mcs T HT PL HPL); eauto); pose proof (PI p Hp).
      + exists d. split; [apply kept_iff; split; auto; destruct Hd; lia|].
        apply (descends_sub n wt mcs T HT). split; [apply (sub_child ch top up bound _ _ Hch), (sub_self ch top up bound)|]. pose proof (up _ _ Hch). lia.
      + destruct IH as (e & He & Hde). exists e. split; auto. apply (descends_sub n wt mcs T HT) in Hde as [Hi Hn].
        apply (descends_sub n wt mcs T HT). split; [now apply (sub_child ch top up bound _ _ Hch)|]. pose proof (up _ _ Hch).
        apply (sub_ge ch top up bound) in Hi. lia.
    - intros (e & He & Hde). apply (descends_sub n wt mcs T HT) in Hde as [Hi Hn]. clear Hd. revert Hi Hn.
      apply (sub_ind ch top up bound (fun d => In e (sb d) -> e <> d -> splits PL pm d)).
      intros v IH Hi Hn. apply (sub_inv ch top up bound) in Hi as [|(u & Hu & Hi)]; [contradiction|].
      assert (Hu' := Hu). apply (ch_pl n wt mcs T HT PL HPL) in Hu' as (p & Hp & <- & E).
      destruct (Nat.eq_dec (pm u) u) as [Em|Em].
      + now apply (sp_here PL pm p u).
      + apply (sp_up PL pm p u); auto. apply IH; auto. intros ->. apply kept_iff in He as [_ He]. contradiction.
  Qed.

  Lemma lowered_iff c v : dict_get (lambda_map s) c = Ok v <->
    lowered persists n T c /\ exists o, In o CT /\ c_child o = c /\ c_lam o = v.
  Proof.
    rewrite (i_lam _ _ _ _ _ INV). split.
    - intros (p & Hp & Hst & -> & -> & Hs). destruct (PI p Hp) as (Eb & E1 & E2 & Hlt & Hf & Hsn & Htop).
      split.
      + destruct (pm_pair persists garbage n wt mcs T HT HO Hmono PL HPL p Hp) as [(Hst' & _)|(_ & M1 & M2)]; [congruence|].
        exists (sibling s p), (mb (other s p)), (mb (sibling s p)). unfold other, sibling in *.
        destruct (wle (mb (pa p)) (mb (pb p))) eqn:E.
        * split; [apply siblings_pair; eauto|]. split; [rewrite kept_iff; lia|]. split; [apply peak_births; lia|]. split; [apply peak_births; lia|].
          rewrite (proj2 (Nat.ltb_lt _ _)) by lia. split; auto. apply splits_iff in Hs; auto. lia.
        * split; [apply siblings_pair; eauto|]. split; [rewrite kept_iff; lia|]. split; [apply peak_births; lia|]. split; [apply peak_births; lia|].
          rewrite (proj2 (Nat.ltb_ge _ _)) by lia. split; [now apply wlt_nle|]. apply splits_iff in Hs; auto. lia.
      + destruct (other_cases s p) as [[-> _]|[-> _]]; [exists (fst p)|exists (snd p)]; auto.
    - intros ((d & x & w & Hs & Hk & Hx & Hw & Hlt & Hsp) & o & Ho & Eo & <-).
      apply siblings_pair in Hs as (p & Hp & E). destruct (PI p Hp) as (Eb & E1 & E2 & Hr & Hf & Hsn & Htop).
      exists p. split; auto.
      assert (Hst : stays persists s p = false).
      { destruct (stays persists s p) eqn:Est; auto. exfalso. apply Hk. apply kept_iff.
        destruct (pm_pair persists garbage n wt mcs T HT HO Hmono PL HPL p Hp) as [(_ & M1 & M2)|(Hst' & _)]; [|congruence].
        destruct E as [[-> _]|[-> _]]; split; auto; lia. }
      split; auto. unfold other, sibling.
      assert (Hd : n <= d < top) by (destruct E as [[_ ->]|[_ ->]]; lia).
      apply splits_iff in Hsp; auto.
      destruct E as [[-> ->]|[-> ->]].
      + rewrite (proj2 (Nat.ltb_lt _ _)) in Hlt by lia.
        assert (Hle : wle (mb (pa p)) (mb (pb p)) = true).
        { apply (peak_eqv (pa p) x) in Hx; [|lia]. apply (peak_eqv (pb p) w) in Hw; [|lia].
          eapply wle_trans; [apply Hx|]. eapply wle_trans; [exact Hlt|apply Hw]. }
        rewrite Hle. split; auto. split; auto. rewrite <- E2. f_equal. apply (ct_row_eq n wt mcs T HT); auto.
      + rewrite (proj2 (Nat.ltb_ge _ _)) in Hlt by lia.
        assert (Hle : wle (mb (pa p)) (mb (pb p)) = false).
        { apply (peak_eqv (pb p) x) in Hx; [|lia]. apply (peak_eqv (pa p) w) in Hw; [|lia]. apply wlt_nle in Hlt.
          destruct (wle (mb (pa p)) (mb (pb p))) eqn:Ew; auto. rewrite <- Hlt. symmetry.
          eapply wle_trans; [apply Hw|]. eapply wle_trans; [exact Ew|apply Hx]. }
        rewrite Hle. split; auto. split; auto. unfold pd. f_equal. apply (ct_row_eq n wt mcs T HT); auto.
  Qed.

  Lemma stays_rep p : n <= p < top -> stays_at persists n T p (rep p).
  Proof.
    intro Hp. destruct (RO p Hp) as (H1 & H2 & H3). split; [apply kp_kept; [lia|apply KI; auto; lia]|].
    split; [now apply aob_sub|]. intros d Hd Hdp. apply aob_sub in Hdp. apply aob_sub. apply kept_iff in Hd as [Hdr Hdm].
    (* between [p] and its representative everything is merged *)
    clear H1 H2 H3. revert Hp Hdp. induction p as [p IH] using lt_wf_ind. intros Hp Hdp.
    destruct (Nat.eq_dec (pm p) p) as [E|E].
    - now rewrite (rep_fix persists garbage n wt mcs T HT HO Hmono PL HPL).
    - rewrite (rep_step persists garbage n wt mcs T HT HO Hmono PL HPL) by auto.
      pose proof (pm_le persists garbage n wt mcs T HT HO Hmono PL HPL p (proj1 Hp)).
      apply IH; [lia|lia|].
      destruct (pm_up persists garbage n wt mcs T HT HO Hmono PL HPL p E) as (pr & Hpr & _ & _ & Epm & Hch). rewrite Epm.
      destruct (Nat.eq_dec p d) as [->|Hnd]; [contradiction|].
      destruct (sub_up ch top up bound d p Hdp Hnd) as (q & Hq & Hqd). now rewrite (cone _ _ _ Hch Hq).
  Qed.

  (** Splits hanging below a node after the merges. *)
  Inductive hang : nat -> crow V Sz * crow V Sz -> Prop :=
  | hang_here p : hang (pp p) p
  | hang_up p0 d p : In p0 PL -> d = pa p0 \/ d = pb p0 -> pm d <> d -> hang d p -> hang (pp p0) p.
  Lemma hang_splits c p : In p PL -> kp (pa p) = true -> hang c p -> splits PL pm c.
  Proof.
    intros Hp Hk H. pose proof (PI p Hp). induction H as [p|p0 d p Hp0 Hd Hm Hh IH].
    - apply (sp_here PL pm p (pa p)); auto. apply KI; auto. lia.
    - apply (sp_up PL pm p0 d); auto.
  Qed.
  Lemma hang_unique : forall c p p', In p PL -> In p' PL -> kp (pa p) = true -> kp (pa p') = true -> hang c p -> hang c p' -> p = p'.
  Proof.
    apply (sub_ind ch top up bound (fun c => forall p p', In p PL -> In p' PL -> kp (pa p) = true -> kp (pa p') = true -> hang c p -> hang c p' -> p = p')).
    intros c IH p p' Hp Hp' Kp Kp' H H'.
    assert (Hmix : forall x y, In x PL -> In y PL -> kp (pa x) = true -> c = pp x -> hang c y -> x = y).
    { intros x y Hx Hy Kx Ec Hh. inversion Hh as [z E1 E2|p0 d z Hp0 Hd Hm Hh' E1 E2]; subst z.
      - apply (pl_parent n wt mcs T HT HO PL HPL); auto. congruence.
      - exfalso. assert (p0 = x) as -> by (apply (pl_parent n wt mcs T HT HO PL HPL); auto; congruence).
        pose proof (PI x Hx). destruct (kp_pair persists garbage n wt mcs T HT HO Hmono PL HPL x Hx) as [K1 _].
        apply Hm. apply KI; destruct Hd as [->| ->]; auto; try lia. congruence. }
    inversion H as [z E1 E2|p0 d z Hp0 Hd Hm Hh E1 E2]; subst z; [apply Hmix; auto|].
    inversion H' as [z E3 E4|p0' d' z Hp0' Hd' Hm' Hh' E3 E4]; subst z; [symmetry; apply Hmix; auto|].
    assert (p0' = p0) as -> by (apply (pl_parent n wt mcs T HT HO PL HPL); auto; congruence).
    assert (Hch : forall x, x = pa p0 \/ x = pb p0 -> In x (ch c)) by (intros x Hx; apply (ch_pl n wt mcs T HT PL HPL); eauto).
    destruct (Nat.eq_dec d d') as [->|Hdd]; [apply (IH d'); auto|].
    exfalso. pose proof (PI p0 Hp0).
    assert (Hst : stays persists s p0 = false).
    { destruct (pm_pair persists garbage n wt mcs T HT HO Hmono PL HPL p0 Hp0) as [(_ & M1 & M2)|(Hst' & _)]; auto.
      destruct Hd as [->| ->]; contradiction. }
    apply (other_no_split persists n wt mcs T HT Hmono PL HPL births0 PL s p0 (incl_refl _) INV Hp0 Hst).
    pose proof (hang_splits d p Hp Kp Hh). pose proof (hang_splits d' p' Hp' Kp' Hh').
    destruct (other_cases s p0) as [[-> _]|[-> _]]; destruct Hd as [->| ->], Hd' as [->| ->]; auto; congruence.
  Qed.
  Lemma hang_rep p : In p PL -> forall c, n <= c < top -> hang c p -> hang (rep c) p.
  Proof.
    intros Hp c. induction c as [c IH] using lt_wf_ind. intros Hc Hh. destruct (Nat.eq_dec (pm c) c) as [E|E].
    - now rewrite (rep_fix persists garbage n wt mcs T HT HO Hmono PL HPL).
    - rewrite (rep_step persists garbage n wt mcs T HT HO Hmono PL HPL) by auto.
      pose proof (pm_le persists garbage n wt mcs T HT HO Hmono PL HPL c (proj1 Hc)). apply IH; [lia|lia|].
      destruct (pm_up persists garbage n wt mcs T HT HO Hmono PL HPL c E) as (p0 & Hp0 & _ & Hd & -> & _).
      now apply (hang_up p0 c).
  Qed.

  Notation T' := (T' persists garbage n T).
  Notation nid := (new_id n kp).
  Lemma splits_once' : splits_once n T'.
  Proof.
    intros i j r q Hi Hj E. rewrite (clusters_two persists garbage n wt mcs T HT HO Hmono PL HPL) in Hi, Hj. rewrite two_nth0 in Hi, Hj.
    unfold PL' in Hi, Hj. rewrite nth_error_map in Hi, Hj.
    destruct (nth_error (filter (fun p => kp (pa p)) PL) i) as [p|] eqn:Ei; [|discriminate].
    destruct (nth_error (filter (fun p => kp (pa p)) PL) j) as [p'|] eqn:Ej; [|discriminate].
    cbn in Hi, Hj. injection Hi as <-. injection Hj as <-.
    assert (Hp := nth_error_In _ _ Ei). assert (Hp' := nth_error_In _ _ Ej).
    apply filter_In in Hp as [Hp Kp]. apply filter_In in Hp' as [Hp' Kp'].
    destruct (PI p Hp) as (Eb & E1 & _ & Hlt & _ & _ & Htop). destruct (PI p' Hp') as (Eb' & E1' & _ & Hlt' & _ & _ & Htop').
    rewrite !new_parent, E1, E1' in E. apply (nid_inj persists garbage n wt mcs T HT HO Hmono PL HPL) in E; try lia.
    assert (p = p').
    { apply (hang_unique (rep (pp p))); auto.
      - apply hang_rep; auto; [lia|constructor].
      - rewrite E. apply hang_rep; auto; [lia|constructor]. }
    subst p'. assert (HND : NoDup (filter (fun p => kp (pa p)) PL)).
    { apply NoDup_filter. apply (NoDup_map_inv (fun p => fst p)).
      assert (HCT : NoDup CT) by (apply (NoDup_map_inv c_child), (ct_child_NoDup n wt mcs T HT)).
      rewrite HPL in HCT. clear -HCT. induction PL as [|p L IH]; [constructor|].
      change (two (p :: L)) with (fst p :: snd p :: two L) in HCT. inversion_clear HCT as [|? ? H1 H2]. inversion_clear H2 as [|? ? H3 H4].
      cbn [map]. constructor; auto. intro Hi. apply H1. right. apply in_map_iff in Hi as (x & Ex & Hx). apply in_two. eauto. }
    rewrite NoDup_nth_error in HND. apply HND; [apply nth_error_Some|]; congruence.
  Qed.

  (** The density a cluster reaches survives the merges below it. *)
  Lemma peak_row c : exists d, In d (sb c) /\ wle (mb c) (births0 d) = true /\ (d = c \/ forall v, dict_get (lambda_map s) d <> Ok v).
  Proof.
    revert c. apply (sub_ind ch top up bound (fun c => exists d, In d (sb c) /\ wle (mb c) (births0 d) = true /\ (d = c \/ forall v, dict_get (lambda_map s) d <> Ok v))).
    intros c IH. destruct (i_att _ _ _ _ _ INV c) as [E|(p & Hp & Ec & E)].
    - exists c. split; [apply (sub_self ch top up bound)|]. split; auto. rewrite E. apply wle_refl.
    - pose proof (PI p Hp).
      assert (Hs : In (sibling s p) (ch c)) by (apply (ch_pl n wt mcs T HT PL HPL); exists p; repeat split; auto; unfold sibling; destruct (wle _ _); auto).
      assert (Hle : wle (mb c) (mb (sibling s p)) = true).
      { unfold sibling. destruct (wle (mb (pa p)) (mb (pb p))) eqn:Ew; destruct E as [->| ->]; auto; try apply wle_refl.
        apply wlt_le. now apply wlt_nle. }
      destruct (IH _ Hs) as (d & Hd & Hb & Hl). exists d. split; [now apply (sub_child ch top up bound c _ Hs)|].
      split; [eapply wle_trans; eauto|]. right. destruct Hl as [->|Hl]; auto.
      intros v Ev. apply (i_lam _ _ _ _ _ INV) in Ev as (p' & Hp' & _ & Eo & _).
      assert (p' = p) as ->.
      { apply (pl_child n wt mcs T HT PL HPL); auto. unfold sibling, other in Eo.
        destruct (wle (mb (pa p)) (mb (pb p))), (wle (mb (pa p')) (mb (pb p'))); rewrite Eo; auto. }
      unfold sibling, other in Eo. destruct (wle (mb (pa p)) (mb (pb p))); lia.
  Qed.
  Lemma result_persists o' : In o' T' -> n <= c_child o' ->
    exists r', In r' T' /\ c_child r' < n /\ below n T' (c_child o') (c_child r') /\ persists (c_lam r') (c_lam o') = true.
  Proof.
    intros Ho' Hc'. apply (in_T' persists garbage) in Ho' as (o & Ho & Hk & ->).
    destruct (keep_child persists garbage n wt mcs T HT HO Hmono PL HPL o Ho Hk) as [[H1 H2]|(Hco & Kco & _ & Enew & _)]; [lia|].
    set (c := c_child o) in *. assert (Hoc : In o CT) by (apply (in_ct n T); auto; unfold c in *; lia).
    destruct (kp_kept c) as [|Hkept]; [lia|auto|lia|].
    assert (Hnl : forall v, dict_get (lambda_map s) c <> Ok v).
    { intros v Ev. apply lowered_iff in Ev as ((d & x & w & _ & Hn & _) & _). contradiction. }
    assert (Hpers : persists (mb c) (c_lam o) = true) by (apply (persistent_iff c o Hoc eq_refl); destruct Hkept as (_ & _ & K & _); exact K).
    assert (Hlo : c_lam (new_row persists garbage n T o) = c_lam o).
    { unfold new_row. cbn [c_lam]. unfold dict_get_or. destruct (dict_get (lambda_map s) (c_parent o)) as [v|] eqn:E; auto. exfalso.
      apply (i_lam _ _ _ _ _ INV) in E as (p & Hpp & Hst & Ec & _ & _).
      destruct (in_range n wt mcs T HT o Ho) as [Hp _].
      apply (other_no_split persists n wt mcs T HT Hmono PL HPL births0 PL s p (incl_refl _) INV Hpp Hst). rewrite <- Ec.
      apply splits_iff; auto. exists c. split; auto. apply desc_child; auto. unfold c in *. lia. }
    assert (Hgo : forall q, In q T -> c_child q < n -> In (c_parent q) (sb c) -> wle (mb c) (c_lam (new_row persists garbage n T q)) = true ->
      exists r', In r' T' /\ c_child r' < n /\ below n T' (c_child (new_row persists garbage n T o)) (c_child r') /\
        persists (c_lam r') (c_lam (new_row persists garbage n T o)) = true).
    { intros q Hq Hqn Hqc Hle. assert (Hkq : keep_row persists garbage n T q = true) by (unfold keep_row; rewrite (proj2 (Nat.ltb_lt _ _) Hqn); auto).
      exists (new_row persists garbage n T q). split; [apply (in_T' persists garbage); eauto|].
      destruct (keep_child persists garbage n wt mcs T HT HO Hmono PL HPL q Hq Hkq) as [[_ Ecq]|(? & _)]; [|lia].
      rewrite Ecq, Enew. split; auto. split.
      - apply (below_iff persists garbage n wt mcs T HT HO Hmono PL HPL); auto; [lia|].
        apply (below_sub n wt mcs T HT). eauto.
      - rewrite Hlo. eapply Hmono; [exact Hle| |exact Hpers]. apply wle_refl. }
    destruct (peak_row c) as (d & Hd & Hb & Hl).
    assert (Hdl : forall v, dict_get (lambda_map s) d <> Ok v) by (destruct Hl as [->|]; auto).
    assert (Hdr : n <= d < top) by (apply (sub_in c d); auto; lia).
    destruct (last_exists T d (has_row d Hdr)) as (r & Hlr). rewrite (births0_last d r Hlr) in Hb.
    destruct Hlr as (T1 & T2 & ET & Epr & _). assert (Hr : In r T) by (rewrite ET; apply in_app_iff; simpl; auto).
    destruct (in_range n wt mcs T HT r Hr) as [_ [Hcr|Hcr]].
    - apply (Hgo r); auto; [congruence|]. unfold new_row. cbn [c_lam]. unfold dict_get_or. rewrite Epr.
      destruct (dict_get (lambda_map s) d) as [v|] eqn:E; auto. now elim (Hdl v).
    - set (e := c_child r) in *. assert (HrC : In r CT) by (apply (in_ct n T); auto; unfold e in *; lia).
      assert (Hed : In e (ch d)) by (apply (ch_in n T); exists r; auto).
      assert (Hsub : forall x, In x (sb e) -> In x (sb c)).
      { intros x Hx. apply (sub_trans ch top up bound c d x); auto. now apply (sub_child ch top up bound d e Hed). }
      destruct (ct_sizes _ _ _ _ HT r Hr) as (Hm & xs & _ & Hxs & Es); [unfold e in *; lia|].
      destruct xs as [|x xs].
      { exfalso. rewrite Es in Hm. cbn in Hm. apply slt_true in Hone. rewrite (sle_trans Sz mcs szero sone) in Hone; auto. discriminate. }
      assert (Hbx : below n T e x) by (apply Hxs; simpl; auto). apply (below_sub n wt mcs T HT) in Hbx as (q & Hq & Eq & Hx & Hqe).
      apply (Hgo q); auto; [lia|]. eapply wle_trans; [exact Hb|].
      assert (Hchain : wle (c_lam r) (c_lam q) = true) by (apply (lam_chain n wt mcs T HT e r HrC eq_refl (c_parent q) q); auto).
      destruct (new_lam persists garbage n wt mcs T HT HO Hmono PL HPL q Hq) as [->|(o2 & Ho2 & Eo2 & _ & ->)]; auto.
      destruct (Nat.eq_dec (c_parent q) e) as [E|E].
      + assert (o2 = r) as -> by (apply (ct_row_eq n wt mcs T HT); auto; fold e; congruence). apply wle_refl.
      + destruct (sub_up ch top up bound _ _ Hqe E) as (y & Hyq & Hy). apply (ch_in n T) in Hyq as (o3 & Ho3 & Ep3 & Ec3).
        assert (o3 = o2) as -> by (apply (ct_row_eq n wt mcs T HT); auto; congruence).
        apply (lam_chain n wt mcs T HT e r HrC eq_refl y o2); auto. now apply (ct_in n T).
  Qed.

  Theorem c31_all : exists T' (new : nat -> nat),
    simplify_hierarchy persists garbage T = Ok T' /\ condensed n wt mcs T' /\ splits_once n T' /\
    new n = n /\
    (forall c d, c = n \/ kept persists n T c -> c < d -> new c < new d) /\
    (forall c', is_cluster n T' c' <-> exists c, (c = n \/ kept persists n T c) /\ new c = c') /\
    (forall c x, c = n \/ kept persists n T c -> (below n T' (new c) x <-> below n T c x)) /\
    (forall r, In r T -> kept persists n T (c_child r) ->
       exists r' c, In r' T' /\ c_child r' = new (c_child r) /\ c_lam r' = c_lam r /\ c_size r' = c_size r /\
         stays_at persists n T (c_parent r) c /\ c_parent r' = new c) /\
    (forall r, In r T -> c_child r < n ->
       exists r' c, In r' T' /\ c_child r' = c_child r /\
         stays_at persists n T (c_parent r) c /\ c_parent r' = new c /\
         (~ lowered persists n T (c_parent r) -> c_lam r' = c_lam r) /\
         (lowered persists n T (c_parent r) -> forall o, In o T -> c_child o = c_parent r -> c_lam r' = c_lam o)) /\
    (forall o', In o' T' -> n <= c_child o' ->
       exists r', In r' T' /\ c_child r' < n /\ below n T' (c_child o') (c_child r') /\ persists (c_lam r') (c_lam o') = true) /\
    ((forall c, is_cluster n T c -> c <> n -> persistent persists n T c) -> T' = T).
  Proof.
    exists T', (fun c => nid c).
    pose proof (condensed' persists garbage n wt mcs T HT HO Hmono PL HPL) as HT'.
    pose proof (kp_root persists garbage n wt mcs T HT HO Hmono PL HPL) as Kroot.
    pose proof (top_gt n T) as Htop.
    assert (Hkp : forall c, c = n \/ kept persists n T c -> n <= c < top /\ kp c = true).
    { intros c [->|H]; [split; auto; lia|now apply kept_kp]. }
    assert (Hrepc : forall c, kp c = true -> rep c = c) by (intros c H; now apply Nat.eqb_eq).
    split; [apply (simplify_ok persists garbage n wt mcs T HT HO Hone Hne Hmono PL HPL)|]. split; auto. split; [apply splits_once'|].
    split; [apply new_id_root|].
    split; [intros c d Hc Hd; destruct (Hkp c Hc); apply new_id_lt; auto; lia|].
    split; [|split; [|split; [|split; [|split; [exact result_persists|]]]]].
    - intro c'. split.
      + intros [->|(Hc & r' & Hr' & Ec)]; [exists n; split; auto; apply new_id_root|].
        apply (in_T' persists garbage) in Hr' as (r & Hr & Hk & ->).
        destruct (keep_child persists garbage n wt mcs T HT HO Hmono PL HPL r Hr Hk) as [[H1 H2]|(Hcr & Kcr & _ & Enew & _)]; [rewrite H2 in Ec; lia|].
        exists (c_child r). split; [apply kp_kept; auto; lia|congruence].
      + intros (c & Hc & <-). destruct (Hkp c Hc) as [Hr K]. destruct Hc as [->|Hc]; [left; apply new_id_root|].
        right. split; [apply new_id_ge; lia|]. apply kept_iff in Hc as [Hcr _].
        assert (Hi : is_cluster n T c) by (apply (is_cluster_iff n wt mcs T HT); auto).
        destruct Hi as [|(_ & r & HrT & Ec)]; [lia|]. exists (new_row persists garbage n T r).
        assert (Hk : keep_row persists garbage n T r = true) by (unfold keep_row; rewrite Ec, K; apply orb_true_r).
        split; [apply (in_T' persists garbage); eauto|].
        destruct (keep_child persists garbage n wt mcs T HT HO Hmono PL HPL r HrT Hk) as [[H1 H2]|(_ & _ & _ & Enew & _)]; [lia|]. congruence.
    - intros c x Hc. destruct (Hkp c Hc) as [Hr K]. now apply (below_iff persists garbage n wt mcs T HT HO Hmono PL HPL).
    - intros r Hr Hk. destruct (Hkp _ (or_intror Hk)) as [Hcr K].
      assert (Hkr : keep_row persists garbage n T r = true) by (unfold keep_row; rewrite K; apply orb_true_r).
      destruct (in_range n wt mcs T HT r Hr) as [Hp _].
      exists (new_row persists garbage n T r), (rep (c_parent r)).
      split; [apply (in_T' persists garbage); eauto|].
      destruct (keep_child persists garbage n wt mcs T HT HO Hmono PL HPL r Hr Hkr) as [[H1 H2]|(_ & _ & _ & Enew & _)]; [lia|].
      split; auto. split; [|split; auto; split; [now apply stays_rep|reflexivity]].
      unfold new_row. cbn [c_lam]. unfold dict_get_or. destruct (dict_get (lambda_map s) (c_parent r)) as [v|] eqn:E; auto. exfalso.
      apply (i_lam _ _ _ _ _ INV) in E as (p & Hpp & Hst & Ec & _ & _).
      apply (other_no_split persists n wt mcs T HT Hmono PL HPL births0 PL s p (incl_refl _) INV Hpp Hst). rewrite <- Ec.
      apply splits_iff; auto. exists (c_child r). split; auto. apply desc_child; auto. lia.
    - intros r Hr Hc. assert (Hkr : keep_row persists garbage n T r = true) by (unfold keep_row; rewrite (proj2 (Nat.ltb_lt _ _) Hc); auto).
      destruct (in_range n wt mcs T HT r Hr) as [Hp _].
      exists (new_row persists garbage n T r), (rep (c_parent r)).
      split; [apply (in_T' persists garbage); eauto|].
      destruct (keep_child persists garbage n wt mcs T HT HO Hmono PL HPL r Hr Hkr) as [[H1 H2]|(Hcr & _)]; [|lia].
      split; auto. split; [now apply stays_rep|]. split; [reflexivity|].
      unfold new_row. cbn [c_lam]. unfold dict_get_or.
      destruct (dict_get (lambda_map s) (c_parent r)) as [v|] eqn:E.
      + apply lowered_iff in E as (Hlow & o & Ho & Eo & <-). split; [tauto|]. intros _ o' Ho' Eo'. f_equal.
        apply (ct_row_eq n wt mcs T HT); auto; [|congruence]. apply (in_ct n T); auto. pose proof (ct_child_in n wt mcs T HT o Ho). lia.
      + split; auto. intros Hlow o Ho Eo. exfalso.
        assert (E' : dict_get (lambda_map s) (c_parent r) = Ok (c_lam o)); [|congruence].
        apply lowered_iff. split; auto. exists o. split; auto. apply (in_ct n T); auto. lia.
    - intro Hall.
      assert (Hst : forall p, In p PL -> stays persists s p = true).
      { intros p Hp. pose proof (PI p Hp). apply stays_iff; auto. split; apply Hall; try lia; apply (is_cluster_iff n wt mcs T HT); lia. }
      assert (Hpm : forall c, pm c = c).
      { intro c. destruct (Nat.eq_dec (pm c) c) as [|E]; auto. exfalso.
        destruct (pm_up persists garbage n wt mcs T HT HO Hmono PL HPL c E) as (p & Hp & E' & _). rewrite (Hst p Hp) in E'. discriminate. }
      assert (Hrp : forall c, n <= c < top -> rep c = c) by (intros; now apply (rep_fix persists garbage n wt mcs T HT HO Hmono PL HPL)).
      assert (Hnid : forall c, n <= c < top -> nid c = c).
      { intros c Hc. apply new_id_all; [lia|]. intros x Hx. apply KI; auto. lia. }
      unfold P_SimplifyMap.T'.
      assert (H : forall L, incl L T -> map (new_row persists garbage n T) (filter (keep_row persists garbage n T) L) = L).
      { induction L as [|r L IH]; intro HL; auto. cbn [filter]. assert (Hr : In r T) by (apply HL; simpl; auto).
        destruct (in_range n wt mcs T HT r Hr) as [Hp Hc].
        assert (Hk : keep_row persists garbage n T r = true).
        { unfold keep_row. destruct Hc as [Hc|Hc]; [rewrite (proj2 (Nat.ltb_lt _ _) Hc); auto|]. rewrite (proj2 (KI (c_child r) ltac:(lia))) by auto. apply orb_true_r. }
        rewrite Hk. cbn [map]. rewrite IH by (intros x Hx; apply HL; simpl; auto). f_equal.
        unfold new_row. rewrite Hrp, Hnid by auto. unfold dict_get_or.
        destruct (dict_get (lambda_map s) (c_parent r)) as [v|] eqn:E.
        - exfalso. apply (i_lam _ _ _ _ _ INV) in E as (p & Hpp & Hst' & _). rewrite (Hst p Hpp) in Hst'. discriminate.
        - destruct Hc as [Hc|Hc]; [rewrite (proj2 (Nat.leb_gt _ _) Hc)|rewrite (proj2 (Nat.leb_le n (c_child r))), Hrp, Hnid by lia];
            now destruct r. }
      apply H. apply incl_refl.
  Qed.
End Spec.

Lemma c31 (V : WOrd) (Sz : SOrd) (persists : V -> V -> bool) (garbage : nat -> V) (n : nat) (wt : nat -> Sz) (mcs : Sz) (T : list (crow V Sz)) :
  condensed n wt mcs T -> splits_once n T -> slt sone mcs = true -> sle (s := Sz) szero sone = true ->
  cluster_rows n T <> [] ->
  (forall b b' d d', wle b b' = true -> wle d' d = true -> persists b d = true -> persists b' d' = true) ->
  exists T' (new : nat -> nat),
    simplify_hierarchy persists garbage T = Ok T' /\ condensed n wt mcs T' /\ splits_once n T' /\
    new n = n /\
    (forall c d, c = n \/ kept persists n T c -> c < d -> new c < new d) /\
    (forall c', is_cluster n T' c' <-> exists c, (c = n \/ kept persists n T c) /\ new c = c') /\
    (forall c x, c = n \/ kept persists n T c -> (below n T' (new c) x <-> below n T c x)) /\
    (forall r, In r T -> kept persists n T (c_child r) ->
       exists r' c, In r' T' /\ c_child r' = new (c_child r) /\ c_lam r' = c_lam r /\ c_size r' = c_size r /\
         stays_at persists n T (c_parent r) c /\ c_parent r' = new c) /\
    (forall r, In r T -> c_child r < n ->
       exists r' c, In r' T' /\ c_child r' = c_child r /\
         stays_at persists n T (c_parent r) c /\ c_parent r' = new c /\
         (~ lowered persists n T (c_parent r) -> c_lam r' = c_lam r) /\
         (lowered persists n T (c_parent r) -> forall o, In o T -> c_child o = c_parent r -> c_lam r' = c_lam o)) /\
    (forall o', In o' T' -> n <= c_child o' ->
       exists r', In r' T' /\ c_child r' < n /\ below n T' (c_child o') (c_child r') /\ persists (c_lam r') (c_lam o') = true) /\
    ((forall c, is_cluster n T c -> c <> n -> persistent persists n T c) -> T' = T).
Proof.
  intros HT HO Hone Hz Hne Hmono. destruct (even_length n wt mcs T HT) as (k & Hk). destruct (two_exists k _ Hk) as (PL & HPL).
  exact (c31_all persists garbage n wt mcs T HT HO Hone Hz Hne Hmono PL HPL).
Qed.

Lemma c31_lambdas (V : WOrd) (Sz : SOrd) (persists : V -> V -> bool) (garbage : nat -> V) (n : nat) (wt : nat -> Sz) (mcs : Sz) (T T' : list (crow V Sz)) :
  condensed n wt mcs T -> splits_once n T -> slt sone mcs = true -> sle (s := Sz) szero sone = true ->
  cluster_rows n T <> [] ->
  (forall b b' d d', wle b b' = true -> wle d' d = true -> persists b d = true -> persists b' d' = true) ->
  simplify_hierarchy persists garbage T = Ok T' -> forall r', In r' T' -> exists r, In r T /\ c_lam r' = c_lam r.
Proof.
  intros HT HO Hone Hz Hne Hmono E r' Hr'. destruct (even_length n wt mcs T HT) as (k & Hk). destruct (two_exists k _ Hk) as (PL & HPL).
  rewrite (simplify_ok persists garbage n wt mcs T HT HO Hone Hne Hmono PL HPL) in E. injection E as <-.
  unfold P_SimplifyMap.T' in Hr'. apply in_map_iff in Hr' as (r & <- & Hr). apply filter_In in Hr as [Hr _].
  destruct (new_lam persists garbage n wt mcs T HT HO Hmono PL HPL r Hr) as [->|(o & Ho & _ & _ & ->)]; eauto.
  exists o. split; auto. now apply (ct_in n T).
Qed.

Lemma exact_persists_mono threshold : forall b b' d d' : QInf, wle b b' = true -> wle d' d = true ->
  exact_persists threshold b d = true -> exact_persists threshold b' d' = true.
Proof.
  intros [b|] [b'|] [d|] [d'|]; cbn; try discriminate; auto. rewrite !Qcleb_le. intros H1 H2 H3.
  eapply Qcle_trans; [exact H3|]. unfold Qcminus. apply Qcplus_le_compat; auto. now apply Qcopp_le_compat.
Qed.

(** Without a split there is nothing to index. *)
Lemma c31_empty (V : WOrd) (Sz : SOrd) (persists : V -> V -> bool) garbage (n : nat) (wt : nat -> Sz) (mcs : Sz) (T : list (crow V Sz)) :
  condensed n wt mcs T -> slt sone mcs = true -> cluster_rows n T = [] -> simplify_hierarchy persists garbage T = Err IndexError.
Proof.
  intros HT Hone E. unfold simplify_hierarchy. rewrite (mask_ok n wt mcs T HT Hone), E. destruct T; auto.
Qed.

Lemma kept_weaker (V : WOrd) (Sz : SOrd) (p1 p2 : V -> V -> bool) n (T : list (crow V Sz)) :
  (forall b d, p2 b d = true -> p1 b d = true) -> forall c, kept p2 n T c -> kept p1 n T c.
Proof.
  intros H c (H1 & H2 & H3 & H4).
  assert (Hp : forall d, persistent p2 n T d -> persistent p1 n T d) by (intros d (r & v & A1 & A2 & A3 & A4 & A5); exists r, v; auto 6).
  split; auto.
Qed.
Lemma exact_persists_weaker t t' b d : (t <= t')%Qc -> exact_persists t' b d = true -> exact_persists t b d = true.
Proof.
  destruct b as [b|], d as [d|]; cbn; auto. rewrite !Qcleb_le. intros H1 H2. eapply Qcle_trans; eauto.
Qed.
Lemma c31_monotone (Sz : SOrd) n (T : list (crow QInf Sz)) (t t' : Qc) c :
  (t <= t')%Qc -> kept (V := QInf) (exact_persists t') n T c -> kept (V := QInf) (exact_persists t) n T c.
Proof. intro H. apply kept_weaker. intros b d. now apply exact_persists_weaker. Qed.

(** Three samples that never split into two clusters. *)
Definition sd : list (lrow QInf NatSize) := [lr 0 1 (dist 1) 2; lr 3 2 (dist 2) 3].
Definition sT : list (crow QInf NatSize) :=
  match condense_tree sd hdbscan_lambda_value (2 : NatSize) None (fun _ => 1) with Ok T => T | Err _ => [] end.
Lemma c31_refuted :
  exists (L : list (lrow QInf NatSize)) T,
    dendrogram 3 L /\ sizes_are (Sz := NatSize) 3 (fun _ => 1) L /\ heights_sorted L /\
    condense_tree L hdbscan_lambda_value (2 : NatSize) None (fun _ => 1) = Ok T /\ T <> [] /\
    forall garbage, simplify_hierarchy (V := QInf) (exact_persists (Q2Qc (1 # 2))) garbage T = Err IndexError.
Proof.
  assert (D : dendrogram 3 sd) by (apply dendrogram_checked; reflexivity).
  assert (Hs : sizes_are (Sz := NatSize) 3 (fun _ => 1) sd) by (apply sizes_checked; reflexivity).
  assert (Ho : heights_sorted sd) by repeat constructor.
  exists sd, sT. split; auto. split; auto. split; auto.
  destruct (c24 QInf QInf NatSize 3 sd (fun _ => 1) (2 : NatSize) None hdbscan_lambda_value D Hs Ho hdbscan_lambda_antitone)
    as (T & E & HT & _); [reflexivity|repeat constructor|].
  assert (ET : sT = T) by (unfold sT; now rewrite E).
  split; [now rewrite ET|]. split; [vm_compute; discriminate|].
  intro garbage. apply (c31_empty QInf NatSize _ garbage 3 (fun _ => 1) (2 : NatSize)); [now rewrite ET|reflexivity|vm_compute; reflexivity].
Qed.
