(** cluster_selection_persistence: the loop over the splits. *)
From Coq Require Import List Arith Lia Bool Permutation.
From Verif Require Import Prelude Order Size Forest P_Pairs M_Linkage M_Condense S_Condense M_Select P_CTree P_Below P_Eom
  M_Simplify S_Simplify.
Import ListNotations.

Section Simp.
  Context {V : WOrd} {Sz : SOrd}.
  Variables (persists : V -> V -> bool) (n : nat) (wt : nat -> Sz) (mcs : Sz) (T : list (crow V Sz)).
  Hypothesis HT : condensed n wt mcs T.
  Hypothesis HO : splits_once n T.
  Hypothesis Hmono : forall b b' d d', wle b b' = true -> wle d' d = true -> persists b d = true -> persists b' d' = true.
  Notation CT := (cluster_rows n T).
  Notation ch := (children_of CT).
  Notation top := (top_id n T).
  Notation sb := (sub ch top).
  Notation up := (ct_up n wt mcs T HT).
  Notation bound := (ct_bound n wt mcs T HT).
  Notation cone := (ct_one n wt mcs T HT).
  Notation prow := (crow V Sz * crow V Sz)%type.
  Variable PL : list prow.
  Hypothesis HPL : CT = two PL.

  Definition pa (p : prow) : nat := c_child (fst p).
  Definition pb (p : prow) : nat := c_child (snd p).
  Definition pp (p : prow) : nat := c_parent (snd p).
  Definition pd (p : prow) : V := c_lam (snd p).

  Lemma simplify_fold (L : list prow) s :
    simplify_pairs persists (rev (two L)) s = fold_right (fun p s => simplify_pair persists (fst p) (snd p) s) s L.
  Proof.
    revert s. induction L as [|p L IH] using rev_ind; intro s; [reflexivity|].
    rewrite two_app, rev_app_distr, fold_right_app. cbn. apply IH.
  Qed.

  Lemma ct_nth i x : nth_error CT i = Some x -> c_child x = n + 1 + i.
  Proof.
    intros Hx. assert (Hl : i < length CT) by (apply nth_error_Some; congruence).
    assert (Hm : nth_error (map c_child CT) i = Some (c_child x)) by now apply map_nth_error.
    rewrite (ids n wt mcs T HT) in Hm. rewrite nth_error_nth' with (d := 0) in Hm by now rewrite seq_length.
    rewrite seq_nth in Hm by auto. congruence.
  Qed.

  Lemma pl_nth j p : nth_error PL j = Some p ->
    pa p = n + 1 + 2 * j /\ pb p = n + 2 + 2 * j /\ c_parent (fst p) = pp p /\ c_lam (fst p) = pd p /\
    n <= pp p < pa p /\ In (fst p) CT /\ In (snd p) CT /\ pb p < top.
  Proof.
    intro H. assert (H0 : nth_error CT (2 * j) = Some (fst p)) by (rewrite HPL, two_nth0, H; auto).
    assert (H1 : nth_error CT (2 * j + 1) = Some (snd p)) by (rewrite HPL, two_nth1, H; auto).
    destruct (ct_pairs _ _ _ _ HT j _ _ H0 H1) as [Ep El].
    pose proof (ct_nth _ _ H0) as E0. pose proof (ct_nth _ _ H1) as E1. apply nth_error_In in H0, H1.
    pose proof (parent_lt_child n wt mcs T HT _ H0). pose proof (ct_child_in n wt mcs T HT _ H1).
    unfold pa, pb, pp, pd. repeat (split; auto); try lia.
  Qed.
  Lemma pl_in p : In p PL ->
    pb p = pa p + 1 /\ c_parent (fst p) = pp p /\ c_lam (fst p) = pd p /\
    n <= pp p < pa p /\ In (fst p) CT /\ In (snd p) CT /\ pb p < top.
  Proof.
    intro H. apply In_nth_error in H as (j & H). apply pl_nth in H. intuition lia.
  Qed.
  Lemma pl_child p p' : In p PL -> In p' PL -> (pa p = pa p' \/ pa p = pb p' \/ pb p = pa p' \/ pb p = pb p') -> p = p'.
  Proof.
    intros H H' E. apply In_nth_error in H as (j & H). apply In_nth_error in H' as (j' & H').
    pose proof (pl_nth _ _ H). pose proof (pl_nth _ _ H'). assert (j = j') by lia. congruence.
  Qed.
  Lemma pl_parent p p' : In p PL -> In p' PL -> pp p = pp p' -> p = p'.
  Proof.
    intros H H' E. apply In_nth_error in H as (j & H). apply In_nth_error in H' as (j' & H').
    pose proof (pl_nth _ _ H) as (_ & _ & E1 & _). pose proof (pl_nth _ _ H') as (_ & _ & E1' & _).
    assert (j = j'); [|congruence]. apply (HO j j' (fst p) (fst p')); [rewrite HPL, two_nth0, H|rewrite HPL, two_nth0, H'|]; auto. congruence.
  Qed.
  Lemma ch_pl c d : In d (ch c) <-> exists p, In p PL /\ pp p = c /\ (d = pa p \/ d = pb p).
  Proof.
    rewrite (ch_in n T). rewrite HPL. split.
    - intros (r & Hr & Ep & Ec). apply in_two in Hr as (p & Hp & Er). exists p. split; auto.
      destruct (pl_in p Hp) as (_ & E1 & _). destruct Er as [->| ->]; unfold pa, pb; split; auto; congruence.
    - intros (p & Hp & Ep & Ed). destruct (pl_in p Hp) as (_ & E1 & _).
      destruct Ed as [->| ->]; [exists (fst p)|exists (snd p)]; (split; [apply in_two; eauto|]); split; auto. congruence.
  Qed.
  Lemma pl_of c : n < c < top -> exists p, In p PL /\ (c = pa p \/ c = pb p).
  Proof.
    intro Hc. assert (Hi : is_cluster n T c) by (apply (is_cluster_iff n wt mcs T HT); lia).
    destruct Hi as [|(_ & r & Hr & Ec)]; [lia|].
    assert (HrC : In r CT) by (apply (in_ct n T); auto; lia). rewrite HPL in HrC. apply in_two in HrC as (p & Hp & Er).
    exists p. split; auto. unfold pa, pb. destruct Er as [->| ->]; auto.
  Qed.
  Lemma pl_suffix pre p suf p' : PL = pre ++ p :: suf -> In p' suf -> pb p < pa p'.
  Proof.
    intros E Hp. apply In_nth_error in Hp as (k & Hk).
    assert (H1 : nth_error PL (length pre) = Some p) by (rewrite E, nth_error_app2, Nat.sub_diag by lia; auto).
    assert (H2 : nth_error PL (length pre + S k) = Some p').
    { rewrite E, nth_error_app2 by lia. replace (length pre + S k - length pre) with (S k) by lia. auto. }
    pose proof (pl_nth _ _ H1). pose proof (pl_nth _ _ H2). lia.
  Qed.

  (** A split still hangs below the node, through merged nodes only. *)
  Inductive splits (L : list prow) (pm : nat -> nat) : nat -> Prop :=
  | sp_here p d : In p L -> d = pa p \/ d = pb p -> pm d = d -> splits L pm (pp p)
  | sp_up p d : In p L -> d = pa p \/ d = pb p -> pm d <> d -> splits L pm d -> splits L pm (pp p).

  Section State.
    Variable s : sstate (V := V).
    Notation mb := (max_births s).
    Definition stays (p : prow) : bool := persists (wmin (mb (pa p)) (mb (pb p))) (pd p).
    Definition sibling (p : prow) : nat := if wle (mb (pa p)) (mb (pb p)) then pb p else pa p.
    Definition other (p : prow) : nat := if wle (mb (pa p)) (mb (pb p)) then pa p else pb p.
    Lemma min_other p : wmin (mb (pa p)) (mb (pb p)) = mb (other p).
    Proof. unfold other, wmin, wlt. destruct (wle (mb (pa p)) (mb (pb p))); auto. Qed.
    Lemma other_cases p : (other p = pa p /\ sibling p = pb p) \/ (other p = pb p /\ sibling p = pa p).
    Proof. unfold other, sibling. destruct (wle _ _); auto. Qed.
  End State.

  Variable B0 : nat -> V.

  Record sinv (L : list prow) (s : sstate (V := V)) : Prop := {
    i_ge : forall c, wle (B0 c) (max_births s c) = true;
    i_child : forall p, In p L -> wle (max_births s (pa p)) (max_births s (pp p)) = true /\
                                  wle (max_births s (pb p)) (max_births s (pp p)) = true;
    i_att : forall c, max_births s c = B0 c \/ exists p, In p L /\ pp p = c /\
                      (max_births s c = max_births s (pa p) \/ max_births s c = max_births s (pb p));
    i_pm : forall p, In p L -> if stays s p then parent_map s (pa p) = pa p /\ parent_map s (pb p) = pb p
                               else parent_map s (pa p) = pp p /\ parent_map s (pb p) = pp p;
    i_id : forall c, (forall p, In p L -> c <> pa p /\ c <> pb p) -> parent_map s c = c;
    i_leaf : forall c, (forall p, In p PL -> pp p = c -> In p L) ->
             (leaf_indicator s c = false <-> splits L (parent_map s) c);
    i_leaf0 : forall p, In p PL -> ~ In p L -> leaf_indicator s (pp p) = false;
    i_lam : forall c v, dict_get (lambda_map s) c = Ok v <->
            exists p, In p L /\ stays s p = false /\ c = other s p /\ v = pd p /\ splits L (parent_map s) (sibling s p)
  }.

  Lemma splits_persist L s c : incl L PL -> sinv L s -> splits L (parent_map s) c ->
    forall r, In r CT -> c_child r = c -> persists (max_births s c) (c_lam r) = true.
  Proof.
    intros HL HI Hs. induction Hs as [p d Hp Hd Hk|p d Hp Hd Hm Hs IH]; intros r Hr Ec;
      destruct (pl_in p (HL p Hp)) as (Eb & E1 & E2 & Hlt & Hf & Hsn & _);
      destruct (i_child _ _ HI p Hp) as [K1 K2].
    - assert (Hst : stays s p = true).
      { destruct (stays s p) eqn:E; auto. exfalso. pose proof (i_pm _ _ HI p Hp) as H. rewrite E in H. destruct Hd; subst; lia. }
      unfold stays in Hst. rewrite min_other in Hst. eapply Hmono; [| |exact Hst].
      + destruct (other_cases s p) as [[-> _]|[-> _]]; auto.
      + apply (ct_lambda _ _ _ _ HT r (snd p)); auto; try (now apply (ct_in n T)). pose proof (ct_child_in n wt mcs T HT r Hr). lia.
    - assert (Hrow : exists q, In q CT /\ c_child q = d /\ c_lam q = pd p /\ c_parent q = pp p).
      { destruct Hd as [->| ->]; [exists (fst p)|exists (snd p)]; repeat split; auto. }
      destruct Hrow as (q & Hq & Eq & El & Epq). specialize (IH q Hq Eq). rewrite El in IH. eapply Hmono; [| |exact IH].
      + destruct Hd as [->| ->]; auto.
      + rewrite <- El. apply (ct_lambda _ _ _ _ HT r q); auto; try (now apply (ct_in n T)); [pose proof (ct_child_in n wt mcs T HT r Hr); lia|congruence].
  Qed.

  Lemma other_no_split L s p : incl L PL -> sinv L s -> In p PL -> stays s p = false -> ~ splits L (parent_map s) (other s p).
  Proof.
    intros HL HI Hp Hst Hs. destruct (pl_in p Hp) as (Eb & E1 & E2 & Hlt & Hf & Hsn & _).
    unfold stays in Hst. rewrite min_other in Hst.
    assert (persists (max_births s (other s p)) (pd p) = true); [|congruence].
    destruct (other_cases s p) as [[E _]|[E _]].
    - rewrite <- E2. apply (splits_persist L s _ HL HI Hs (fst p)); auto.
    - apply (splits_persist L s _ HL HI Hs (snd p)); auto.
  Qed.

  Lemma splits_step L pm pm' p : incl (p :: L) PL -> (forall p', In p' L -> pb p < pa p') ->
    (forall d, d <> pa p -> d <> pb p -> pm' d = pm d) ->
    forall c, c <> pp p -> (splits (p :: L) pm' c <-> splits L pm c).
  Proof.
    intros HL Hsuf Hpm.
    assert (Hch : forall p' d, In p' L -> d = pa p' \/ d = pb p' -> d <> pp p /\ pm' d = pm d).
    { intros p' d Hp' Hd. assert (HpL : In p PL) by (apply HL; simpl; auto). assert (HpL' : In p' PL) by (apply HL; simpl; auto).
      pose proof (Hsuf p' Hp'). pose proof (pl_in p HpL). pose proof (pl_in p' HpL').
      split; [|apply Hpm]; destruct Hd; lia. }
    intros c Hc. split; intro H.
    - revert Hc. induction H as [p' d [<-|Hp'] Hd Hk|p' d [<-|Hp'] Hd Hk Hs IH]; intro Hc; try congruence; destruct (Hch p' d Hp' Hd) as [H1 H2].
      + apply (sp_here L pm p' d); auto. congruence.
      + apply (sp_up L pm p' d); auto. congruence.
    - clear Hc. induction H as [p' d Hp' Hd Hk|p' d Hp' Hd Hk Hs IH]; destruct (Hch p' d Hp' Hd) as [H1 H2].
      + apply (sp_here _ pm' p' d); simpl; auto. congruence.
      + apply (sp_up _ pm' p' d); simpl; auto. congruence.
  Qed.

  Lemma sinv_step pre p L s : PL = pre ++ p :: L -> sinv L s -> sinv (p :: L) (simplify_pair persists (fst p) (snd p) s).
  Proof.
    intros E HI.
    assert (HpP : In p PL) by (rewrite E; apply in_elt).
    assert (HLP : incl L PL) by (intros x Hx; rewrite E; apply in_app_iff; simpl; auto).
    assert (HL' : incl (p :: L) PL) by (intros x [<-|Hx]; auto).
    assert (Hsuf : forall p', In p' L -> pb p < pa p') by (intros; eapply pl_suffix; eauto).
    destruct (pl_in p HpP) as (Eb & E1 & E2 & Hlt & Hf & Hsn & Htop).
    assert (Hnp : ~ In p L) by (intro H; apply Hsuf in H; lia).
    set (s' := simplify_pair persists (fst p) (snd p) s).
    (* births *)
    assert (Hmb : max_births s' = upd (max_births s) (pp p) (wmax (max_births s (pp p)) (wmax (max_births s (pa p)) (max_births s (pb p))))).
    { unfold s', simplify_pair. fold (pa p) (pb p) (pp p) (pd p). destruct (persists _ _); reflexivity. }
    assert (Hmb1 : forall c, c <> pp p -> max_births s' c = max_births s c) by (intros; rewrite Hmb; now apply upd_neq).
    assert (Hpp : forall p', In p' L -> pp p' <> pp p).
    { intros p' Hp' Ep. apply Hnp. rewrite <- (pl_parent p' p); auto. }
    assert (Hmba : forall p', In p' (p :: L) -> max_births s' (pa p') = max_births s (pa p') /\ max_births s' (pb p') = max_births s (pb p')).
    { intros p' Hp'. assert (pp p < pa p' /\ pp p < pb p').
      { destruct Hp' as [<-|Hp']; [lia|]. pose proof (Hsuf p' Hp'). pose proof (pl_in p' (HLP _ Hp')). lia. }
      split; apply Hmb1; lia. }
    assert (Hstays : forall p', In p' (p :: L) -> stays s' p' = stays s p' /\ other s' p' = other s p' /\ sibling s' p' = sibling s p').
    { intros p' Hp'. unfold stays, other, sibling. destruct (Hmba p' Hp') as [-> ->]. auto. }
    assert (Hpm : parent_map s' = if stays s p then parent_map s else upd (upd (parent_map s) (pa p) (pp p)) (pb p) (pp p)).
    { unfold s', simplify_pair, stays. fold (pa p) (pb p) (pp p) (pd p). destruct (persists _ _); reflexivity. }
    assert (Hpm1 : forall d, d <> pa p -> d <> pb p -> parent_map s' d = parent_map s d).
    { intros d Ha Hb. rewrite Hpm. destruct (stays s p); auto. now rewrite !upd_neq. }
    assert (Hpmp : if stays s p then parent_map s' (pa p) = pa p /\ parent_map s' (pb p) = pb p
                   else parent_map s' (pa p) = pp p /\ parent_map s' (pb p) = pp p).
    { rewrite Hpm. destruct (stays s p).
      - split; apply (i_id _ _ HI); intros p' Hp'; pose proof (Hsuf p' Hp'); pose proof (pl_in p' (HLP _ Hp')); lia.
      - rewrite upd_eq, upd_neq, upd_eq by lia. auto. }
    assert (Hsp := splits_step L (parent_map s) (parent_map s') p HL' Hsuf Hpm1).
    (* is the parent still split? *)
    assert (Hspp : splits (p :: L) (parent_map s') (pp p) <->
      stays s p = true \/ (stays s p = false /\ splits L (parent_map s) (sibling s p))).
    { split.
      - intro H. inversion H as [p' d [<-|Hp'] Hd Hk Ep|p' d [<-|Hp'] Hd Hk Hs Ep]; try (exfalso; now apply (Hpp p')).
        + left. destruct (stays s p); auto. exfalso. destruct Hd; subst; lia.
        + destruct (stays s p) eqn:Est; auto. right. split; auto.
          assert (Hs' : splits L (parent_map s) d) by (apply Hsp; auto; destruct Hd; lia).
          pose proof (other_no_split L s p HLP HI HpP Est) as Hno.
          destruct (other_cases s p) as [[Eo Es]|[Eo Es]]; rewrite Eo in Hno; rewrite Es; destruct Hd; subst; auto; contradiction.
      - intros [Est|[Est Hs]]; rewrite Est in Hpmp.
        + apply (sp_here _ _ p (pa p)); simpl; auto. tauto.
        + apply (sp_up _ _ p (sibling s p)); [simpl; auto|destruct (other_cases s p) as [[_ ->]|[_ ->]]; auto| |].
          * destruct (other_cases s p) as [[_ ->]|[_ ->]]; lia.
          * apply Hsp; auto. destruct (other_cases s p) as [[_ ->]|[_ ->]]; lia. }
    assert (Hleafsib : leaf_indicator s (sibling s p) = false <-> splits L (parent_map s) (sibling s p)).
    { apply (i_leaf _ _ HI). intros p' Hp' Ep'. rewrite E in Hp'. apply in_app_iff in Hp' as [Hp'|[<-|Hp']]; auto; exfalso.
      - apply in_split in Hp' as (l1 & l2 & ->).
        assert (Ep : PL = l1 ++ p' :: (l2 ++ p :: L)) by (rewrite E, <- app_assoc; reflexivity).
        pose proof (pl_suffix l1 p' (l2 ++ p :: L) p Ep (in_elt _ _ _)).
        assert (Hin : In p' PL) by (rewrite Ep; apply in_elt). pose proof (pl_in p' Hin).
        destruct (other_cases s p) as [[_ Es]|[_ Es]]; rewrite Es in Ep'; lia.
      - destruct (other_cases s p) as [[_ Es]|[_ Es]]; rewrite Es in Ep'; lia. }
    assert (Hleaf : leaf_indicator s' = if stays s p then leaf_indicator s else
                      if leaf_indicator s (sibling s p) then upd (leaf_indicator s) (pp p) true else leaf_indicator s).
    { unfold s', simplify_pair, stays, sibling. fold (pa p) (pb p) (pp p) (pd p). destruct (persists _ _); reflexivity. }
    assert (Hlm : lambda_map s' = if stays s p then lambda_map s else
                      if leaf_indicator s (sibling s p) then lambda_map s else dict_set (lambda_map s) (other s p) (pd p)).
    { unfold s', simplify_pair, stays, sibling, other. fold (pa p) (pb p) (pp p) (pd p). destruct (persists _ _); reflexivity. }
    assert (Hl1 : forall c, c <> pp p -> leaf_indicator s' c = leaf_indicator s c).
    { intros c Hc. rewrite Hleaf. destruct (stays s p); auto. destruct (leaf_indicator s (sibling s p)); auto. now apply upd_neq. }
    constructor.
    - intro c. rewrite Hmb. destruct (upd_case (max_births s) (pp p) c (wmax (max_births s (pp p)) (wmax (max_births s (pa p)) (max_births s (pb p))))) as [[-> ->]|[Hc ->]].
      + eapply wle_trans; [apply (i_ge _ _ HI)|]. apply wmax_l.
      + apply (i_ge _ _ HI).
    - intros p' Hp'. destruct (Hmba p' Hp') as [-> ->]. destruct Hp' as [<-|Hp'].
      + rewrite Hmb, upd_eq. split; (eapply wle_trans; [|apply wmax_r]); [apply wmax_l|apply wmax_r].
      + rewrite Hmb1 by auto. apply (i_child _ _ HI); auto.
    - intro c. destruct (Nat.eq_dec c (pp p)) as [->|Hc].
      + assert (Epp : max_births s' (pp p) = wmax (max_births s (pp p)) (wmax (max_births s (pa p)) (max_births s (pb p))))
          by (rewrite Hmb; apply upd_eq).
        rewrite Epp. destruct (Hmba p (or_introl eq_refl)) as [Ea Ebb].
        assert (Hcase : forall x y : V, wmax x y = x \/ wmax x y = y) by (intros x y; unfold wmax; destruct (wlt x y); auto).
        destruct (Hcase (max_births s (pp p)) (wmax (max_births s (pa p)) (max_births s (pb p)))) as [-> | ->].
        * destruct (i_att _ _ HI (pp p)) as [H|(p' & Hp' & Ep' & _)]; auto. exfalso. now apply (Hpp p').
        * right. exists p. split; [simpl; auto|]. split; auto. rewrite Ea, Ebb. apply Hcase.
      + rewrite Hmb1 by auto. destruct (i_att _ _ HI c) as [H|(p' & Hp' & Ep' & H)]; auto.
        right. exists p'. split; [simpl; auto|]. split; auto. destruct (Hmba p' (or_intror Hp')) as [-> ->]. auto.
    - intros p' Hp'. destruct (Hstays p' Hp') as (-> & _). destruct Hp' as [<-|Hp']; auto.
      assert (pb p < pa p' /\ pb p < pb p') as [? ?].
      { pose proof (Hsuf p' Hp'). pose proof (pl_in p' (HLP _ Hp')). lia. }
      rewrite !Hpm1 by lia. apply (i_pm _ _ HI); auto.
    - intros c Hc. destruct (Hc p (or_introl eq_refl)) as [Ha Hb]. rewrite Hpm1 by auto. apply (i_id _ _ HI).
      intros p' Hp'. apply Hc. simpl; auto.
    - intros c Hc. destruct (Nat.eq_dec c (pp p)) as [->|Hne].
      + rewrite Hspp, Hleaf. destruct (stays s p) eqn:Est.
        * rewrite (i_leaf0 _ _ HI p HpP Hnp). tauto.
        * destruct (leaf_indicator s (sibling s p)) eqn:El.
          -- rewrite upd_eq. split; [discriminate|]. intros [H|[_ H]]; [discriminate|]. apply Hleafsib in H. discriminate.
          -- rewrite (i_leaf0 _ _ HI p HpP Hnp). split; auto. intros _. right. split; auto. now apply Hleafsib.
      + rewrite Hl1 by auto. rewrite Hsp by auto. apply (i_leaf _ _ HI). intros p' Hp' Ep'.
        destruct (Hc p' Hp' Ep') as [->|]; auto. congruence.
    - intros p' Hp' Hn. rewrite Hl1.
      + apply (i_leaf0 _ _ HI); auto. intro H; apply Hn; simpl; auto.
      + intro Ep'. apply Hn. left. symmetry. now apply pl_parent.
    - intros c v.
      assert (Hold : dict_get (lambda_map s) c = Ok v <-> exists p', In p' L /\ stays s' p' = false /\ c = other s' p' /\ v = pd p' /\
                splits (p :: L) (parent_map s') (sibling s' p')).
      { rewrite (i_lam _ _ HI). split; intros (p' & Hp' & H1 & H2 & H3 & H4); exists p'; destruct (Hstays p' (or_intror Hp')) as (K1 & K2 & K3);
          rewrite ?K1, ?K2, ?K3 in *; repeat (split; auto); apply Hsp; auto;
          pose proof (Hsuf p' Hp'); pose proof (pl_in p' (HLP _ Hp')); destruct (other_cases s p') as [[_ Es]|[_ Es]]; rewrite Es; lia. }
      destruct (Hstays p (or_introl eq_refl)) as (K1 & K2 & K3).
      assert (Hsib : sibling s p <> pp p) by (destruct (other_cases s p) as [[_ ->]|[_ ->]]; lia).
      rewrite Hlm. destruct (stays s p) eqn:Est; [|destruct (leaf_indicator s (sibling s p)) eqn:El].
      + rewrite Hold. split; intros (p' & Hp' & H).
        * exists p'. split; simpl; auto.
        * destruct Hp' as [<-|Hp']; [destruct H; congruence|]. exists p'. auto.
      + rewrite Hold. split; intros (p' & Hp' & H).
        * exists p'. split; simpl; auto.
        * destruct Hp' as [<-|Hp']; [|exists p'; auto]. exfalso. destruct H as (_ & _ & _ & H). rewrite K3 in H.
          apply Hsp in H; auto. apply Hleafsib in H. congruence.
      + rewrite dict_get_set. destruct (Nat.eqb_spec c (other s p)) as [->|Hne].
        * split.
          -- intro Hv. injection Hv as <-. exists p. rewrite K1, K2, K3. split; [simpl; auto|]. repeat (split; auto).
             apply Hsp; auto. now apply Hleafsib.
          -- intros (p' & [<-|Hp'] & _ & Ec & -> & _); auto. exfalso.
             destruct (Hstays p' (or_intror Hp')) as (_ & K2' & _). rewrite K2' in Ec.
             pose proof (Hsuf p' Hp'). pose proof (pl_in p' (HLP _ Hp')).
             destruct (other_cases s p) as [[E' _]|[E' _]], (other_cases s p') as [[E'' _]|[E'' _]]; rewrite E', E'' in Ec; lia.
        * rewrite Hold. split; intros (p' & Hp' & H).
          -- exists p'. split; simpl; auto.
          -- destruct Hp' as [<-|Hp']; [|exists p'; auto]. destruct H as (_ & H & _). congruence.
  Qed.

  Lemma sinv_fold s0 : sinv [] s0 -> forall L pre, PL = pre ++ L ->
    sinv L (fold_right (fun p s => simplify_pair persists (fst p) (snd p) s) s0 L).
  Proof.
    intros H0. induction L as [|p L IH]; intros pre E; cbn [fold_right]; auto.
    apply (sinv_step pre); auto. apply (IH (pre ++ [p])). now rewrite <- app_assoc.
  Qed.
End Simp.
