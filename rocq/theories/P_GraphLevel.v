(** Clusters of trees that contain edges of density zero, such as the infinite
    bridges between the components of a stored graph. *)
From Coq Require Import List Arith Lia Bool Permutation Sorted ZArith.
From Verif Require Import Prelude Order Graph Size Num M_Linkage S_Linkage M_Condense S_Condense M_Select S_Select M_Labels S_Labels S_Epsilon M_Pipeline S_Pipeline
  P_CTree P_Below P_NodePath P_SameLinkage P_Unique P_Faithful P_Labels P_LabelsTop P_LabelsProps P_PipelineRun S_Simplify S_Level P_Level S_Join P_Join.
Import ListNotations.
Local Open Scope nat_scope.

Section Explained.
  Context {W V : WOrd} {Sz : SOrd}.
  Variables (lam : W -> V) (LA : LamArith V) (st : settings V Sz) (n : nat) (wt : nat -> Sz) (M : list (edge W)) (ls : list Z) (ps : list V)
    (T : list (crow V Sz)) (L : list (lrow W Sz)) (T0 : list (crow V Sz)) (chosen final : list nat).
  Hypothesis HX : explained lam LA st n wt M ls ps T L T0 chosen final.
  Hypothesis Hn : 2 <= n.
  Hypothesis Hlam : forall x y, wle x y = true -> wle (lam y) (lam x) = true.
  Hypothesis Hzero : forall w, wle (la_zero LA) (lam w) = true.
  Hypothesis Hus : usable (la_zero LA) st.
  Hypothesis Hroot : root_ok st.
  Hypothesis Hper : cluster_selection_persistence st = None.
  Hypothesis Hnonneg : forall x, x < n -> sle szero (wt x) = true.
  Hypothesis Hall : sle (min_cluster_size st) (ssum (map wt (seq 0 n))) = true.
  Notation mcs := (min_cluster_size st).
  Notation label x := (nth x ls 0%Z).
  Notation positive w := (wlt (la_zero LA) (lam w)).
  Notation joined := (connected (passing (fun w => positive w) M)).
  Hypothesis Htogether : forall x y, x < n -> y < n -> label x <> (-1)%Z -> label x = label y -> joined x y.

  Let HT : condensed n wt mcs T := proj1 (xp_tree _ _ _ _ _ _ _ _ _ _ _ _ _ HX).
  Let HT0 : condensed n wt mcs T0 := xp_condensed _ _ _ _ _ _ _ _ _ _ _ _ _ HX.
  Let HF : faithful n L wt mcs None lam T0 := xp_faithful _ _ _ _ _ _ _ _ _ _ _ _ _ HX.
  Let HL : linkage_of n wt M L := xp_linkage _ _ _ _ _ _ _ _ _ _ _ _ _ HX.
  Let HO : ordered_tree n T := condensed_ordered n wt mcs T HT.
  Lemma root_once : one_root st.
  Proof. exact (conj Hroot (or_intror Hper)). Qed.

  (** Samples that leave at a positive density. *)
  Definition dense (x : nat) : Prop := exists q, In q T /\ c_child q = x /\ wlt (la_zero LA) (c_lam q) = true.

  Lemma heavier_flat d w : positive d = false -> positive w = true -> wlt w d = true.
  Proof.
    intros H1 H2. apply wlt_nle. destruct (wle d w) eqn:E; auto. apply Hlam in E. rewrite (wlt_le_trans _ _ _ H2 E) in H1. discriminate.
  Qed.
  Lemma dense_joined x y : x < n -> y < n -> dense x -> joined x y -> dense y.
  Proof.
    intros Hx Hy (q & Hq & Eq & Hp) Hj. destruct (sample_row n wt mcs T HT y Hy) as (r & Hr & Er). exists r. split; auto. split; auto.
    assert (Hcq : c_child q < n) by lia. assert (Hcr : c_child r < n) by lia.
    destruct (density_of lam LA st n wt M ls ps T L T0 chosen final HX Hn Hper Hnonneg Hall q Hq Hcq) as (d & (_ & Hc & _) & Ed).
    destruct (density_of lam LA st n wt M ls ps T L T0 chosen final HX Hn Hper Hnonneg Hall r Hr Hcr) as (d' & (_ & _ & Hc') & Ed').
    rewrite Ed in Hp. rewrite Ed'. assert (HF' : positive d' = true \/ positive d' = false) by (destruct (positive d'); auto). destruct HF' as [|HF']; auto.
    exfalso. apply Hc'. destruct Hc as (xs & H1 & H2 & H3). exists xs. split; auto. split; auto. intros z Hz. destruct (H2 z Hz) as [Hzn Hzc]. split; auto.
    eapply connected_trans; [|eapply connected_incl; [|exact Hzc]].
    - rewrite Er, Eq. apply connected_sym. eapply connected_incl; [|exact Hj]. intros e He. apply in_passing in He as [He Hw]. apply in_passing. split; auto. now apply heavier_flat.
    - intros e He. apply in_passing in He as [He Hw]. apply in_passing. split; auto. apply heavier_flat; auto. eapply wlt_le_trans; [exact Hp|]. now apply Hlam.
  Qed.
  Lemma heaviest : (exists e, In e M /\ positive (ewt e) = true) -> exists e, In e M /\ positive (ewt e) = true /\ forall f, In f M -> positive (ewt f) = true -> wle (ewt f) (ewt e) = true.
  Proof.
    intros (e & He & H0). clear -He H0.
    assert (G : forall l, (forall e, In e l -> positive (ewt e) = false) \/ exists e, In e l /\ positive (ewt e) = true /\ forall f, In f l -> positive (ewt f) = true -> wle (ewt f) (ewt e) = true).
    { induction l as [|a l IH]; [left; intros ? []|]. destruct (positive (ewt a)) eqn:Ea.
      - right. destruct IH as [IH|(e' & H1 & H2 & H3)].
        + exists a. split; [now left|]. split; auto. intros f [<-|Hf] Hw; [apply wle_refl|]. rewrite (IH f Hf) in Hw. discriminate.
        + destruct (wle_total _ (ewt a) (ewt e')) as [Hle|Hle].
          * exists e'. split; [now right|]. split; auto. intros f [<-|Hf] Hw; auto.
          * exists a. split; [now left|]. split; auto. intros f [<-|Hf] Hw; [apply wle_refl|]. eapply wle_trans; eauto.
      - destruct IH as [IH|(e' & H1 & H2 & H3)].
        + left. intros f [<-|Hf]; auto.
        + right. exists e'. split; [now right|]. split; auto. intros f [<-|Hf] Hw; [congruence|auto]. }
    destruct (G M) as [K|K]; auto. rewrite (K e He) in H0. discriminate.
  Qed.

  (** The dense members of a group that holds together at one distance. *)
  Lemma level_positive (B : nat -> Prop) d x0 : level n M B d -> (forall x, B x -> x < n) -> B x0 -> dense x0 ->
    (forall x y, B x -> B y -> dense x -> dense y -> joined x y) ->
    exists d', positive d' = true /\ level n M (fun x => B x /\ dense x) d'.
  Proof.
    intros (He & H1 & H2) Hlt Hx0 Hd0 Hjoin.
    assert (HP : positive d = true \/ positive d = false) by (destruct (positive d); auto). destruct HP as [HP|HP].
    - exists d. split; auto. eapply level_ext; [|split; [exact He|split; [exact H1|exact H2]]]. intro x. split; [|tauto]. intro Hx. split; auto.
      apply (dense_joined x0 x); auto. eapply connected_incl; [|apply (H1 x0 x Hx0 Hx)]. intros e Hin. apply in_passing in Hin as [Hin Hw]. apply in_passing. split; auto.
      eapply wlt_le_trans; [exact HP|]. now apply Hlam.
    - destruct heaviest as (e & Hin & Hpe & Hmax).
      { destruct Hd0 as (q & Hq & Eq & Hp). assert (Hcq : c_child q < n) by (rewrite Eq; auto).
        destruct (density_of lam LA st n wt M ls ps T L T0 chosen final HX Hn Hper Hnonneg Hall q Hq Hcq) as (d0 & ((f & Hf & Ef) & _) & Ed). exists f. split; auto. now rewrite Ef, <- Ed. }
      exists (ewt e). split; auto. split; [eauto|]. split.
      + intros x y [Bx Dx] [By Dy]. eapply connected_incl; [|apply (Hjoin x y Bx By Dx Dy)]. intros f Hf. apply in_passing in Hf as [Hf Hw]. apply in_passing. split; auto.
      + intros x y [Bx Dx] Hy Hny K. assert (Kj : joined x y).
        { eapply connected_incl; [|exact K]. intros f Hf. apply in_passing in Hf as [Hf Hw]. apply in_passing. split; auto.
          eapply wlt_le_trans; [exact Hpe|]. apply Hlam. now apply wlt_le. }
        assert (Dy : dense y) by (apply (dense_joined x y); auto). apply (H2 x y Bx Hy).
        * intro By. now apply Hny.
        * eapply connected_incl; [|exact Kj]. intros f Hf. apply in_passing in Hf as [Hf Hw]. apply in_passing. split; auto. now apply heavier_flat.
  Qed.

  Theorem cluster_at_positive_level x0 : x0 < n -> label x0 <> (-1)%Z -> exists d, positive d = true /\ level n M (fun x => x < n /\ label x = label x0) d.
  Proof.
    intros Hx0 Hl0. destruct (xp_disjoint _ _ _ _ _ _ _ _ _ _ _ _ _ HX) as (HN & HC & HD).
    assert (Hne : final <> []).
    { intro E. destruct (xp_all_noise _ _ _ _ _ _ _ _ _ _ _ _ _ HX E) as [E' _]. apply Hl0. rewrite E', nth_indep with (d' := (-1)%Z).
      - apply nth_repeat.
      - now rewrite repeat_length. }
    assert (Hge : forall s, In s final -> n <= s) by (intros s Hs; destruct (HC s Hs) as [->|[H _]]; auto).
    assert (Hflat : forall x, x < n -> ~ dense x -> label x = (-1)%Z).
    { intros x Hx Hd. destruct (sample_row n wt mcs T HT x Hx) as (r & Hr & E). subst x. destruct (xp_labels _ _ _ _ _ _ _ _ _ _ _ _ _ HX Hne r Hr Hx) as [K _]. apply K.
      destruct (density_of lam LA st n wt M ls ps T L T0 chosen final HX Hn Hper Hnonneg Hall r Hr Hx) as (d & _ & Ed). split; [|rewrite Ed; apply Hzero].
      destruct (wle (c_lam r) (la_zero LA)) eqn:E; auto. exfalso. apply Hd. exists r. split; auto. split; auto. now apply wlt_nle. }
    assert (Hdense : forall x, x < n -> label x <> (-1)%Z -> dense x).
    { intros x Hx Hl. destruct (sample_row n wt mcs T HT x Hx) as (r & Hr & E). exists r. split; auto. split; auto. apply wlt_nle. destruct (wle (c_lam r) (la_zero LA)) eqn:Ez; auto.
      exfalso. apply Hl. apply Hflat; auto. intros (q & Hq & Eq & Hp). assert (q = r) as -> by (eapply (row_eq n wt mcs T HT); eauto; congruence). apply wlt_nle in Hp. congruence. }
    assert (Hd0 : dense x0) by auto.
    assert (Hrow : forall x, x < n -> dense x -> exists r t, In r T /\ c_child r = x /\ home n final T x t /\
      (t <> n -> label x = Z.of_nat (position final t)) /\ (t = n -> final <> [n] -> label x = (-1)%Z) /\
      (t = n -> final = [n] -> (dense_enough n T (option_map snd (cluster_selection_epsilon st)) r -> label x = 0%Z) /\
        (~ dense_enough n T (option_map snd (cluster_selection_epsilon st)) r -> label x = (-1)%Z))).
    { intros x Hx (r & Hr & E & Hp). subst x.
      destruct (xp_labels _ _ _ _ _ _ _ _ _ _ _ _ _ HX Hne r Hr Hx) as [_ K]. destruct (K ltac:(intros [Z0 _]; apply wlt_nle in Hp; congruence)) as (t & K1 & K2 & K3 & K4). exists r, t. auto 7. }
    assert (Hin : forall v t, home n final T v t -> t = n \/ In t final) by (intros v t H; induction H; auto).
    destruct (Hrow x0 Hx0 Hd0) as (r0 & t0 & Hr0 & Ec0 & Hh0 & A1 & A2 & A3).
    destruct (Nat.eq_dec t0 n) as [->|Ht0].
    - assert (EF : final = [n]) by (destruct (list_eq_dec Nat.eq_dec final [n]) as [E|E]; auto; exfalso; apply Hl0; auto).
      (* every sample belongs to the root *)
      assert (Hlab : forall x, x < n -> dense x -> exists r, In r T /\ c_child r = x /\
        (dense_enough n T (option_map snd (cluster_selection_epsilon st)) r -> label x = 0%Z) /\ (~ dense_enough n T (option_map snd (cluster_selection_epsilon st)) r -> label x = (-1)%Z)).
      { intros x Hx Hdx. destruct (Hrow x Hx Hdx) as (r & t & Hr & Ec & Hh & _ & _ & B3). exists r. split; auto. split; auto. apply B3; auto.
        destruct (Hin _ _ Hh) as [|K]; auto. rewrite EF in K. destruct K as [K|[]]; auto. }
      assert (HR : cluster_rows n T <> [] /\ cluster_selection_persistence st = None /\ exists thr,
        (forall q, In q T -> n <= c_child q -> c_parent q = n -> wle thr (c_lam q) = true) /\
        (forall r, dense_enough n T (option_map snd (cluster_selection_epsilon st)) r <-> wle thr (c_lam r) = true)).
      { assert (Hfn : In n final) by (rewrite EF; now left). destruct (cluster_selection_epsilon st) as [[lt_eps inv]|] eqn:Ee.
        - destruct (le_lt_dec (length chosen) 1) as [Hle|Hlt].
          + rewrite (xp_no_epsilon _ _ _ _ _ _ _ _ _ _ _ _ _ HX (or_intror Hle)) in Hfn. apply (root_not_chosen lam LA st n wt M ls ps T L T0 chosen final HX Hn root_once) in Hfn as (_ & K & _). congruence.
          + destruct (xp_epsilon _ _ _ _ _ _ _ _ _ _ _ _ _ HX lt_eps inv Ee Hlt) as (K & _). destruct (K n Hfn) as [[K1 _]|K1].
            * apply (root_not_chosen lam LA st n wt M ls ps T L T0 chosen final HX Hn root_once) in K1 as (_ & K1 & _). congruence.
            * destruct K1 as (_ & _ & Hb & s & _ & Hs). split; [|split].
              -- destruct (Hb s Hs) as (q & Hq & Hge' & _). intro E. apply (in_nil (a := q)). rewrite <- E. apply filter_In. split; auto. now apply Nat.leb_le.
              -- exact Hper.
              -- exists inv. cbn [option_map snd dense_enough]. split; [|tauto]. intros q Hq Hgq Ep.
                 destruct (Hb (c_child q)) as (q' & Hq' & _ & E & Hlt'); [pose proof (desc_child n T q Hq Hgq) as Hde; rewrite Ep in Hde; exact Hde|].
                 assert (q' = q) as -> by (eapply (row_eq n wt mcs T HT); eauto). exact (proj1 (proj2 (us_eps _ _ Hus lt_eps inv Ee) _ Hlt')).
        - rewrite (xp_no_epsilon _ _ _ _ _ _ _ _ _ _ _ _ _ HX (or_introl Ee)) in Hfn. apply (root_not_chosen lam LA st n wt M ls ps T L T0 chosen final HX Hn root_once) in Hfn as (HR & _ & HP). split; auto. split; auto.
          pose proof (xp_persistence _ _ _ _ _ _ _ _ _ _ _ _ _ HX) as ET. rewrite HP in ET.
          destruct (root_children n wt mcs T HT HR) as (q0 & Hq0 & Ep). pose proof (ct_in n T q0 Hq0) as Hq0T. pose proof (ct_child_in n wt mcs T HT q0 Hq0) as Hc0.
          assert (Hdens : forall q, In q T -> c_parent q = n -> wle (c_lam q) (c_lam q0) = true).
          { intros q Hq E. pose proof HL as (HDn & _ & HH & _). rewrite ET in Hq, Hq0T. apply (split_densest n L wt mcs lam T0 HDn HH Hlam HF); auto; [lia|congruence]. }
          assert (Hdens' : forall q, In q T -> n <= c_child q -> c_parent q = n -> wle (c_lam q0) (c_lam q) = true).
          { intros q Hq Hgq E. pose proof HL as (HDn & _ & HH & _). rewrite ET in Hq, Hq0T. apply (split_densest n L wt mcs lam T0 HDn HH Hlam HF); auto. congruence. }
          exists (c_lam q0). split; auto. intro r. cbn [option_map dense_enough]. split; [intro K; now apply K|]. intros K q Hq E. eapply wle_trans; [|exact K]. auto. }
      destruct HR as (HR & HP & thr & Hs & Hd). pose proof (xp_persistence _ _ _ _ _ _ _ _ _ _ _ _ _ HX) as ET. rewrite HP in ET.
      destruct (root_children n wt mcs T HT HR) as (q0 & Hq0 & Ep). pose proof (ct_in n T q0 Hq0) as Hq0T. pose proof (ct_child_in n wt mcs T HT q0 Hq0) as Hc0.
      destruct (dense_level n wt mcs lam M L T0 HL Hn Hlam HT0 HF thr) as [d Hlev].
      + intros q Hq. rewrite <- ET in Hq. auto.
      + exists q0. rewrite <- ET. split; auto. apply Hs; auto. lia.
      + assert (E0 : label x0 = 0%Z).
        { apply A3; auto. apply Hd. destruct (wle thr (c_lam r0)) eqn:Et; auto. exfalso. apply Hl0. apply A3; auto. rewrite Hd. congruence. }
        assert (Heq : forall x, (exists q, In q T0 /\ c_child q = x /\ x < n /\ wle thr (c_lam q) = true) /\ dense x <-> x < n /\ label x = label x0).
        { intro x. rewrite <- ET, E0. split.
          - intros [(q & Hq & Ec & Hx & Hw) Hdx]. split; auto. destruct (Hlab x Hx Hdx) as (r & Hr & Er & K & _). apply K, Hd.
            assert (r = q) as -> by (eapply (row_eq n wt mcs T HT); eauto; congruence). auto.
          - intros [Hx E]. assert (Hdx : dense x) by (apply Hdense; auto; rewrite E; discriminate). split; auto.
            destruct (Hlab x Hx Hdx) as (r & Hr & Er & _ & K). exists r. repeat (split; auto). destruct (wle thr (c_lam r)) eqn:Et; auto.
            rewrite K in E; [discriminate|]. rewrite Hd. congruence. }
        destruct (level_positive _ d x0 Hlev) as (d' & Hp & Hl').
        * intros x (q & _ & _ & Hx & _). auto.
        * apply Heq; auto.
        * auto.
        * intros x y Bx By Dx Dy. destruct (proj1 (Heq x) (conj Bx Dx)) as [Hx Ex]. destruct (proj1 (Heq y) (conj By Dy)) as [Hy Ey]. apply Htogether; auto; congruence.
        * exists d'. split; auto. eapply level_ext; [|exact Hl']. exact Heq.
    - destruct (Hin _ _ Hh0) as [|Hf0]; [contradiction|].
      destruct (final_level lam LA st n wt M ls ps T L T0 chosen final HX Hn t0 Hf0 Ht0) as [d Hlev].
      assert (Heq : forall x, below n T t0 x /\ dense x <-> x < n /\ label x = label x0).
      { intro x. split.
        - intros [Hb Hdx]. pose proof (below_lt n T _ _ Hb) as Hx. split; auto. destruct (Hrow x Hx Hdx) as (r & t & Hr & Ec & Hh & B1 & _).
          assert (t = t0) as ->. { eapply (home_det n T final HO Hge); eauto. apply (disjoint_home n T final HO ltac:(lia) HC); auto. }
          rewrite A1, B1; auto.
        - intros [Hx E]. assert (Hdx : dense x) by (apply Hdense; auto; rewrite E; auto). split; auto.
          destruct (Hrow x Hx Hdx) as (r & t & Hr & Ec & Hh & B1 & B2 & B3). destruct (Nat.eq_dec t n) as [->|Ht].
          + exfalso. apply Hl0. rewrite <- E. apply B2; auto. intro EF. rewrite EF in Hf0. destruct Hf0 as [K|[]]; congruence.
          + destruct (Hin _ _ Hh) as [|Hf]; [contradiction|]. rewrite A1, B1 in E; auto. apply Nat2Z.inj in E. apply position_inj in E; auto. subst t.
            apply (home_sample_below n T final HO ltac:(lia) HC); auto. }
      destruct (level_positive _ d x0 Hlev) as (d' & Hp & Hl').
      + intros x Hb. exact (below_lt n T _ _ Hb).
      + apply Heq; auto.
      + auto.
      + intros x y Bx By Dx Dy. destruct (proj1 (Heq x) (conj Bx Dx)) as [Hx Ex]. destruct (proj1 (Heq y) (conj By Dy)) as [Hy Ey]. apply Htogether; auto; congruence.
      + exists d'. split; auto. eapply level_ext; [|exact Hl']. exact Heq.
  Qed.
End Explained.
