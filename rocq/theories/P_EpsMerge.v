(** Labels before and after the epsilon search. *)
From Coq Require Import List Arith Lia Bool Permutation Sorted ZArith.
From Verif Require Import Prelude Order Graph Size Num Forest S_Kruskal P_Sort M_Linkage S_Linkage M_Condense S_Condense M_Select S_Select M_Labels S_Labels P_CTree P_Below
  P_Labels P_LabelsTop P_LabelsProps M_Epsilon S_Epsilon P_EpsilonTop S_Lost P_Lost M_Pipeline S_Pipeline P_PipelineTop P_PipelineRun S_Resize S_EpsMerge.
Import ListNotations.
Local Open Scope nat_scope.

Section Merge.
  Context {V : WOrd} {Sz : SOrd}.
  Variables (zero : V) (n : nat) (wt : nat -> Sz) (mcs : Sz) (T : list (crow V Sz)) (lt_eps : V -> bool) (inv : V).
  Hypothesis HT : condensed n wt mcs T.
  Hypothesis HO : splits_once n T.
  Hypothesis Hne : cluster_rows n T <> [].
  Hypothesis Hn : 0 < n.
  Hypothesis Hmono : forall x y, wle x y = true -> lt_eps x = true -> lt_eps y = true.
  Hypothesis Hinv : forall x, lt_eps x = true -> wle inv x = true /\ wlt zero x = true.
  Variables (S E : list nat) (B : list (crow V Sz)).
  Hypothesis HS : selection n T S.
  Hypothesis HP : Permutation B (cluster_rows n T).
  Hypothesis HB : StronglySorted (fun r q => c_parent r <= c_parent q) B.
  Hypothesis EE : cluster_epsilon_search lt_eps S (cluster_rows n T) B = Ok E.
  Variables ls ls' : list Z.
  Hypothesis RL : forall r, In r T -> c_child r < n -> right_label zero n T S None r (nth (c_child r) ls 0%Z).
  Hypothesis RL' : forall r, In r T -> c_child r < n -> right_label zero n T E (Some inv) r (nth (c_child r) ls' 0%Z).
  Hypothesis HEC : forall e, In e E -> is_cluster n T e.
  Hypothesis HEN : NoDup E.
  Hypothesis HED : disjoint_clusters n T E.
  Hypothesis HE1 : In n E -> E = [n].
  Notation ch := (children_of (cluster_rows n T)).
  Notation top := (top_id n T).
  Notation sb := (sub ch top).
  Notation up := (ct_up n wt mcs T HT).
  Notation bound := (ct_bound n wt mcs T HT).
  Notation one := (ct_one n wt mcs T HT).
  Let HOT := condensed_ordered n wt mcs T HT.

  Lemma at_zero_dec (r : crow V Sz) : at_zero zero r \/ ~ at_zero zero r.
  Proof.
    unfold at_zero. destruct (wle (c_lam r) zero) eqn:E1; [|right; intros [H _]; discriminate].
    destruct (wle zero (c_lam r)) eqn:E2; [auto|right; intros [_ H]; discriminate].
  Qed.

  Lemma sel_cluster s : In s S -> is_cluster n T s /\ s <> n.
  Proof. apply (proj1 (proj2 HS)). Qed.

  Lemma labelled r : In r T -> c_child r < n -> nth (c_child r) ls 0%Z <> (-1)%Z ->
    ~ at_zero zero r /\ exists s, In s S /\ below n T s (c_child r) /\ nth (c_child r) ls 0%Z = Z.of_nat (position S s).
  Proof.
    intros Hr Hx Hl. destruct (RL r Hr Hx) as [K0 K]. destruct (at_zero_dec r) as [Hz|Hz]; [exfalso; auto|]. split; auto.
    destruct (K Hz) as (t & K1 & K2 & K3 & _). destruct (Nat.eq_dec t n) as [->|Ht].
    { exfalso. apply Hl. apply K3; auto. intro ES. destruct (sel_cluster n) as [_ H]; [rewrite ES; simpl; auto|congruence]. }
    destruct (home_range n T S _ _ K1) as [|HtS]; [contradiction|].
    exists t. split; auto. split; auto. apply (home_sample_below n T S HOT Hn (fun s Hs => proj1 (sel_cluster s Hs))); auto.
  Qed.

  Lemma below_lam s q r : In q T -> c_child q = s -> n <= s -> In r T -> c_child r < n -> below n T s (c_child r) -> wle (c_lam q) (c_lam r) = true.
  Proof.
    intros Hq <- Hs Hr Hx Hb. remember (c_child q) as v eqn:Ev. remember (c_child r) as x eqn:Ex.
    revert q Hq Hs Ev. induction Hb as [p x Hp Epx Hx'|p x Hp Hc Hb IH]; intros q Hq Hs Ev.
    - assert (p = r) as -> by (apply (child_row_eq n T HOT); auto; congruence).
      apply (ct_lambda _ _ _ _ HT q r); auto; lia.
    - eapply wle_trans; [|apply (IH Ex Hx p Hp Hc eq_refl)]. apply (ct_lambda _ _ _ _ HT q p); auto; lia.
  Qed.

  Lemma sel_row s : In s S -> exists q, In q T /\ n <= c_child q /\ c_child q = s.
  Proof.
    intro Hs. destruct (sel_cluster s Hs) as [[|(Hge & q & Hq & Eq)] Hsn]; [contradiction|]. exists q. split; auto. split; [lia|auto].
  Qed.
  Lemma born_of s q : In s S -> In q T -> c_child q = s -> (born_below lt_eps n T s <-> lt_eps (c_lam q) = true).
  Proof.
    intros Hs Hq Eq. split.
    - intros (r & Hr & Hge & Er & El). assert (r = q) as <- by (apply (child_row_eq n T HOT); auto; congruence). auto.
    - intro El. destruct (sel_row s Hs) as (r & Hr & Hge & Er). exists q. split; auto. split; [lia|auto].
  Qed.
  Lemma c30_here :
    (forall e, In e E -> (In e S /\ ~ born_below lt_eps n T e) \/ merge_of lt_eps n T S e) /\
    (forall s, In s S -> ~ born_below lt_eps n T s -> In s E).
  Proof.
    destruct (c30 n wt mcs T lt_eps HT HO Hne Hmono S B HS HP HB) as (E' & Eq' & _ & _ & K1 & K2 & _).
    rewrite EE in Eq'. injection Eq' as <-. auto.
  Qed.
  Lemma E_ge e : In e E -> n <= e.
  Proof. intro He. destruct (HEC e He) as [->|[H _]]; auto. Qed.

  Lemma covered_label s e r : In s S -> In e E -> (e = s \/ descends n T e s) ->
    In r T -> c_child r < n -> below n T s (c_child r) -> ~ at_zero zero r ->
    nth (c_child r) ls' 0%Z = Z.of_nat (position E e).
  Proof.
    intros Hs He Hes Hr Hx Hb Hz. destruct (RL' r Hr Hx) as [_ K]. destruct (K Hz) as (t & K1 & K2 & K3 & K4).
    assert (Hbe : below n T e (c_child r)).
    { destruct Hes as [->|Hd]; auto. apply (descends_sub n wt mcs T HT) in Hd as [Hd _]. eapply (below_up n wt mcs T HT); eauto. }
    assert (t = e) as -> by (eapply (home_det n T E HOT E_ge); eauto; apply (disjoint_home n T E HOT Hn HEC); auto).
    destruct (Nat.eq_dec e n) as [->|Hen]; auto.
    pose proof (HE1 He) as E1. destruct (K4 eq_refl E1) as [K5 _]. rewrite E1. unfold position. cbn [countp].
    rewrite Nat.ltb_irrefl. cbn. apply K5. cbn.
    destruct (sel_row s Hs) as (q & Hq & Hge & Eq).
    assert (Hb' : lt_eps (c_lam q) = true).
    { destruct (lt_eps (c_lam q)) eqn:El; auto. exfalso.
      assert (Hi : In s E) by (apply (proj2 c30_here); auto; rewrite (born_of s q Hs Hq Eq); congruence).
      rewrite E1 in Hi. destruct Hi as [<-|[]]. now apply (proj2 (sel_cluster n Hs)). }
    eapply wle_trans; [apply (Hinv _ Hb')|]. apply (below_lam s q r); auto. lia.
  Qed.

  Lemma lost_label s r : In s S -> (forall e, In e E -> e <> s /\ ~ descends n T e s) ->
    In r T -> c_child r < n -> below n T s (c_child r) -> nth (c_child r) ls' 0%Z = (-1)%Z.
  Proof.
    intros Hs Hno Hr Hx Hb. destruct (RL' r Hr Hx) as [K0 K]. destruct (at_zero_dec r) as [Hz|Hz]; auto.
    destruct (K Hz) as (t & K1 & K2 & K3 & K4).
    destruct (home_range n T E _ _ K1) as [->|Ht].
    - apply K3; auto. intro E1. apply (proj2 (Hno n ltac:(rewrite E1; simpl; auto))).
      destruct (sel_cluster s Hs) as [Hc Hsn]. apply (is_cluster_iff n wt mcs T HT) in Hc.
      apply (descends_sub n wt mcs T HT). split; auto. apply (sub_root n wt mcs T HT). lia.
    - exfalso. assert (Hbt : below n T t (c_child r)) by (apply (home_sample_below n T E HOT Hn HEC); auto).
      destruct (Hno t Ht) as [Hts Hds].
      apply (below_sub n wt mcs T HT) in Hb as (r1 & Hr1 & Er1 & _ & Hi1).
      apply (below_sub n wt mcs T HT) in Hbt as (r2 & Hr2 & Er2 & _ & Hi2).
      assert (r1 = r) as -> by (apply (child_row_eq n T HOT); auto). assert (r2 = r) as -> by (apply (child_row_eq n T HOT); auto).
      destruct (sub_chain ch top up bound one (c_parent r) s t Hi1 Hi2) as [H|H]; cycle 1.
      + destruct (proj1 c30_here t Ht) as [[HtS _]|(_ & _ & _ & s' & Hs' & Hd')].
        * destruct HS as (_ & _ & HD). apply (HD s t Hs HtS). apply (descends_sub n wt mcs T HT). auto.
        * apply (descends_sub n wt mcs T HT) in Hd' as [Hd' Hne'].
          destruct HS as (_ & _ & HD). apply (HD s s' Hs Hs'). apply (descends_sub n wt mcs T HT).
          split; [eapply (sub_trans ch top up bound); eauto|]. intros ->.
          apply (sub_ge ch top up bound) in Hd'. apply (sub_ge ch top up bound) in H. lia.
      + apply Hds. apply (descends_sub n wt mcs T HT). auto.
  Qed.

  (** Samples of one cluster stay together. *)
  Lemma merge_together : stay_together n ls ls'.
  Proof.
    intros x y Hx Hy Lx Exy.
    destruct (ordered_sample_row n T HOT x Hx) as (r & Hr & Er). destruct (ordered_sample_row n T HOT y Hy) as (q & Hq & Eq).
    subst x y. destruct (labelled r Hr Hx Lx) as (Hzr & s & Hs & Hbs & Es).
    destruct (labelled q Hq Hy ltac:(congruence)) as (Hzq & s' & Hs' & Hbs' & Es').
    assert (s' = s) as ->.
    { apply (position_inj S); auto; [apply (proj1 HS)|]. rewrite Es, Es' in Exy. apply Nat2Z.inj in Exy. auto. }
    destruct (covered_dec n wt mcs T HT E s) as [(e & He & Hes)|Hno].
    - rewrite (covered_label s e r), (covered_label s e q); auto.
    - rewrite (lost_label s r), (lost_label s q); auto.
  Qed.

  Lemma merge_no_noise : (forall s, In s S -> exists e, In e E /\ (e = s \/ descends n T e s)) -> no_new_noise n ls ls'.
  Proof.
    intros Hcov x Hx Lx. destruct (ordered_sample_row n T HOT x Hx) as (r & Hr & Er). subst x.
    destruct (labelled r Hr Hx Lx) as (Hzr & s & Hs & Hbs & Es). destruct (Hcov s Hs) as (e & He & Hes).
    rewrite (covered_label s e r); auto. lia.
  Qed.

  Hypothesis Hany : forall c, is_cluster n T c -> exists x, below n T c x.

  Lemma merge_contains : contains_cluster n ls ls'.
  Proof.
    intros y Hy Ly. destruct (ordered_sample_row n T HOT y Hy) as (r & Hr & Er). subst y.
    assert (Hex : exists x, x < n /\ nth x ls 0%Z <> (-1)%Z /\ nth x ls' 0%Z = nth (c_child r) ls' 0%Z).
    { destruct (RL' r Hr Hy) as [K0 K]. destruct (at_zero_dec r) as [Hz|Hz]; [exfalso; auto|].
      destruct (K Hz) as (t & K1 & K2 & K3 & K4).
      assert (HtE : In t E).
      { destruct (home_range n T E _ _ K1) as [->|Ht]; auto.
        destruct (list_eq_dec Nat.eq_dec E [n]) as [->|E1]; [simpl; auto|]. exfalso. auto. }
      assert (Elab : nth (c_child r) ls' 0%Z = Z.of_nat (position E t)).
      { destruct (Nat.eq_dec t n) as [->|Htn]; auto. pose proof (HE1 HtE) as E1. destruct (K4 eq_refl E1) as [K5 K6].
        rewrite E1. unfold position. cbn [countp]. rewrite Nat.ltb_irrefl. cbn. apply K5. cbn.
        destruct (wle inv (c_lam r)) eqn:El; auto. exfalso. apply Ly. apply K6. cbn. congruence. }
      rewrite Elab.
      assert (Hb : below n T t (c_child r)) by (apply (home_sample_below n T E HOT Hn HEC); auto).
      destruct (proj1 c30_here t HtE) as [[HtS Hnb]|(_ & _ & Hd & s & Hs & Hts)].
      - exists (c_child r). split; auto. split; auto. destruct (RL r Hr Hy) as [_ J]. destruct (J Hz) as (u & J1 & J2 & _).
        assert (u = t) as ->.
        { eapply (home_det n T S HOT); eauto; [intros v Hv; apply sel_cluster in Hv as [[->|[? _]] _]; auto|].
          apply (disjoint_home n T S HOT Hn (fun s Hs => proj1 (sel_cluster s Hs))); auto. apply (proj2 (proj2 HS)). }
        rewrite J2; [lia|]. apply (sel_cluster t HtS).
      - destruct (Hany s) as [x Hxs]; [now apply sel_cluster|]. pose proof (below_lt n T s x Hxs) as Hxn.
        destruct (ordered_sample_row n T HOT x Hxn) as (q & Hq & Eq). subst x.
        destruct (sel_row s Hs) as (o & Ho & Hge & Eo).
        assert (Hlo : lt_eps (c_lam o) = true) by (apply (born_of s o Hs Ho Eo); apply Hd; auto).
        assert (Hzq : ~ at_zero zero q).
        { intros [Z1 _]. destruct (Hinv _ Hlo) as [_ Hpos]. assert (Hle : wle (c_lam o) zero = true); [|apply wlt_false in Hle; congruence].
          eapply wle_trans; [|exact Z1]. apply (below_lam s o q); auto. lia. }
        exists (c_child q). split; auto. split; [|apply (covered_label s t q); auto].
        destruct (RL q Hq Hxn) as [_ J]. destruct (J Hzq) as (u & J1 & J2 & _).
        assert (u = s) as ->.
        { eapply (home_det n T S HOT); eauto; [intros v Hv; apply sel_cluster in Hv as [[->|[? _]] _]; auto|].
          apply (disjoint_home n T S HOT Hn (fun s Hs => proj1 (sel_cluster s Hs))); auto. apply (proj2 (proj2 HS)). }
        rewrite J2; [lia|]. apply (sel_cluster s Hs). }
    destruct Hex as (x & Hx & Lx & Ex). exists x. split; auto. split; auto. intros z [Hz Ez]. split; auto.
    rewrite <- Ex. symmetry. apply merge_together; auto.
  Qed.
End Merge.
