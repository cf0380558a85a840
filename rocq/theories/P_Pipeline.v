(** clusters_from_spanning_tree: selection, labels and strengths on one condensed tree. *)
From Coq Require Import List Arith Lia Bool ZArith Permutation Sorted.
From Verif Require Import Prelude Order Graph Size Num Forest P_Pairs P_Sort M_Linkage S_Linkage M_Condense S_Condense M_Select S_Select
  P_CTree P_Below P_Eom P_EomTop P_SelectTop M_Labels S_Labels P_Labels P_LabelsTop P_LabelsProps M_Epsilon S_Epsilon P_EpsilonTop M_Simplify M_Pipeline S_Pipeline.
Import ListNotations.
Local Open Scope nat_scope.

Lemma sorted_NoDup l : StronglySorted lt l -> NoDup l.
Proof.
  induction 1 as [|a l H IH HF]; constructor; auto. rewrite Forall_forall in HF. intro Hi. apply HF in Hi. lia.
Qed.

Section Sel.
  Context {V : WOrd} {Sz : SOrd}.
  Variables (LA : LamArith V) (A : Arith V Sz) (by_parent : list (crow V Sz) -> list (crow V Sz)) (st : settings V Sz).
  Variables (n : nat) (wt : nat -> Sz) (T : list (crow V Sz)).
  Hypothesis HU : usable (la_zero LA) st.
  Hypothesis HB : sorts_by_parent by_parent.
  Hypothesis HA : num_lt A (num_zero A) (num_zero A) = false.
  Hypothesis HT : condensed n wt (min_cluster_size st) T.
  Hypothesis HO : splits_once n T.
  Hypothesis Hn : 0 < n.
  Notation mcs := (min_cluster_size st).
  Notation CT := (cluster_rows n T).
  Notation ch := (children_of CT).
  Notation top := (top_id n T).
  Notation sb := (sub ch top).
  Notation up := (ct_up n wt mcs T HT).
  Notation bound := (ct_bound n wt mcs T HT).
  Notation cone := (ct_one n wt mcs T HT).
  Notation covers S := (forall l, leaf_cluster n T l -> exists s, In s S /\ (s = l \/ descends n T s l)).

  Lemma root_desc c : is_cluster n T c -> c <> n -> descends n T n c.
  Proof.
    intros Hc Hne. apply (descends_sub n wt mcs T HT). split; auto. apply (sub_root n wt mcs T HT). now apply (is_cluster_iff n wt mcs T HT).
  Qed.

  Lemma cover_single S : CT <> [] -> NoDup S -> (forall s, In s S -> is_cluster n T s) -> disjoint_clusters n T S -> covers S ->
    S = [n] \/ (~ In n S /\ 2 <= length S).
  Proof.
    intros Hne HND Hcl Hdis Hcov.
    destruct (in_dec Nat.eq_dec n S) as [Hin|Hout].
    - left. assert (Hall : forall s, In s S -> s = n).
      { intros s Hs. destruct (Nat.eq_dec s n) as [|Hsn]; auto. exfalso. apply (Hdis n s Hin Hs). apply root_desc; auto. }
      destruct S as [|a [|b S']]; [destruct Hin|f_equal; apply Hall; simpl; auto|].
      exfalso. inversion_clear HND as [|? ? H1 _]. apply H1. rewrite (Hall a), (Hall b); simpl; auto.
    - right. split; auto.
      destruct (even_length n wt mcs T HT) as (k & Hk). destruct (two_exists k _ Hk) as (PL & HPL).
      destruct (root_children n wt mcs T HT Hne) as (r & Hr & Er).
      rewrite HPL in Hr. apply in_two in Hr as (p & Hp & Hrp).
      assert (Hf : In (fst p) CT) by (rewrite HPL; apply in_two; eauto). assert (Hs : In (snd p) CT) by (rewrite HPL; apply in_two; eauto).
      assert (HND' : c_child (fst p) <> c_child (snd p)).
      { apply In_nth_error in Hp as (j & Hj). pose proof (ct_child_NoDup n wt mcs T HT) as Hnd. rewrite HPL in Hnd.
        intro E. assert (E1 : nth_error (map c_child (two PL)) (2 * j) = nth_error (map c_child (two PL)) (2 * j + 1)).
        { rewrite !nth_error_map, two_nth0, two_nth1, Hj. simpl. congruence. }
        rewrite NoDup_nth_error in Hnd. apply Hnd in E1; [lia|]. apply nth_error_Some. rewrite nth_error_map, two_nth0, Hj. discriminate. }
      assert (Hpar : c_parent (fst p) = n /\ c_parent (snd p) = n).
      { apply In_nth_error in Hp as (j & Hj).
        destruct (ct_pairs _ _ _ _ HT j (fst p) (snd p)) as [E _]; [rewrite HPL, two_nth0, Hj; auto|rewrite HPL, two_nth1, Hj; auto|].
        destruct Hrp as [->| ->]; split; congruence. }
      set (a := c_child (fst p)) in *. set (b := c_child (snd p)) in *.
      assert (Ha : In a (ch n)) by (apply (ch_in n T); exists (fst p); intuition). assert (Hb : In b (ch n)) by (apply (ch_in n T); exists (snd p); intuition).
      destruct (c26 V Sz n wt mcs T HT (us_size _ _ HU) Hne) as (Lf & _ & _ & HLf & _ & Hex).
      assert (Hget : forall c, In c (ch n) -> exists s, In s S /\ In s (sb c)).
      { intros c Hc. pose proof (up _ _ Hc). pose proof (bound _ _ Hc). assert (Hcc : is_cluster n T c) by (apply (is_cluster_iff n wt mcs T HT); lia).
        destruct (Hex c Hcc) as (l & Hl & Hlc). apply HLf in Hl.
        assert (Hls : In l (sb c)).
        { destruct Hlc as [->|Hd]; [apply (sub_self ch top up bound)|]. now apply (descends_sub n wt mcs T HT) in Hd. }
        destruct (Hcov l Hl) as (s & Hs' & Hsl). assert (Hsl' : In l (sb s)).
        { destruct Hsl as [->|Hd]; [apply (sub_self ch top up bound)|]. now apply (descends_sub n wt mcs T HT) in Hd. }
        exists s. split; auto. destruct (sub_chain ch top up bound cone l s c Hsl' Hls) as [H1|H1]; auto.
        destruct (Nat.eq_dec c s) as [->|Hcs]; [apply (sub_self ch top up bound)|].
        destruct (sub_up ch top up bound s c H1 Hcs) as (p' & Hp' & Hps). rewrite (cone _ _ _ Hp' Hc) in Hps.
        apply (sub_ge ch top up bound) in Hps. exfalso. apply Hout.
        pose proof (Hcl s Hs') as Hsc. apply (is_cluster_iff n wt mcs T HT) in Hsc. assert (s = n) by lia. congruence. }
      destruct (Hget a Ha) as (s & Hs1 & Hsa). destruct (Hget b Hb) as (s' & Hs2 & Hsb).
      assert (s <> s') by (intros <-; apply HND'; exact (sub_siblings ch top up bound cone n a b s Ha Hb Hsa Hsb)).
      destruct S as [|x [|y S']]; simpl; try lia; [destruct Hs1|destruct Hs1 as [->|[]], Hs2 as [->|[]]; congruence].
  Qed.

  (** The selected clusters before the epsilon search. *)
  Lemma base_ok : exists S, selected_clusters_of A st T n = Ok S /\
    NoDup S /\ (forall s, In s S -> is_cluster n T s) /\ disjoint_clusters n T S /\
    (CT = [] -> S = []) /\ (CT <> [] -> covers S) /\
    (cluster_selection_method st = Leaf -> forall s, In s S -> leaf_cluster n T s) /\
    (allow_single_cluster st = false \/ cluster_selection_method st = Leaf -> ~ In n S).
  Proof.
    pose proof (us_size _ _ HU) as Hone. unfold selected_clusters_of. rewrite (mask_ok n wt mcs T HT Hone).
    destruct (cluster_selection_method st).
    - destruct (c25_structure V Sz A n wt mcs T (max_cluster_size st) (allow_single_cluster st) HT Hone Hn HA) as (S & E & H1 & H2 & H3 & H4 & H5).
      rewrite (mask_ok n wt mcs T HT Hone) in E. exists S. split; auto. split; [now apply sorted_NoDup|].
      split; [intros s Hs; apply (H2 s Hs)|]. split; auto. split; auto.
      split; [intros Hne l Hl; apply H5; auto; rewrite (us_max _ _ HU); discriminate|]. split; [discriminate|].
      intros [Hs|]; [|discriminate]. intro Hi. destruct (H2 n Hi) as (_ & H & _). now apply H.
    - destruct CT as [|r0 l0] eqn:EC.
      + exists []. split; auto. split; [constructor|]. split; [intros ? []|]. split; [intros ? ? []|].
        split; auto. split; [congruence|]. split; [intros _ ? []|intros _ []].
      + rewrite <- EC. assert (Hne : CT <> []) by (rewrite EC; discriminate).
        destruct (c26 V Sz n wt mcs T HT Hone Hne) as (S & E & H1 & H2 & H3 & H4). rewrite (mask_ok n wt mcs T HT Hone) in E.
        exists S. split; auto. split; [now apply sorted_NoDup|]. split; [intros s Hs; apply H2 in Hs; apply Hs|]. split; auto.
        split; [congruence|]. split; [intros _ l Hl; exists l; split; auto; now apply H2|]. split; [intros _ s Hs; now apply H2|].
        intros _ Hi. apply H2 in Hi as [_ Hi]. destruct (root_children n wt mcs T HT Hne) as (r & Hr & Er).
        apply (Hi r); auto; [now apply (ct_in n T)|]. pose proof (ct_child_in n wt mcs T HT r Hr). lia.
  Qed.

  (** The clusters that are labelled. *)
  Lemma final_ok S : NoDup S -> (forall s, In s S -> is_cluster n T s) -> disjoint_clusters n T S ->
    (CT = [] -> S = []) -> (CT <> [] -> covers S) ->
    exists E, epsilon_clusters_of by_parent st T S = Ok E /\
      NoDup E /\ (forall s, In s E -> is_cluster n T s) /\ disjoint_clusters n T E /\
      (CT = [] -> E = []) /\ (CT <> [] -> E = [n] \/ (~ In n E /\ 2 <= length E)) /\
      (forall e, In e E -> In e S \/ exists lt_eps inv, cluster_selection_epsilon st = Some (lt_eps, inv) /\ merge_of lt_eps n T S e) /\
      (cluster_selection_epsilon st = None -> E = S).
  Proof.
    intros H1 H2 H3 H4 H5. pose proof (us_size _ _ HU) as Hone.
    assert (Hskip : exists E, Ok S = Ok E /\
      NoDup E /\ (forall s, In s E -> is_cluster n T s) /\ disjoint_clusters n T E /\
      (CT = [] -> E = []) /\ (CT <> [] -> E = [n] \/ (~ In n E /\ 2 <= length E)) /\
      (forall e, In e E -> In e S \/ exists lt_eps inv, cluster_selection_epsilon st = Some (lt_eps, inv) /\ merge_of lt_eps n T S e) /\
      (cluster_selection_epsilon st = None -> E = S)).
    { exists S. split; auto. split; auto. split; auto. split; auto. split; auto. split; [|split; auto].
      intro Hne. apply cover_single; auto. }
    unfold epsilon_clusters_of. rewrite (mask_ok n wt mcs T HT Hone).
    destruct (cluster_selection_epsilon st) as [[lt_eps inv]|] eqn:Ee; [|exact Hskip].
    destruct (1 <? length S) eqn:El; [|exact Hskip]. apply Nat.ltb_lt in El.
    assert (Hne : CT <> []) by (intro E; rewrite (H4 E) in El; simpl in El; lia).
    destruct (us_eps _ _ HU lt_eps inv Ee) as [Hmono Hinv]. destruct (HB CT) as [HP HS].
    destruct (cover_single S Hne H1 H2 H3 (H5 Hne)) as [->|[Hout _]]; [simpl in El; lia|].
    assert (Hsel : selection n T S) by (split; auto; split; auto; intros s Hs; split; auto; intros ->; contradiction).
    destruct (c30 n wt mcs T lt_eps HT HO Hne Hmono S (by_parent CT) Hsel HP HS) as (E & EE & K1 & K2 & K3 & _ & _ & _ & K7).
    exists E. split; auto. split; auto.
    assert (Hcl : forall s, In s E -> is_cluster n T s).
    { intros s Hs. destruct (K3 s Hs) as [[Hi _]|Hm]; [auto|apply Hm]. }
    split; auto. split; auto. split; [congruence|]. split; [|split; [|discriminate]].
    - intros _. destruct (K7 ltac:(lia) (H5 Hne)) as [->|Hl]; auto. right. split; auto. intro Hi.
      assert (Hall : forall s, In s E -> s = n).
      { intros s Hs. destruct (Nat.eq_dec s n) as [|Hsn]; auto. exfalso. apply (K2 n s Hi Hs). apply root_desc; auto. }
      destruct E as [|a [|b E']]; simpl in Hl; try lia. inversion_clear K1 as [|? ? Ha _]. apply Ha. rewrite (Hall a), (Hall b); simpl; auto.
    - intros e He. destruct (K3 e He) as [[Hi _]|Hm]; [auto|]. right. eauto.
  Qed.

  (** No cluster selected: everything is noise. *)
  Lemma labels_empty eps : get_cluster_label_vector LA T [] eps n = Ok (repeat (-1)%Z n).
  Proof. unfold get_cluster_label_vector. destruct T; auto. Qed.
  Lemma strengths_empty : get_point_membership_strength_vector LA T [] (repeat (-1)%Z n) = Ok (repeat (la_zero LA) n).
  Proof.
    unfold get_point_membership_strength_vector.
    assert (E1 : max_lambdas LA T [] = Ok []).
    { unfold max_lambdas. cbn [nodup map]. clear. induction T as [|r l IH]; auto. }
    rewrite E1. cbn [bind]. rewrite (t_min n wt mcs T HT Hn). cbn [bind].
    assert (E2 : forall (l : list (crow V Sz)) res0, incl l T ->
      fold_res (strength_step LA [] (repeat (-1)%Z n) [] n) l res0 = Ok res0).
    { induction l as [|r l IH]; intros res0 Hl; auto. cbn [fold_res].
      assert (Es : strength_step LA [] (repeat (-1)%Z n) [] n r res0 = Ok res0).
      { unfold strength_step. destruct (n <=? c_child r) eqn:Ec; auto. apply Nat.leb_gt in Ec.
        assert (En : nth_error (repeat (-1)%Z n) (c_child r) = Some (-1)%Z).
        { rewrite (nth_error_nth' _ (-1)%Z) by (rewrite repeat_length; auto). now rewrite nth_repeat. }
        now rewrite En. }
      rewrite Es. cbn [bind]. apply IH. intros x Hx. apply Hl. simpl; auto. }
    rewrite E2 by apply incl_refl. cbn [bind]. f_equal. rewrite repeat_length.
    clear. generalize 0. induction n as [|m IH]; intro a; simpl; auto. f_equal. auto.
  Qed.
End Sel.
