(** Which clusters the epsilon search can lose. *)
From Coq Require Import List Arith Lia Bool Permutation Sorted QArith Qcanon.
From Verif Require Import Prelude Order Size Num Forest P_Sort M_Linkage S_Linkage M_Condense S_Condense M_Select S_Select P_CTree P_Below
  P_CondenseTop P_SelectTop M_Labels P_Labels M_Epsilon S_Epsilon P_Epsilon P_EpsilonTop S_Lost.
Import ListNotations.
Local Open Scope nat_scope.

Section Lost.
  Context {V : WOrd} {Sz : SOrd}.
  Variables (n : nat) (wt : nat -> Sz) (mcs : Sz) (T : list (crow V Sz)) (lt_eps : V -> bool).
  Hypothesis HT : condensed n wt mcs T.
  Hypothesis HO : splits_once n T.
  Hypothesis Hne : cluster_rows n T <> [].
  Hypothesis Hmono : forall x y, wle x y = true -> lt_eps x = true -> lt_eps y = true.
  Variables (S : list nat) (B : list (crow V Sz)).
  Hypothesis HS : selection n T S.
  Hypothesis HP : Permutation B (cluster_rows n T).
  Hypothesis HB : StronglySorted (fun r q => c_parent r <= c_parent q) B.
  Notation ch := (children_of (cluster_rows n T)).
  Notation top := (top_id n T).
  Notation sb := (sub ch top).
  Notation up := (ct_up n wt mcs T HT).
  Notation bound := (ct_bound n wt mcs T HT).

  Lemma vis_out e w : vis n T e w -> In w (sb e) \/
    exists l p, In l (sb e) /\ ch l = [] /\ l < p /\ ~ In p (sb e) /\ In w (ch p).
  Proof.
    induction 1 as [|v p w Hv IH (N1 & N2 & N3) Hw].
    - left. apply (sub_self ch top up bound).
    - destruct (in_dec Nat.eq_dec p (sb e)) as [Hp|Hp].
      { left. eapply (sub_trans ch top up bound); [exact Hp|]. apply (sub_child ch top up bound p w Hw). apply (sub_self ch top up bound). }
      right. destruct IH as [IH|(l & p0 & Hl & El & Hlp & Hp0 & Hv0)].
      + assert (p <> v) by congruence. exists v, p. split; auto. split; [apply N3; lia|]. split; [lia|auto].
      + exists l, p. pose proof (up _ _ Hv0). split; auto. split; auto. split; [lia|auto].
  Qed.

  Lemma lost_clusters E : cluster_epsilon_search lt_eps S (cluster_rows n T) B = Ok E ->
    forall s, In s S -> (forall e, In e E -> e <> s /\ ~ descends n T e s) ->
    exists e l p, In e E /\ merge_of lt_eps n T S e /\ leaf_cluster n T l /\ descends n T e l /\
      l < p /\ p <> e /\ ~ descends n T e p /\ splits_off n T p s.
  Proof.
    intros Eq s Hs Hno.
    destruct (eps_ok n wt mcs T HT HO B HP HB lt_eps Hmono S (sel_range n wt mcs T HT S HS)
      (sel_disj n wt mcs T HT S HS) (proj1 HS) Hne) as (E' & Eq' & K1 & K2 & K3 & K5 & K6).
    rewrite Eq in Eq'. injection Eq' as <-.
    destruct (K5 s Hs) as [H|(e & He & Hm & Hv)]; [destruct (Hno s H); congruence|].
    destruct (Hno e He) as [Hes Hds].
    destruct (vis_out e s Hv) as [Hi|(l & p & Hl & El & Hlp & Hp & Hsp)].
    { exfalso. apply Hds. apply (descends_sub n wt mcs T HT). auto. }
    assert (Hme := merged_spec n wt mcs T lt_eps HT S e Hm).
    assert (Hle : l <> e).
    { intros ->. destruct Hm as (_ & _ & _ & s0 & _ & Hs0 & Hs0e).
      apply (sub_inv ch top up bound) in Hs0 as [|(u & Hu & _)]; [contradiction|]. rewrite El in Hu. destruct Hu. }
    exists e, l, p. split; auto. split; auto. split; [|split; [|split; [|split; [|split]]]]; auto.
    - split.
      + apply (is_cluster_iff n wt mcs T HT). destruct Hm as (Her & _).
        apply (sub_range n wt mcs T HT) in Hl as [->|]; lia.
      + intros r Hr Hc Ep. assert (HrC : In r (cluster_rows n T)) by (now apply (in_ct n T)).
        assert (Hi : In (c_child r) (ch l)) by (apply (ch_in n T); eauto). rewrite El in Hi. destruct Hi.
    - apply (descends_sub n wt mcs T HT). auto.
    - intros ->. apply Hp. apply (sub_self ch top up bound).
    - intro Hd. apply (descends_sub n wt mcs T HT) in Hd as [Hd _]. auto.
    - apply (ch_in n T) in Hsp as (r & Hr & Ep & Ec). exists r. split; [now apply (ct_in n T)|].
      pose proof (ct_child_in n wt mcs T HT r Hr). split; [lia|auto].
  Qed.

  Lemma covered_dec E s : (exists e, In e E /\ (e = s \/ descends n T e s)) \/
    (forall e, In e E -> e <> s /\ ~ descends n T e s).
  Proof.
    induction E as [|a E IH]; [right; intros e []|].
    assert (Ha : (a = s \/ descends n T a s) \/ (a <> s /\ ~ descends n T a s)).
    { destruct (Nat.eq_dec a s) as [|Has]; auto. destruct (in_dec Nat.eq_dec s (sb a)) as [Hi|Hi].
      - left. right. apply (descends_sub n wt mcs T HT). auto.
      - right. split; auto. intro Hd. apply (descends_sub n wt mcs T HT) in Hd as [Hd _]. auto. }
    destruct Ha as [Ha|Ha]; [left; exists a; simpl; auto|].
    destruct IH as [(e & He & H)|H]; [left; exists e; simpl; auto|].
    right. intros e [<-|He]; auto.
  Qed.

  Lemma none_lost_late E : cluster_epsilon_search lt_eps S (cluster_rows n T) B = Ok E ->
    (forall l p s, leaf_cluster n T l -> splits_off n T p s -> p < l) ->
    forall s, In s S -> exists e, In e E /\ (e = s \/ descends n T e s).
  Proof.
    intros Eq Hord s Hs.
    destruct (covered_dec E s) as [H|H]; auto.
    destruct (lost_clusters E Eq s Hs H) as (e & l & p & _ & _ & Hl & _ & Hlp & _ & _ & Hsp).
    specialize (Hord l p s Hl Hsp). lia.
  Qed.

  Lemma none_lost_one E : cluster_epsilon_search lt_eps S (cluster_rows n T) B = Ok E ->
    (forall s t, In s S -> In t S -> born_below lt_eps n T s -> born_below lt_eps n T t ->
       forall e, merge_of lt_eps n T S e -> descends n T e s -> descends n T e t) ->
    forall s, In s S -> exists e, In e E /\ (e = s \/ descends n T e s).
  Proof.
    intros Eq Hone s Hs.
    destruct (covered_dec E s) as [H|H]; auto.
    destruct (lost_clusters E Eq s Hs H) as (e & l & p & He & Hm & _ & _ & _ & _ & _ & Hsp).
    exfalso. apply (proj2 (H e He)).
    destruct (c30 n wt mcs T lt_eps HT HO Hne Hmono S B HS HP HB) as (E' & Eq' & _ & _ & _ & _ & Hl & _).
    rewrite Eq in Eq'. injection Eq' as <-.
    destruct (Hl s Hs H) as [Hb _].
    pose proof Hm as (_ & _ & Hd & t & Ht & Het).
    apply (Hone t s Ht Hs (Hd t Het) Hb e Hm Het).
  Qed.

  Lemma splits_off_ch p s : splits_off n T p s <-> In s (ch p).
  Proof.
    split.
    - intros (r & Hr & Hc & <- & <-). apply (ch_in n T). exists r. split; auto. now apply (in_ct n T).
    - intro Hs. apply (ch_in n T) in Hs as (r & Hr & Ep & Ec). exists r. split; [now apply (ct_in n T)|].
      pose proof (ct_child_in n wt mcs T HT r Hr). split; [lia|auto].
  Qed.

  Lemma root_children c : In c (ch n) -> ch n = [n + 1; n + 2].
  Proof.
    intro Hc. assert (Hr : exists r, nth_error (cluster_rows n T) 0 = Some r).
    { destruct (nth_error (cluster_rows n T) 0) eqn:E; eauto. apply nth_error_None in E.
      destruct (cluster_rows n T) eqn:E'; [destruct Hc|simpl in E; lia]. }
    destruct Hr as (r & Hr). assert (HrC := nth_error_In _ _ Hr).
    assert (Ec : c_child r = n + 1).
    { pose proof (map_nth_error c_child _ _ Hr) as Hm. rewrite (ids n wt mcs T HT) in Hm.
      assert (Hl : 0 < length (cluster_rows n T)) by (apply nth_error_Some; congruence).
      rewrite nth_error_nth' with (d := 0) in Hm by now rewrite seq_length.
      rewrite seq_nth in Hm by auto. injection Hm as <-. lia. }
    assert (Ep : c_parent r = n).
    { pose proof (parent_lt_child n wt mcs T HT r HrC) as Hlt. lia. }
    assert (H1 : In (n + 1) (ch n)) by (rewrite <- Ec; apply (ch_in n T); exists r; auto).
    destruct (ch_cases n wt mcs T HT HO n) as [E|(a & E & Ha)]; rewrite E in *; simpl in *; [tauto|].
    assert (a = n + 1) as -> by lia. now replace (n + 1 + 1) with (n + 2) by lia.
  Qed.

  Lemma none_lost_flat E : cluster_epsilon_search lt_eps S (cluster_rows n T) B = Ok E ->
    (forall p s, splits_off n T p s -> p = n \/ splits_off n T n p) ->
    forall s, In s S -> exists e, In e E /\ (e = s \/ descends n T e s).
  Proof.
    intros Eq Hflat s Hs.
    destruct (covered_dec E s) as [H|H]; auto. exfalso.
    destruct (lost_clusters E Eq s Hs H) as (e & l & p & He & Hm & _ & Hel & Hlp & Hpe & Hnp & Hsp).
    assert (Hen : e <> n).
    { intros ->. apply (proj2 (H n He)). pose proof (sel_range n wt mcs T HT S HS s Hs).
      apply (descends_sub n wt mcs T HT). split; [apply (sub_root n wt mcs T HT)|]; lia. }
    apply (descends_sub n wt mcs T HT) in Hel as [Hel Hle].
    destruct (sub_up ch top up bound e l Hel Hle) as (q & Hq & Hqe).
    assert (He0 : n <= e) by (destruct Hm as (Hc & _); apply (is_cluster_iff n wt mcs T HT) in Hc; lia).
    assert (Hqn : n < q) by (apply (sub_ge ch top up bound) in Hqe; lia).
    assert (Hqr : In q (ch n)).
    { destruct (Hflat q l) as [->|H1]; [now apply splits_off_ch|lia|now apply splits_off_ch]. }
    pose proof (root_children q Hqr) as Er.
    assert (Hpr : p = n \/ In p (ch n)) by (destruct (Hflat p s Hsp) as [|H1]; [auto|right; now apply splits_off_ch]).
    assert (Hl2 : l <= n + 2) by (destruct Hpr as [->|Hpr]; [|rewrite Er in Hpr; simpl in Hpr]; lia).
    pose proof (up _ _ Hq) as Hql.
    assert (Hln : In l (ch n)) by (rewrite Er; simpl; lia).
    pose proof (ct_one n wt mcs T HT _ _ _ Hln Hq). lia.
  Qed.
End Lost.

(** ** A hierarchy of two levels *)
Definition fd : list (lrow QInf NatSize) :=
  [lr 0 1 (dist 1) 2; lr 2 3 (dist 1) 2; lr 4 5 (dist 1) 2; lr 6 7 (dist 1) 2;
   lr 8 9 (dist 2) 4; lr 10 11 (dist 3) 4; lr 12 13 (dist 8) 8].
Definition fT : list (crow QInf NatSize) :=
  match condense_tree fd hdbscan_lambda_value (2 : NatSize) None (fun _ => 1) with Ok T => T | Err _ => [] end.
Lemma fd_dendrogram : dendrogram 8 fd.
Proof. apply dendrogram_checked. reflexivity. Qed.
Lemma fd_sizes : sizes_are (Sz := NatSize) 8 (fun _ => 1) fd.
Proof. apply sizes_checked; reflexivity. Qed.
Lemma fd_sorted : heights_sorted fd.
Proof. repeat constructor. Qed.
Lemma fd_run :
  condense_tree fd hdbscan_lambda_value (2 : NatSize) None (fun _ => 1) = Ok fT /\
  condensed (Sz := NatSize) 8 (fun _ => 1) (2 : NatSize) fT /\ splits_once 8 fT.
Proof.
  destruct (c24 QInf QInf NatSize 8 fd (fun _ => 1) (2 : NatSize) None hdbscan_lambda_value
              fd_dendrogram fd_sizes fd_sorted hdbscan_lambda_antitone) as (T & E & H & H').
  - reflexivity.
  - repeat constructor.
  - unfold fT. rewrite E. split; auto. split; auto. now apply H'.
Qed.
Lemma flat_checked (T : list (crow QInf NatSize)) :
  forallb (fun r => (c_child r <? 8) || (c_parent r =? 8) ||
    existsb (fun q => (8 <=? c_child q) && (c_parent q =? 8) && (c_child q =? c_parent r)) T) T = true ->
  forall p s, splits_off 8 T p s -> p = 8 \/ splits_off 8 T 8 p.
Proof.
  intros Hb p s (r & Hr & Hc & <- & <-).
  rewrite forallb_forall in Hb. specialize (Hb r Hr). apply orb_true_iff in Hb as [Hb|Hb].
  - apply orb_true_iff in Hb as [Hb|Hb]; [apply Nat.ltb_lt in Hb; lia|left; now apply Nat.eqb_eq].
  - right. apply existsb_exists in Hb as (q & Hq & Hb). apply andb_true_iff in Hb as [Hb H3]. apply andb_true_iff in Hb as [H1 H2].
    exists q. apply Nat.leb_le in H1. apply Nat.eqb_eq in H2, H3. auto.
Qed.
Lemma fd_flat : forall p s, splits_off 8 fT p s -> p = 8 \/ splits_off 8 fT 8 p.
Proof. apply flat_checked. vm_compute. reflexivity. Qed.
