(** The epsilon search: statements over the whole tree. *)
From Coq Require Import List Arith Lia Bool ZArith QArith Qcanon Permutation Sorted.
From Verif Require Import Prelude Order Size Num Forest P_Sort M_Linkage S_Linkage M_Condense S_Condense M_Select S_Select P_CTree P_Below
  P_CondenseTop P_SelectTop M_Labels P_Labels M_Epsilon S_Epsilon P_Epsilon.
Import ListNotations.
Local Open Scope nat_scope.

Section Top.
  Context {V : WOrd} {Sz : SOrd}.
  Variables (n : nat) (wt : nat -> Sz) (mcs : Sz) (T : list (crow V Sz)) (lt_eps : V -> bool).
  Hypothesis HT : condensed n wt mcs T.
  Hypothesis HO : splits_once n T.
  Hypothesis Hne : cluster_rows n T <> [].
  Hypothesis Hmono : forall x y, wle x y = true -> lt_eps x = true -> lt_eps y = true.
  Variables (S : list nat) (B : list (crow V Sz)).
  Hypothesis HS : selection n T S.
  Hypothesis HP : Permutation B (cluster_rows n T).
  Hypothesis HB : StronglySorted (fun r q => c_parent r <= c_parent q) B.

  Lemma small_born c : small n T lt_eps c <-> born_below lt_eps n T c.
  Proof.
    split.
    - intros (r & Hr & Ec & E). exists r. split; [now apply (ct_in n T)|]. pose proof (ct_child_in n wt mcs T HT r Hr). split; [lia|]. auto.
    - intros (r & Hr & Hc & Ec & E). exists r. split; [now apply (in_ct n T)|]. auto.
  Qed.
  Lemma sel_range s : In s S -> n < s < top_id n T.
  Proof.
    destruct HS as (_ & H & _). intro Hs. destruct (H s Hs) as [Hc Hn]. apply (is_cluster_iff n wt mcs T HT) in Hc. lia.
  Qed.
  Lemma sel_disj s t : In s S -> In t S -> In t (sub (children_of (cluster_rows n T)) (top_id n T) s) -> t = s.
  Proof.
    intros Hs Ht Hi. destruct (Nat.eq_dec t s) as [|Hst]; auto. exfalso. destruct HS as (_ & _ & H).
    apply (H s t Hs Ht). apply (descends_sub n wt mcs T HT). auto.
  Qed.

  Lemma merged_spec e : merged n T lt_eps S e -> merge_of lt_eps n T S e.
  Proof.
    intros (Hr & Hs & Hd & s & HsS & Hse & Hse'). split; [now apply (is_cluster_iff n wt mcs T HT)|].
    split; [rewrite <- small_born; auto|].
    split; [intros d Hde; apply small_born; apply (descends_sub n wt mcs T HT) in Hde as [? ?]; auto|].
    exists s. split; auto. apply (descends_sub n wt mcs T HT). auto.
  Qed.

  Lemma c30 : exists E, cluster_epsilon_search lt_eps S (cluster_rows n T) B = Ok E /\
    NoDup E /\ disjoint_clusters n T E /\
    (forall e, In e E -> (In e S /\ ~ born_below lt_eps n T e) \/ merge_of lt_eps n T S e) /\
    (forall s, In s S -> ~ born_below lt_eps n T s -> In s E) /\
    (forall s, In s S -> (forall e, In e E -> e <> s /\ ~ descends n T e s) ->
       born_below lt_eps n T s /\ exists e, In e E /\ merge_of lt_eps n T S e /\ e < s) /\
    ((forall s, In s S -> ~ born_below lt_eps n T s) -> E = S) /\
    (2 <= length S -> (forall l, leaf_cluster n T l -> exists s, In s S /\ (s = l \/ descends n T s l)) ->
       E = [n] \/ 2 <= length E).
  Proof.
    destruct (eps_ok n wt mcs T HT HO B HP HB lt_eps Hmono S sel_range sel_disj (proj1 HS) Hne)
      as (E & Eq & K1 & K2 & K3 & K5 & K6).
    exists E. split; auto. split; auto. split; [|split; [|split; [|split; [|split]]]].
    - intros c d Hc Hd Hcd. apply (descends_sub n wt mcs T HT) in Hcd as [Hi Hn]. apply Hn. auto.
    - intros e He. destruct (K1 e He) as [[H1 H2]|H]; [left; rewrite <- small_born; auto|right; now apply merged_spec].
    - intros s Hs Hns. apply K6; auto. now rewrite small_born.
    - intros s Hs Hno. destruct (K5 s Hs) as [H|(e & He & Hm & Hv)]; [destruct (Hno s H); congruence|].
      split.
      + apply small_born. destruct (lookup n wt mcs T HT s (sel_range s Hs)) as (r & Hr & Er & _).
        destruct (lt_eps (c_lam r)) eqn:El; [exists r; auto|]. exfalso.
        assert (Hsm : ~ small n T lt_eps s).
        { intros (q & Hq & Eq' & Elq). assert (q = r) as -> by (apply (ct_row_eq n wt mcs T HT); auto; congruence). congruence. }
        destruct (Hno s (K6 s Hs Hsm)) as [H _]. congruence.
      + exists e. split; auto. split; [now apply merged_spec|]. apply (vis_ge n wt mcs T HT) in Hv.
        destruct (Hno e He) as [Hne' _]. lia.
    - intro Hns. pose proof (eps_none n wt mcs T HT B lt_eps S sel_range Hne) as H.
      rewrite Eq in H. assert (Ok E = Ok S) as H'; [|now injection H'].
      apply H. intros s Hs. rewrite small_born. auto.
    - intros H2 Hcov.
      apply (eps_not_single n wt mcs T HT HO B HP HB lt_eps Hmono S sel_range sel_disj (proj1 HS) E Hne H2); auto.
      intros l Hl El. destruct (Hcov l) as (s & Hs & Hsl).
      + split; [now apply (is_cluster_iff n wt mcs T HT)|]. intros r Hr Hc Ep.
        assert (HrC : In r (cluster_rows n T)) by (now apply (in_ct n T)).
        assert (Hi : In (c_child r) (children_of (cluster_rows n T) l)) by (apply (ch_in n T); eauto).
        rewrite El in Hi. destruct Hi.
      + exists s. split; auto. destruct Hsl as [->|Hd]; [apply (sub_self _ _ (ct_up n wt mcs T HT) (ct_bound n wt mcs T HT))|].
        now apply (descends_sub n wt mcs T HT) in Hd.
  Qed.
End Top.

(** ** Exact arithmetic *)
Lemma exact_lt_eps_mono eps : forall x y : QInf, wle x y = true -> exact_lt_eps eps x = true -> exact_lt_eps eps y = true.
Proof.
  intros [x|] [y|]; unfold exact_lt_eps; cbn; try discriminate; auto; intros H E.
  - apply Qcleb_le in H. destruct (Qcleb x 0) eqn:Ex; [discriminate|]. apply Qcleb_gt in Ex.
    destruct (Qcleb y 0) eqn:Ey.
    + apply Qcleb_le in Ey. exfalso. apply (Qclt_not_le _ _ Ex). eapply Qcle_trans; eauto.
    + apply negb_true_iff in E. apply Qcleb_gt in E. apply negb_true_iff, Qcleb_gt.
      eapply Qcle_lt_trans; [apply (Qcinv_anti x y)|]; auto.
  - destruct (Qcleb x 0) eqn:Ex; [discriminate|]. apply Qcleb_gt in Ex.
    apply negb_true_iff in E. apply Qcleb_gt in E. apply negb_true_iff, Qcleb_gt.
    eapply Qclt_trans; [apply Qcinv_pos|]; eauto.
Qed.

(** The distance at which a density level is reached. *)
Definition born_at_least {Sz : SOrd} (eps : Qc) (T : list (crow QInf Sz)) (n c : nat) : Prop :=
  forall r, In r T -> n <= c_child r -> c_child r = c ->
  exists l, c_lam r = Some l /\ ((l <= 0)%Qc \/ (eps <= / l)%Qc).

Lemma c30_exact (Sz : SOrd) (n : nat) (wt : nat -> Sz) (mcs : Sz) (T : list (crow QInf Sz)) (eps : Qc) S B E :
  condensed n wt mcs T -> splits_once n T -> cluster_rows n T <> [] ->
  (0 < eps)%Qc -> selection n T S ->
  Permutation B (cluster_rows n T) -> StronglySorted (fun r q => c_parent r <= c_parent q) B ->
  cluster_epsilon_search (V := QInf) (exact_lt_eps eps) S (cluster_rows n T) B = Ok E ->
  forall e, In e E -> e = n \/ born_at_least eps T n e.
Proof.
  intros HT HO Hne He HS HP HB Eq e Hi.
  destruct (c30 n wt mcs T (exact_lt_eps eps) HT HO Hne (exact_lt_eps_mono eps) S B HS HP HB)
    as (E' & Eq' & _ & _ & K & _). rewrite Eq in Eq'. injection Eq' as <-.
  assert (H : e = n \/ ~ born_below (exact_lt_eps eps) n T e).
  { destruct (K e Hi) as [[_ H]|(_ & H & _)]; auto. }
  destruct H as [|H]; auto. right. intros r Hr Hc Ec.
  destruct (exact_lt_eps eps (c_lam r)) eqn:El; [exfalso; apply H; exists r; auto|].
  destruct (c_lam r) as [l|]; unfold exact_lt_eps in El.
  - exists l. split; auto. destruct (Qcleb l 0) eqn:E0; [left; now apply Qcleb_le|right].
    apply negb_false_iff in El. now apply Qcleb_le.
  - apply negb_false_iff, Qcleb_le in El. exfalso. now apply (Qclt_not_le _ _ He).
Qed.

(** ** A tree where the search loses a cluster *)
Definition ed : list (lrow QInf NatSize) :=
  [lr 0 1 (dist 1) 2; lr 2 3 (dist 1) 2; lr 4 5 (dist 1) 2; lr 6 7 (dist 1) 2; lr 8 9 (dist 1) 2;
   lr 10 11 (dist 2) 4; lr 12 13 (dist 2) 4; lr 16 14 (dist 6) 6; lr 15 17 (dist 8) 10].
Definition eT : list (crow QInf NatSize) :=
  match condense_tree ed hdbscan_lambda_value (2 : NatSize) None (fun _ => 1) with Ok T => T | Err _ => [] end.
Lemma ed_dendrogram : dendrogram 10 ed.
Proof. apply dendrogram_checked. reflexivity. Qed.
Lemma ed_sizes : sizes_are (Sz := NatSize) 10 (fun _ => 1) ed.
Proof. apply sizes_checked; reflexivity. Qed.
Lemma ed_sorted : heights_sorted ed.
Proof. repeat constructor. Qed.
Lemma ed_run_condensed :
  condense_tree ed hdbscan_lambda_value (2 : NatSize) None (fun _ => 1) = Ok eT /\
  condensed (Sz := NatSize) 10 (fun _ => 1) (2 : NatSize) eT /\ splits_once 10 eT.
Proof.
  destruct (c24 QInf QInf NatSize 10 ed (fun _ => 1) (2 : NatSize) None hdbscan_lambda_value
              ed_dendrogram ed_sizes ed_sorted hdbscan_lambda_antitone) as (T & E & H & H').
  - reflexivity.
  - repeat constructor.
  - unfold eT. rewrite E. split; auto. split; auto. now apply H'.
Qed.
Definition by_parent_of (ct : list (crow QInf NatSize)) : list (crow QInf NatSize) := nsort c_parent ct.
Lemma by_parent_perm ct : Permutation (by_parent_of ct) ct.
Proof. apply Permutation_sym, nsort_perm. Qed.
Lemma by_parent_sorted ct : StronglySorted (fun r q => c_parent r <= c_parent q) (by_parent_of ct).
Proof. apply nsort_sorted. Qed.

Lemma c30_refuted :
  exists (L : list (lrow QInf NatSize)) T S E B,
    dendrogram 10 L /\ sizes_are (Sz := NatSize) 10 (fun _ => 1) L /\ heights_sorted L /\
    condense_tree L hdbscan_lambda_value (2 : NatSize) None (fun _ => 1) = Ok T /\
    cluster_tree_leaves (cluster_tree_from_condensed_tree T) 10 = Ok S /\
    Permutation B (cluster_rows 10 T) /\ StronglySorted (fun r q => c_parent r <= c_parent q) B /\
    cluster_epsilon_search (V := QInf) (exact_lt_eps (Q2Qc 5)) S (cluster_rows 10 T) B = Ok E /\
    In 17 S /\ E = [11; 16] /\ (forall e, In e E -> e <> 17 /\ ~ descends 10 T e 17) /\
    get_cluster_label_vector ExactLam T S None 10 = Ok [0; 0; 1; 1; 3; 3; 4; 4; 2; 2]%Z /\
    get_cluster_label_vector ExactLam T E None 10 = Ok [0; 0; 0; 0; -1; -1; -1; -1; 1; 1]%Z.
Proof.
  exists ed, eT, [13; 14; 16; 17; 18], [11; 16], (by_parent_of (cluster_rows 10 eT)).
  split; [apply ed_dendrogram|]. split; [apply ed_sizes|]. split; [apply ed_sorted|].
  split; [apply ed_run_condensed|]. split; [vm_compute; reflexivity|].
  split; [apply by_parent_perm|]. split; [apply by_parent_sorted|]. split; [vm_compute; reflexivity|].
  split; [simpl; tauto|]. split; [reflexivity|].
  split; [|split; vm_compute; reflexivity].
  intros e He. split; [intros ->; simpl in He; lia|]. intro Hd.
  apply (descends_sub (Sz := NatSize) 10 (fun _ => 1) (2 : NatSize) eT (proj1 (proj2 ed_run_condensed))) in Hd as [Hi _].
  assert (Hb : forallb (fun e => negb (existsb (Nat.eqb 17) (sub (children_of (cluster_rows 10 eT)) (top_id 10 eT) e))) [11; 16] = true)
    by (vm_compute; reflexivity).
  rewrite forallb_forall in Hb. specialize (Hb e He). apply negb_true_iff in Hb.
  assert (Hx : existsb (Nat.eqb 17) (sub (children_of (cluster_rows 10 eT)) (top_id 10 eT) e) = true).
  { apply existsb_exists. exists 17. auto. }
  congruence.
Qed.
