(** Complete runs with labelled samples. *)
From Coq Require Import List Arith Lia Bool ZArith Permutation Sorted QArith Qcanon.
From Verif Require Import Prelude Order Graph Size Num S_Kruskal S_Precomputed M_Kruskal M_KruskalEntry M_Precomputed M_Linkage S_Linkage M_Condense S_Condense
  M_Select S_Select P_CTree P_Below P_EomTop P_EomValue P_SelectTop M_Labels S_Labels P_LabelsEx M_Epsilon P_EpsilonTop M_Simplify P_SimplifyTop M_Pipeline S_Pipeline
  P_Pipeline P_PipelineTop P_PipelineRun P_PipelineEx M_BCubed S_BCubed P_BCScore P_BCFinal.
Import ListNotations.
Local Open Scope nat_scope.

Section Semi.
  Context {W V : WOrd} {Sz : SOrd}.
  Variables (lam : W -> V) (LA : LamArith V) (A : Arith V Sz) (B : BArith) (NN : bscore B -> Prop) (garbage : nat -> V)
    (by_parent : list (crow V Sz) -> list (crow V Sz)) (listed : list nat -> list nat) (st : settings V Sz) (labels : list Z) (virtual : bool).
  Variables (n : nat) (wt : nat -> Sz) (M : list (edge W)) (L : list (lrow W Sz)).
  Notation zero := (la_zero LA).
  Notation mcs := (min_cluster_size st).
  Hypothesis HK : setting_ok lam LA A by_parent st.
  Hypothesis HBL : BLaws B NN.
  Hypothesis Hlisted : forall l, Permutation (listed l) l.
  Hypothesis Hlen : length labels = n.
  Hypothesis Hleaf : leaves_ok A zero n wt mcs.
  Hypothesis HL : linkage_facts n wt M L.
  Hypothesis Hn : 2 <= n.
  Hypothesis Hsz : sle (s := Sz) szero sone = true.
  Hypothesis Hwt : forall x, x < n -> sle mcs (wt x) = false.
  Definition semi_sel (T : list (crow V Sz)) : res (list nat) := semi_selected_clusters_of A B listed st labels virtual T n.
  Notation run := (semi_clusters_from_linkage_tree lam LA A B garbage by_parent listed st labels virtual wt n L).

  Lemma semi_run : run = run_with lam LA semi_sel garbage by_parent st n wt L.
  Proof. reflexivity. Qed.

  Lemma semi_selects T : condensed n wt mcs T -> (forall r, In r T -> wle zero (c_lam r) = true) ->
    exists S, semi_sel T = Ok S /\ selects st n T S.
  Proof.
    intros HT Hpos. destruct HK as [H1 H2 H3 H4 H5 H6]. assert (Hn0 : 0 < n) by lia.
    unfold semi_sel, semi_selected_clusters_of. destruct (cluster_selection_method st) eqn:Em; [|apply (base_ok LA A st n wt T H1 H4 HT Hn0)].
    destruct (c40_structure n wt mcs T labels listed virtual (allow_single_cluster st) HT Hlisted (us_size _ _ H1) Hsz Hn0 Hlen A B NN HBL H4)
      as (R & ER & R1 & R2 & R3 & R4 & R5).
    exists R. split; auto. split; auto. split; [intros s Hs; now apply R2|]. split; auto. split; auto. split; [|split].
    - intros Hne c Hc. destruct (score_ok n wt mcs T HT (us_size _ _ H1) A Hn0) as (d & Ed & Kd).
      assert (Hk : n <= c < top_id n T) by (apply (is_cluster_iff _ _ _ _ HT), Hc).
      pose proof (score_fold A n wt mcs T HT (us_size _ _ H1) d Hn0 Ed c Hk) as Es.
      apply (R5 Hne c d _ Hc Ed Es). eapply Hleaf; eauto.
    - intro H. congruence.
    - intros [Hs|Hs] Hi; [|congruence]. destruct (R2 n Hi) as (_ & H & _). now apply H.
  Qed.

  Lemma semi_total : completes LA st n wt run.
  Proof.
    destruct HK as [H1 H2 H3 H4 H5 H6]. destruct HL as (L1 & L2 & L3 & _).
    destruct (linkage_run lam LA semi_sel garbage by_parent st n wt L H2 H1 H3 semi_selects Hsz Hn H5 H6 L1 L2 L3 Hwt) as [(T & S & E & ls & ps & _ & ER & HX & HT & HO & _)|H]; [left|right; auto].
    exists ls, ps, T. split; auto. split; [apply (oc_clustering _ _ _ _ _ _ _ _ _ _ HX)|]. split; auto. split; auto.
    intro Hc. apply (oc_noise _ _ _ _ _ _ _ _ _ _ HX). apply (oc_E_empty _ _ _ _ _ _ _ _ _ _ HX Hc).
  Qed.

  Lemma semi_sizes ls ps T : run = Ok (ls, ps, T) -> (forall e, In e M -> wlt zero (lam (ewt e)) = true) ->
    (forall x, x < n -> sle szero (wt x) = true) -> root_ok st -> large_clusters n wt mcs ls /\ numbered n ls.
  Proof.
    intros ER Hf Hw Hr. destruct HK as [H1 H2 H3 H4 H5 H6]. pose proof HL as (L1 & L2 & L3 & _).
    eapply (linkage_sizes lam LA semi_sel garbage by_parent st n wt L H2 H1 H3 semi_selects Hsz Hn H5 H6 L1 L2 L3 Hwt); eauto.
    apply (facts_heights n wt M L (fun w => wlt zero (lam w) = true) HL). auto.
  Qed.

  (** What was selected, and how samples are labelled. *)
  Lemma semi_meaning ls ps T : run = Ok (ls, ps, T) -> exists R E,
    semi_selected_clusters_of A B listed st labels virtual T n = Ok R /\
    condensed n wt mcs T /\ epsilon_clusters_of by_parent st T R = Ok E /\
    NoDup E /\ (forall c, In c E -> is_cluster n T c) /\ disjoint_clusters n T E /\ (cluster_selection_epsilon st = None -> E = R) /\
    (E = [] -> ls = repeat (-1)%Z n) /\
    (E <> [] -> forall r, In r T -> c_child r < n ->
       right_label zero n T E (option_map snd (cluster_selection_epsilon st)) r (nth (c_child r) ls 0%Z)).
  Proof.
    intros ER. destruct HK as [H1 H2 H3 H4 H5 H6]. pose proof HL as (L1 & L2 & L3 & _).
    destruct (run_good lam LA semi_sel garbage by_parent st n wt L H2 H1 H3 semi_selects Hsz Hn H5 H6 L1 L2 L3 Hwt ls ps T ER) as (S & E & HX & HT & _).
    exists S, E. destruct HX. repeat (split; auto).
  Qed.
End Semi.

(** ** Exact arithmetic: scores of leaf clusters are not negative *)
Lemma nat_q_pos (a : NatSize) : 1 <= a -> Qcleb (nat_q a) 0 = false.
Proof.
  intro H. apply Qcleb_gt. unfold nat_q, Qclt. cbn [this Q2Qc]. rewrite !Qred_correct. change 0%Q with (inject_Z 0). rewrite <- Zlt_Qlt. lia.
Qed.

Section Leaf.
  Variables (n : nat) (mcs : NatSize) (T : list (crow QInf NatSize)) (c : nat).
  Hypothesis HT : condensed (Sz := NatSize) n (fun _ => 1) mcs T.
  Hypothesis Hm : 2 <= mcs.
  Hypothesis Hn : 0 < n.
  Hypothesis Hpos : forall r, In r T -> wle (Some 0%Qc : QInf) (c_lam r) = true.
  Hypothesis Hc : leaf_cluster n T c.
  Notation EA := (ExactArith NatSize nat_q).
  Notation rows := (filter (fun r => c_parent r =? c) T).
  Definition mass (r : crow QInf NatSize) : xq := xmul (c_lam r) (nat_q (c_size r)).

  Lemma size_pos r : In r T -> 1 <= c_size r.
  Proof.
    intros Hr. destruct (Nat.lt_ge_cases (c_child r) n) as [H|H].
    - pose proof (ct_sample_size _ _ _ _ HT r Hr H) as E. rewrite E. apply Nat.le_refl.
    - destruct (ct_sizes _ _ _ _ HT r Hr H) as (Hs & _). apply Nat.leb_le in Hs. change (mcs <= c_size r) in Hs. apply (Nat.le_trans _ mcs); auto. apply (Nat.le_trans _ 2); auto.
  Qed.
  Lemma mass_cases r : In r T -> (exists a, c_lam r = Some a /\ mass r = Fin (a * nat_q (c_size r))) \/ (c_lam r = None /\ mass r = PInf).
  Proof.
    intro Hr. unfold mass, xmul. destruct (c_lam r) as [a|]; [left; eauto|right]. now rewrite (nat_q_pos _ (size_pos r Hr)).
  Qed.

  Lemma fold_rows l : forall x, fold_left (add_row EA c) l x = fold_left (fun x r => xadd x (mass r)) (filter (fun r => c_parent r =? c) l) x.
  Proof.
    induction l as [|r l IH]; intro x; auto. cbn [fold_left filter]. unfold add_row at 2. destruct (c_parent r =? c); cbn [fold_left]; apply IH.
  Qed.

  (** Once infinite or undefined, a sum is never below zero again. *)
  Lemma fold_high l : incl l T -> forall x, x = PInf \/ x = NaN -> fold_left (fun x r => xadd x (mass r)) l x = PInf \/ fold_left (fun x r => xadd x (mass r)) l x = NaN.
  Proof.
    induction l as [|r l IH]; intros Hl x Hx; auto. cbn [fold_left]. apply IH; [intros q Hq; apply Hl; simpl; auto|].
    pose proof (mass_cases r (Hl r (or_introl eq_refl))) as [(b & _ & E)|[_ E]]; rewrite E; destruct Hx as [-> | ->]; cbn; auto.
  Qed.
  Lemma fold_finite l : incl l T -> forall a, (fold_left (fun x r => xadd x (mass r)) l (Fin a) = PInf \/ fold_left (fun x r => xadd x (mass r)) l (Fin a) = NaN) \/
    ((forall r, In r l -> c_lam r <> None) /\ fold_left (fun x r => xadd x (mass r)) l (Fin a) = Fin (a + qsum (map (fun r => lam_q r * nat_q (c_size r)) l))%Qc).
  Proof.
    induction l as [|r l IH]; intros Hl a; [right; split; [intros r []|]; cbn; f_equal; now rewrite Qcplus_0_r|].
    assert (Hl' : incl l T) by (intros q Hq; apply Hl; simpl; auto). cbn [fold_left].
    pose proof (mass_cases r (Hl r (or_introl eq_refl))) as [(b & El & E)|[El E]]; rewrite E; cbn [xadd].
    - destruct (IH Hl' (a + b * nat_q (c_size r))%Qc) as [H|[H1 H2]]; auto. right. split.
      + intros q [<-|Hq]; auto. rewrite El. discriminate.
      + rewrite H2. f_equal. cbn [map]. unfold qsum. cbn [fold_right]. unfold lam_q at 2. rewrite El. ring.
    - left. apply fold_high; auto.
  Qed.

  Lemma mass_nonneg l : incl l T -> (forall r, In r l -> c_lam r <> None) -> (0 <= qsum (map (fun r => lam_q r * nat_q (c_size r)) l))%Qc.
  Proof.
    intros Hg H1. induction l as [|r l IH]; [apply Qcle_refl|].
    cbn [map]. unfold qsum. cbn [fold_right]. replace 0%Qc with (0 + 0)%Qc by ring. apply Qcplus_le_compat.
    - replace 0%Qc with (0 * nat_q (c_size r))%Qc by ring. apply Qcmult_le_compat_r; [|apply nat_q_nonneg].
      specialize (H1 r (or_introl eq_refl)). pose proof (Hpos r (Hg r (or_introl eq_refl))) as Hp. unfold lam_q. destruct (c_lam r) as [b|]; [|congruence].
      now apply Qcleb_le in Hp.
    - apply IH; [intros q Hq; apply Hg; simpl; auto|]. intros q Hq. apply H1. simpl; auto.
  Qed.
  Lemma fin_not_less a : (0 <= a)%Qc -> num_lt EA (Fin a) (num_zero EA) = false.
  Proof. intro H. change (negb (Qcleb 0 a) = false). apply negb_false_iff. now apply Qcleb_le. Qed.

  Lemma leaf_score : num_lt EA (score EA T c) (num_zero EA) = false.
  Proof.
    assert (Hhigh : forall x, x = PInf \/ x = NaN -> num_lt EA x (num_zero EA) = false) by (intros x [->| ->]; reflexivity).
    assert (Hin : incl rows T) by (intros r Hr; now apply filter_In in Hr).
    unfold score. rewrite fold_rows. destruct Hc as [[->|(Hge & q & Hq & <-)] Hleaf].
    - rewrite (start_root EA n _ mcs T HT). change (num_zero EA) with (Fin 0) at 1.
      destruct (fold_finite (filter (fun r => c_parent r =? n) T) Hin 0%Qc) as [H|[H1 H2]]; auto. rewrite H2. apply fin_not_less. rewrite Qcplus_0_l.
      now apply mass_nonneg.
    - rewrite (start_row EA n _ mcs T HT q Hq). 
      change (num_opp EA (num_mul EA (c_lam q) (c_size q))) with (xopp (mass q)).
      assert (Hup : forall r, In r T -> c_parent r = c_child q -> wle (c_lam q) (c_lam r) = true).
      { intros r Hr E. apply (ct_lambda _ _ _ _ HT q r Hq Hr Hge E). }
      destruct (mass_cases q Hq) as [(b & El & Em)|[El Em]]; rewrite Em; cbn [xopp].
      + destruct (fold_finite (filter (fun r => c_parent r =? c_child q) T) Hin (- (b * nat_q (c_size q)))%Qc) as [H|[H1 H2]]; auto. rewrite H2.
        apply fin_not_less.
        assert (Eb : lam_q q = b) by (unfold lam_q; now rewrite El).
        assert (Est : stability nat_q T (c_child q) = (- (b * nat_q (c_size q)) + qsum (map (fun r => lam_q r * nat_q (c_size r)) (filter (fun r => c_parent r =? c_child q) T)))%Qc).
        { unfold stability. rewrite (arriving_one n mcs T HT q Hq Hge). rewrite Eb. unfold leaving. ring. }
        rewrite <- Est. rewrite (stability_textbook n mcs T HT q Hq Hge). apply excess_nonneg. intros r Hr E. specialize (Hup r Hr E).
        assert (Hf : c_lam r <> None) by (apply H1; apply filter_In; split; auto; now apply Nat.eqb_eq).
        rewrite Eb. rewrite El in Hup. unfold lam_q. destruct (c_lam r) as [b'|]; [|congruence]. now apply Qcleb_le in Hup.
      + destruct (leaf_has_samples n _ mcs T HT (c_child q) eq_refl (nat_mcs mcs Hm) Hc Hn) as (r & Hr & Er).
        assert (Hr' : In r (filter (fun r => c_parent r =? c_child q) T)) by (apply filter_In; split; auto; now apply Nat.eqb_eq).
        destruct (filter (fun r => c_parent r =? c_child q) T) as [|r0 l] eqn:Ef; [destruct Hr'|]. cbn [fold_left].
        assert (Hr0 : In r0 T /\ c_parent r0 = c_child q).
        { assert (H : In r0 (filter (fun r => c_parent r =? c_child q) T)) by (rewrite Ef; simpl; auto). apply filter_In in H as [H1 H2]. split; auto. now apply Nat.eqb_eq. }
        pose proof (Hup r0 (proj1 Hr0) (proj2 Hr0)) as Hu. destruct (mass_cases r0 (proj1 Hr0)) as [(b0 & El0 & E0)|[_ E0]]; [rewrite El, El0 in Hu; discriminate|].
        rewrite E0. cbn [xadd]. apply Hhigh. apply fold_high; auto. intros z Hz. apply Hin. simpl; auto.
  Qed.
End Leaf.

Lemma exact_leaves n mcs : 2 <= mcs -> 0 < n -> leaves_ok (Sz := NatSize) (ExactArith NatSize nat_q) (Some 0%Qc : QInf) n (fun _ => 1) mcs.
Proof.
  intros Hm Hn T HT Hpos c d s Hc Ed Es. assert (Hk : n <= c < top_id n T) by (apply (is_cluster_iff _ _ _ _ HT), Hc).
  rewrite (score_fold (ExactArith NatSize nat_q) n _ mcs T HT (nat_mcs mcs Hm) d Hn Ed c Hk) in Es. injection Es as <-.
  apply (leaf_score n mcs T c HT Hm Hn Hpos Hc).
Qed.
