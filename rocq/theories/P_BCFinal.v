(** Semi-supervised selection: the theorems. *)
From Coq Require Import List Arith Lia Bool ZArith QArith Qcanon Permutation.
From Verif Require Import Prelude Order Size Num Forest RForest M_Linkage M_Condense S_Condense M_Select S_Select M_Pipeline S_BCubed M_BCubed
  P_CTree P_Below P_Cut P_Eom P_EomTop P_SelectTop P_BCElements P_BCScore P_BCRec P_BCTop.
Import ListNotations.
Local Open Scope nat_scope.

(** ** Pairs of rationals, compared lexicographically *)
Definition qlex_le (x y : Qc * Qc) : bool := negb (Qcleb (fst y) (fst x)) || (Qcleb (fst x) (fst y) && Qcleb (snd x) (snd y)).
Lemma qlex_iff x y : qlex_le x y = true <-> at_most x y.
Proof.
  unfold qlex_le, at_most. rewrite orb_true_iff, andb_true_iff, negb_true_iff, Qcleb_gt, !Qcleb_le. split.
  - intros [H|[H1 H2]]; auto. destruct (Qcle_lt_or_eq _ _ H1) as [H|H]; auto.
  - intros [H|[H1 H2]]; auto. right. split; auto. rewrite H1. apply Qcle_refl.
Qed.
Definition QLex : SOrd.
Proof.
  refine {| scar := (Qc * Qc)%type; szero := (0, 0)%Qc; sone := (0, 0)%Qc; sadd := fun x y => (fst x + fst y, snd x + snd y)%Qc; sle := qlex_le |}.
  - intros x y. f_equal; ring.
  - intros x y z. cbn [fst snd]. f_equal; ring.
  - intros [x y]. cbn [fst snd]. f_equal; ring.
  - intros x y. rewrite !qlex_iff. unfold at_most. destruct (Qc_dec (fst x) (fst y)) as [[H|H]|H]; auto.
    destruct (Qclt_le_dec (snd x) (snd y)) as [H'|H']; [left|right]; auto. right. split; auto. now apply Qclt_le_weak.
  - intros x y z. rewrite !qlex_iff. unfold at_most. intros [H1|[H1 H2]] [H3|[H3 H4]].
    + left. now apply (Qclt_trans _ (fst y)).
    + left. now rewrite <- H3.
    + left. now rewrite H1.
    + right. split; [congruence|]. now apply (Qcle_trans _ (snd y)).
  - intros x y z. rewrite !qlex_iff. unfold at_most. cbn [fst snd]. intros [H|[H1 H2]].
    + left. rewrite !(Qcplus_comm _ (fst z)). apply Qcnot_le_lt. intro H'. apply (Qclt_not_le _ _ H).
      apply (Qcplus_le_compat _ _ (- fst z) (- fst z)) in H'; [|apply Qcle_refl].
      replace (fst x) with (fst z + fst x + - fst z)%Qc by ring. replace (fst y) with (fst z + fst y + - fst z)%Qc by ring. auto.
    + right. split; [now rewrite H1|]. apply Qcplus_le_compat; auto. apply Qcle_refl.
Defined.
Lemma qlex_lt (x y : QLex) : slt x y = true <-> less x y.
Proof.
  rewrite slt_true. cbn [sle QLex]. unfold qlex_le, less. rewrite orb_false_iff, andb_false_iff, negb_false_iff, Qcleb_le, !Qcleb_gt. split.
  - intros [H1 [H|H]]; auto. destruct (Qcle_lt_or_eq _ _ H1) as [|E]; auto.
  - intros [H|[H1 H2]].
    + split; auto. now apply Qclt_le_weak.
    + split; auto. rewrite H1. apply Qcle_refl.
Qed.

Section Final.
  Context {V : WOrd} {Sz : SOrd}.
  Variables (n : nat) (wt : nat -> Sz) (mcs : Sz) (T : list (crow V Sz)) (labels : list Z) (listed : list nat -> list nat) (virtual single : bool).
  Hypothesis HT : condensed n wt mcs T.
  Hypothesis Hlisted : forall l, Permutation (listed l) l.
  Hypothesis Hm : slt sone mcs = true.
  Hypothesis H01 : sle (s := Sz) szero sone = true.
  Hypothesis Hn : 0 < n.
  Hypothesis Hlen : length labels = n.
  Notation CT := (cluster_rows n T).
  Notation LI := (label_indices_of labels).
  Notation top := (top_id n T).
  Notation sb := (sub (children_of CT) top).
  Notation ctb := (ctb n T labels virtual).
  Notation chb := (children_of ctb).
  Notation rk := (rk n T).
  Notation MM := (MM n T labels virtual).
  Notation rsb := (rsub chb rk MM).
  Notation noise := (noise n T labels virtual).
  Let up := chb_up n wt mcs T labels virtual HT Hn Hlen.
  Let bound := chb_bound n wt mcs T labels virtual HT Hn Hlen.
  Let chb_in' := chb_in n T labels virtual.

  Lemma node_sub c d : is_cluster n T c -> is_cluster n T d -> (In d (rsb c) <-> d = c \/ descends n T c d).
  Proof.
    intros Hc Hd. apply (is_cluster_iff _ _ _ _ HT) in Hc, Hd. rewrite (rsb_cluster n wt mcs T labels virtual HT Hn Hlen) by lia.
    rewrite (descends_sub _ _ _ _ HT). destruct (Nat.eq_dec d c) as [->|Hne].
    - split; auto. intros _. apply sub_self; [apply (ct_up _ _ _ _ HT)|apply (ct_bound _ _ _ _ HT)].
    - split; [auto|]. intros [|[H _]]; [contradiction|auto].
  Qed.

  Lemma in_root c : is_cluster n T c -> In c (rsb n).
  Proof. intro Hc. apply (rsb_root n wt mcs T labels virtual HT Hn Hlen). left. now apply (is_cluster_iff _ _ _ _ HT). Qed.
  Lemma root_in c : In c (rsb n) -> n <= c -> is_cluster n T c.
  Proof.
    intros Hc Hcn. apply (rsb_root n wt mcs T labels virtual HT Hn Hlen) in Hc as [H|H]; [now apply (is_cluster_iff _ _ _ _ HT)|].
    apply (noise_lt n T labels virtual) in H. lia.
  Qed.

  Section Any.
    Variables (A : Arith V Sz) (B : BArith) (N : bscore B -> Prop) (HB : BLaws B N).
    Variables (stab : list (nat * num A)) (bc : list (nat * bscore B)).
    Hypothesis Hns : node_scores n T labels virtual A B stab bc.

    Lemma worth_node k : In k (rsb n) -> num_lt A (num_zero A) (num_zero A) = false ->
      (n <= k -> forall d s, score_condensed_tree_nodes A T = Ok d -> dict_get d k = Ok s -> num_lt A s (num_zero A) = false) ->
      worth A B stab bc k.
    Proof.
      intros Hk H00 Hd s b Es Eb. destruct Hns as (d & Ed & H). destruct (H k Hk) as (s' & b' & pts & Es' & Eb' & Hlt & Hge & [HNp Hp] & Ebc).
      rewrite Es in Es'. injection Es' as <-. rewrite Eb in Eb'. injection Eb' as <-.
      assert (Hs : num_lt A s (num_zero A) = false).
      { destruct (Nat.lt_ge_cases k n) as [Hkn|Hkn]; [now rewrite (Hlt Hkn)|]. eapply Hd; eauto. }
      assert (HNb : N b).
      { destruct (bcubed_of_ok labels pts HNp) with (B := B) (N := N) as (b' & Eb' & HNb); auto; [intros x Hx; now apply Hp|].
        rewrite Ebc in Eb'. injection Eb' as <-. auto. }
      unfold lex_lt, pzero. cbn [fst snd]. rewrite (bl_cast B N HB b HNb), Hs, andb_false_r. auto.
    Qed.
  End Any.

  Lemma leaf_no_children l : leaf_cluster n T l -> chb l = [].
  Proof.
    intros [_ H]. destruct (chb l) as [|w k] eqn:E; auto. exfalso. assert (Hw : In w (chb l)) by (rewrite E; simpl; auto).
    apply chb_in' in Hw as (r & Hr & Ep & _). apply (ctb_in n wt mcs T labels virtual HT) in Hr as [Hr|(Hr & _ & _ & _ & _ & r' & q & Hr' & Er & Hq & Hqc & Eq)].
    - apply (H r); auto; [now apply (ct_in n T)|]. pose proof (ct_child_in _ _ _ _ HT r Hr). lia.
    - apply (H q); auto. assert (r = r') as -> by (apply (row_eq n wt mcs T HT); auto). congruence.
  Qed.
  Lemma leaf_not_root l : CT <> [] -> leaf_cluster n T l -> l <> n.
  Proof.
    intros Hne [_ H] ->. destruct (root_children n wt mcs T HT Hne) as (r & Hr & Er). apply (H r); auto; [now apply (ct_in n T)|].
    pose proof (ct_child_in _ _ _ _ HT r Hr). lia.
  Qed.

  Lemma c40_structure (A : Arith V Sz) (B : BArith) N : BLaws B N -> num_lt A (num_zero A) (num_zero A) = false ->
    exists R, extract_clusters_bcubed A B listed T (cluster_tree_from_condensed_tree T) labels virtual single = Ok R /\
      NoDup R /\ (forall c, In c R -> admissible n T None single c) /\ disjoint_clusters n T R /\
      (CT = [] -> R = []) /\
      (CT <> [] -> forall c d s, leaf_cluster n T c -> score_condensed_tree_nodes A T = Ok d -> dict_get d c = Ok s ->
         num_lt A s (num_zero A) = false -> exists s, In s R /\ (s = c \/ descends n T s c)).
  Proof.
    intros HB H00. rewrite (mask_ok n wt mcs T HT Hm).
    destruct (bc_run n wt mcs T labels listed virtual HT Hlisted Hm H01 Hn Hlen A B single NatSize (fun _ => pzero A B) (fun _ => 0) N HB) as (R & ER & R0 & R1).
    exists R. split; auto.
    assert (Hd : CT = [] \/ CT <> []) by (destruct CT; [auto|right; discriminate]). destruct Hd as [Hd|Hd].
    { rewrite (R0 Hd). split; [constructor|]. split; [intros ? []|]. split; [intros ? ? []|]. split; auto. intro; contradiction. }
    destruct (R1 Hd) as (K & stab & bc & sel & HK & Hns & HN & HR & Hg). clear R1.
    assert (Hcl : forall k, In k R -> is_cluster n T k /\ In k (rsb n)).
    { intros k Hk. apply HR in Hk as [Hk Hkn]. apply filter_In in Hk as [Hk _]. split; auto. now apply root_in. }
    assert (Hanti : rantichain chb rk MM (chosen ctb rk MM sel n)) by (destruct single; apply Hg).
    split; auto. split; [|split; [|split; [contradiction|]]].
    - intros c Hc. split; [now apply Hcl|]. split; [|discriminate]. intros -> ->.
      apply HR in Hc as [Hc _]. apply filter_In in Hc as [_ Hc]. rewrite (b_off _ _ _ _ _ _ _ _ _ _ _ _ _ Hg) in Hc. discriminate.
    - intros c d Hc Hdd Hdesc. pose proof (proj1 (Hcl c Hc)) as Hc1. pose proof (proj1 (Hcl d Hdd)) as Hd1.
      apply HR in Hc as [Hc _], Hdd as [Hdd _].
      assert (E : c = d) by (apply Hanti; auto; apply node_sub; auto). subst d.
      apply (descends_sub _ _ _ _ HT) in Hdesc as [_ Hx]. congruence.
    - intros _ c d s Hc Ed Es Hs. pose proof Hc as [Hic _].
      assert (Hw : worth A B stab bc c).
      { apply (worth_node A B N HB stab bc Hns); auto; [now apply in_root|]. intros _ d' s' Ed' Es'. congruence. }
      assert (Hex : exists k, In k (chosen ctb rk MM sel n) /\ In c (rsb k)).
      { destruct single; [eapply (g_cover _ _ _ _ _ _ _ _ _ _ _ _ _ Hg)|eapply (b_cover _ _ _ _ _ _ _ _ _ _ _ _ _ Hg)]; eauto using in_root, leaf_no_children, leaf_not_root. }
      destruct Hex as (k & Hk & Hck). assert (Hkn : n <= k).
      { destruct (Nat.lt_ge_cases k n) as [Hlt|]; auto. rewrite (rsb_sample n wt mcs T labels virtual HT Hn Hlen k Hlt) in Hck. destruct Hck as [<-|[]].
        apply (is_cluster_iff _ _ _ _ HT) in Hic. lia. }
      assert (HkR : In k R) by (apply HR; auto). exists k. split; auto. apply node_sub in Hck; auto; [|now apply Hcl]. destruct Hck; auto.
  Qed.
End Final.

Section Exact.
  Context {Sz : SOrd} (to_q : Sz -> Qc).
  Variables (n : nat) (wt : nat -> Sz) (mcs : Sz) (T : list (crow QInf Sz)) (labels : list Z) (listed : list nat -> list nat) (virtual single : bool).
  Hypothesis HT : condensed n wt mcs T.
  Hypothesis Hlisted : forall l, Permutation (listed l) l.
  Hypothesis Hm : slt sone mcs = true.
  Hypothesis H01 : sle (s := Sz) szero sone = true.
  Hypothesis Hn : 0 < n.
  Hypothesis Hlen : length labels = n.
  Hypothesis Hfin : all_finite T.
  Variable members : nat -> list nat.
  Hypothesis Hmem : members_are n T labels members.
  Notation CT := (cluster_rows n T).
  Notation LI := (label_indices_of labels).
  Notation EA := (ExactArith Sz to_q).
  Notation ctb := (ctb n T labels virtual).
  Notation chb := (children_of ctb).
  Notation rk := (rk n T).
  Notation MM := (MM n T labels virtual).
  Notation rsb := (rsub chb rk MM).
  Notation noise := (noise n T labels virtual).
  Let up := chb_up n wt mcs T labels virtual HT Hn Hlen.
  Let bound := chb_bound n wt mcs T labels virtual HT Hn Hlen.
  Let one := chb_one n wt mcs T labels virtual HT.

  Definition sc (k : nat) : QLex :=
    if k <? n then (bcubed_score labels [k], 0%Qc) else (bcubed_score labels (members k), stability to_q T k).
  Definition emb (x : QLex) : num EA * btotal ExactB := (Fin (snd x), fst x).

  Lemma exact_here K stab bc : (forall k, In k K -> In k (rsb n)) -> node_scores n T labels virtual EA ExactB stab bc ->
    exact_b EA ExactB stab bc K QLex emb sc.
  Proof.
    intros HK (d & Ed & H). split; [reflexivity|]. split; [reflexivity|]. split.
    - intros [a1 a2] [b1 b2]. unfold lex_lt, emb, slt. cbn [fst snd num_lt t_lt ExactArith ExactB xlt sle QLex]. unfold qlex_le. cbn [fst snd].
      destruct (Qcleb_total a1 b1) as [E|E]; rewrite E; destruct (Qcleb b2 a2); repeat match goal with |- context [Qcleb ?x ?y] => destruct (Qcleb x y) end; reflexivity.
    - intros k s b Hk Es Eb. apply HK in Hk. destruct (H k Hk) as (s' & b' & pts & Es' & Eb' & Hlt & Hge & [HNp Hp] & Ebc).
      rewrite Es in Es'. injection Es' as <-. rewrite Eb in Eb'. injection Eb' as <-.
      rewrite (bcubed_of_exact labels pts HNp) in Ebc by (intros x Hx; now apply Hp). injection Ebc as <-.
      unfold emb, sc. cbn [b_cast ExactB]. destruct (Nat.ltb_spec k n) as [Hkn|Hkn]; cbn [fst snd].
      + rewrite (Hlt Hkn). f_equal. apply bcubed_score_perm. apply NoDup_Permutation; auto; [repeat constructor; simpl; tauto|].
        intro x. rewrite Hp. simpl. split; [intros [_ ->]; auto|]. intros [<-|[]]. split; auto.
        apply (rsb_root n wt mcs T labels virtual HT Hn Hlen) in Hk as [Hk|(_ & Hl & _)]; [lia|auto].
      + f_equal.
        * apply (rsb_root n wt mcs T labels virtual HT Hn Hlen) in Hk as [Hk|Hk]; [|apply (noise_lt n T labels virtual) in Hk; lia].
          pose proof (score_exact to_q n wt mcs T HT Hm d Hfin Hn Ed k Hk) as E. rewrite (Hge Hkn) in E. now injection E.
        * apply bcubed_score_perm. destruct (Hmem k) as [HNm Hmm]; [now apply (root_in n wt mcs T labels virtual HT Hn Hlen)|].
          apply NoDup_Permutation; auto. intro x. rewrite Hp, Hmm. tauto.
  Qed.

  Lemma total_value Y N : (forall c, In c Y -> n <= c) -> (forall x, In x N -> x < n) ->
    value QLex sc (Y ++ N) = (total_bcubed labels members Y N, qsum (map (stability to_q T) Y)).
  Proof.
    intros HY HN. rewrite value_app. unfold total_bcubed. unfold value.
    assert (E1 : ssum (map sc Y) = (qsum (map (fun c => bcubed_score labels (members c)) Y), qsum (map (stability to_q T) Y))).
    { induction Y as [|c Y IH]; [reflexivity|]. cbn [map]. unfold ssum, qsum in *. cbn [fold_right].
      rewrite IH by (intros; apply HY; simpl; auto). unfold sc at 1. rewrite (proj2 (Nat.ltb_ge _ _)) by (apply HY; simpl; auto). reflexivity. }
    assert (E2 : ssum (map sc N) = (qsum (map (fun x => bcubed_score labels [x]) N), 0%Qc)).
    { induction N as [|c N IH]; [reflexivity|]. cbn [map]. unfold ssum, qsum in *. cbn [fold_right].
      rewrite IH by (intros; apply HN; simpl; auto). unfold sc at 1. rewrite (proj2 (Nat.ltb_lt _ _)) by (apply HN; simpl; auto). reflexivity. }
    rewrite E1, E2. cbn [sadd QLex fst snd]. f_equal. ring.
  Qed.

  Lemma c40_optimal R : CT <> [] ->
    extract_clusters_bcubed EA ExactB listed T (cluster_tree_from_condensed_tree T) labels virtual single = Ok R ->
    exists N, NoDup N /\
      (forall x, In x N <-> virtual = true /\ noise_sample n T labels x /\ forall c, In c R -> ~ below n T c x) /\
      (forall Y N', NoDup Y -> (forall c, In c Y -> admissible n T None single c) -> disjoint_clusters n T Y ->
         NoDup N' -> (forall x, In x N' -> virtual = true /\ noise_sample n T labels x) -> apart n T Y N' ->
         at_most (total_bcubed labels members Y N', qsum (map (stability to_q T) Y))
                 (total_bcubed labels members R N, qsum (map (stability to_q T) R))) /\
      (forall c, admissible n T None single c -> (exists s, In s R /\ descends n T c s) \/ (~ In c R /\ exists x, In x N /\ below n T c x) ->
         exists D M, NoDup D /\ NoDup M /\ (forall s, In s D <-> In s R /\ descends n T c s) /\ (forall x, In x M <-> In x N /\ below n T c x) /\
           less (bcubed_score labels (members c), stability to_q T c) (total_bcubed labels members D M, qsum (map (stability to_q T) D))).
  Proof.
    intros Hne HR. rewrite (mask_ok n wt mcs T HT Hm) in HR.
    destruct (bc_run n wt mcs T labels listed virtual HT Hlisted Hm H01 Hn Hlen EA ExactB single QLex emb sc _ exact_b_laws) as (R' & ER & _ & R1).
    rewrite HR in ER. injection ER as <-. destruct (R1 Hne) as (K & stab & bc & sel & HK & Hns & HNR & HRin & Hg). clear R1.
    assert (HE : exact_b EA ExactB stab bc K QLex emb sc) by (apply exact_here; auto; intros k Hk; now apply HK).
    set (X := chosen ctb rk MM sel n) in *.
    assert (HXN : NoDup X) by (apply NoDup_filter; apply (rsub_NoDup chb rk MM up bound one); apply (chb_nodup n wt mcs T labels virtual HT)).
    assert (Hanti : rantichain chb rk MM X) by (destruct single; apply Hg).
    assert (Hcl : forall k, In k R -> is_cluster n T k).
    { intros k Hk. apply HRin in Hk as [Hk Hkn]. apply filter_In in Hk as [Hk _]. now apply (root_in n wt mcs T labels virtual HT Hn Hlen). }
    assert (Hge : forall k, is_cluster n T k -> n <= k) by (intros k Hk; apply (is_cluster_iff _ _ _ _ HT) in Hk; lia).
    assert (Hroot : forall k, In k (rsb n) <-> is_cluster n T k \/ noise k).
    { intro k. rewrite (rsb_root n wt mcs T labels virtual HT Hn Hlen), (is_cluster_iff _ _ _ _ HT). tauto. }
    set (N := filter (fun x => x <? n) X).
    assert (HNin : forall x, In x N <-> In x X /\ x < n) by (intro x; unfold N; rewrite filter_In, Nat.ltb_lt; tauto).
    assert (HXnoise : forall x, In x X -> x < n -> noise x).
    { intros x Hx Hlt. apply filter_In in Hx as [Hx _]. apply Hroot in Hx as [Hx|]; auto. apply Hge in Hx. lia. }
    assert (Hperm : Permutation X (R ++ N)).
    { apply NoDup_Permutation; auto.
      - apply NoDup_app_intro'; [auto|now apply NoDup_filter|]. intros x H1 H2. apply HRin in H1. apply HNin in H2. lia.
      - intro x. rewrite in_app_iff, HRin, HNin. split; [|tauto]. intro H. destruct (Nat.lt_ge_cases x n); auto. }
    assert (HNchar : forall x, In x N <-> virtual = true /\ noise_sample n T labels x /\ forall c, In c R -> ~ below n T c x).
    { intro x. rewrite HNin. split.
      - intros [Hx Hlt]. destruct (HXnoise x Hx Hlt) as [Hv Hno]. split; auto. split; auto. intros c Hc Hb. pose proof (Hge c (Hcl c Hc)).
        apply HRin in Hc as [Hc _]. assert (c = x); [|lia]. apply Hanti; auto. apply (rsb_noise n wt mcs T labels virtual HT Hn Hlen); auto.
      - intros (Hv & Hno & Hout). assert (Hnx : noise x) by (split; auto). pose proof (noise_lt n T labels virtual x Hnx) as Hlt. split; auto.
        assert (Hw : worth EA ExactB stab bc x).
        { apply (worth_node n T labels virtual EA ExactB _ exact_b_laws stab bc Hns); [apply Hroot; auto|reflexivity|]. intro; lia. }
        assert (Hch : chb x = []).
        { pose proof (rsb_sample n wt mcs T labels virtual HT Hn Hlen x Hlt) as E. rewrite (rsub_eq chb rk MM up bound) in E. destruct (chb x) as [|w l] eqn:Ec; auto.
          exfalso. cbn [flat_map] in E. rewrite (rsub_eq chb rk MM up bound) in E. discriminate. }
        assert (Hex : exists k, In k X /\ In x (rsb k)).
        { assert (Hxr : In x (rsb n)) by (apply Hroot; auto).
          destruct single; [apply (g_cover _ _ _ _ _ _ _ _ _ _ _ _ _ Hg)|apply (b_cover _ _ _ _ _ _ _ _ _ _ _ _ _ Hg)]; auto. lia. }
        destruct Hex as (k & Hk & Hxk). destruct (Nat.lt_ge_cases k n) as [Hkn|Hkn].
        + rewrite (rsb_sample n wt mcs T labels virtual HT Hn Hlen k Hkn) in Hxk. destruct Hxk as [<-|[]]. auto.
        + exfalso. apply (Hout k); [apply HRin; auto|]. now apply (rsb_noise n wt mcs T labels virtual HT Hn Hlen) in Hxk. }
    exists N. split; [now apply NoDup_filter|]. split; auto. split.
    - intros Y N' HYN HY HYd HN'N HN' Hap.
      assert (HYc : forall c, In c Y -> is_cluster n T c) by (intros c Hc; now apply HY).
      assert (HN'l : forall x, In x N' -> noise x /\ x < n) by (intros x Hx; destruct (HN' x Hx) as [H1 H2]; split; [split; auto|apply H2]).
      rewrite <- !total_value; [| | |intros c Hc; apply Hge; auto|intros x Hx; now apply HN'l].
      2: { intros c Hc. apply Hge; auto. }
      2: { intros x Hx. now apply HNin in Hx. }
      apply qlex_iff. rewrite <- (value_perm QLex sc _ _ Hperm).
      assert (Hin : incl (Y ++ N') (rsb n)).
      { intros k Hk. apply Hroot. apply in_app_or in Hk as [Hk|Hk]; [left; auto|right; now apply HN'l]. }
      assert (HND : NoDup (Y ++ N')).
      { apply NoDup_app_intro'; auto. intros x H1 H2. pose proof (Hge x (HYc x H1)). destruct (HN'l x H2). lia. }
      assert (Han : rantichain chb rk MM (Y ++ N')).
      { intros s t Hs Ht Hst. apply in_app_or in Hs as [Hs|Hs].
        - apply in_app_or in Ht as [Ht|Ht].
          + apply (node_sub n wt mcs T labels virtual HT Hn Hlen) in Hst; auto. destruct Hst as [|Hst]; auto. exfalso. apply (HYd s t); auto.
          + exfalso. destruct (HN'l t Ht) as [Hno Hlt]. apply (rsb_noise n wt mcs T labels virtual HT Hn Hlen) in Hst; auto. apply (Hap s t); auto. apply Hst.
        - destruct (HN'l s Hs) as [_ Hlt]. rewrite (rsb_sample n wt mcs T labels virtual HT Hn Hlen s Hlt) in Hst. destruct Hst as [|[]]; auto. }
      change (qlex_le (value QLex sc (Y ++ N')) (value QLex sc X)) with (sle (s := QLex) (value QLex sc (Y ++ N')) (value QLex sc X)).
      destruct single.
      + apply (g_opt _ _ _ _ _ _ _ _ _ _ _ _ _ Hg HE); auto.
      + apply (b_opt _ _ _ _ _ _ _ _ _ _ _ _ _ Hg HE); auto. intro H. apply in_app_or in H as [H|H].
        * destruct (HY n H) as (_ & H' & _). now apply H'.
        * destruct (HN'l n H). lia.
    - intros c (Hic & Hcn & _) Hsome.
      set (C := chosen ctb rk MM sel c).
      assert (HCin : forall k, In k C <-> In k X /\ In k (rsb c)).
      { intro k. unfold C, X, chosen. rewrite !filter_In. split; [|tauto]. intros [H1 H2]. split; auto. split; auto.
        apply (rsub_trans chb rk MM up bound n c); auto. apply Hroot; auto. }
      assert (HcX : ~ In c X).
      { intro Hc. destruct Hsome as [(s & Hs & Hd)|[Hno _]]; [|apply Hno, HRin; auto].
        pose proof (Hcl s Hs) as His. apply HRin in Hs as [Hs _]. assert (c = s).
        { apply Hanti; auto. apply (node_sub n wt mcs T labels virtual HT Hn Hlen); auto. }
        subst s. apply (descends_sub _ _ _ _ HT) in Hd as [_ Hd]. congruence. }
      assert (Hbelow : forall k, In k X -> k < n -> (In k (rsb c) <-> below n T c k)).
      { intros k Hk Hlt. rewrite (rsb_noise n wt mcs T labels virtual HT Hn Hlen) by auto. split; [tauto|]. split; auto. }
      assert (Hdesc : forall k, In k R -> (In k (rsb c) <-> descends n T c k)).
      { intros k Hk. rewrite (node_sub n wt mcs T labels virtual HT Hn Hlen) by auto. split; auto. intros [->|]; auto.
        exfalso. apply HcX. now apply HRin in Hk. }
      assert (Hex : exists x, In x C /\ x <> c).
      { destruct Hsome as [(s & Hs & Hd)|[_ (x & Hx & Hb)]].
        - exists s. split; [apply HCin; split; [now apply HRin in Hs|now apply Hdesc]|]. intros ->. apply HcX. now apply HRin in Hs.
        - apply HNin in Hx as [Hx Hlt]. exists x. split; [apply HCin; split; auto; now apply Hbelow|]. apply Hge in Hic. lia. }
      destruct Hex as (x & Hx & Hxc).
      exists (filter (fun k => n <=? k) C), (filter (fun k => k <? n) C).
      assert (HCN : NoDup C) by (apply NoDup_filter; apply (rsub_NoDup chb rk MM up bound one); apply (chb_nodup n wt mcs T labels virtual HT)).
      split; [now apply NoDup_filter|]. split; [now apply NoDup_filter|]. split; [|split].
      + intro s. rewrite filter_In, Nat.leb_le, HCin. split.
        * intros [[H1 H2] H3]. assert (HsR : In s R) by (apply HRin; auto). split; auto. now apply Hdesc.
        * intros [H1 H2]. pose proof (Hge s (Hcl s H1)). split; auto. split; [now apply HRin in H1|]. now apply Hdesc.
      + intro s. rewrite filter_In, Nat.ltb_lt, HCin, HNin. split.
        * intros [[H1 H2] H3]. split; auto. now apply Hbelow.
        * intros [[H1 H2] H3]. split; auto. split; auto. now apply Hbelow.
      + rewrite <- total_value; [|intros k Hk; apply filter_In in Hk; now apply Nat.leb_le|intros k Hk; apply filter_In in Hk; now apply Nat.ltb_lt].
        assert (Hp : Permutation C (filter (fun k => n <=? k) C ++ filter (fun k => k <? n) C)).
        { rewrite (filter_split (fun k => n <=? k) C) at 1. apply Permutation_app_head. erewrite filter_ext; [reflexivity|].
          intro k. cbn beta. now rewrite Nat.ltb_antisym. }
        rewrite <- (value_perm QLex sc _ _ Hp).
        assert (Esc : sc c = (bcubed_score labels (members c), stability to_q T c)).
        { unfold sc. now rewrite (proj2 (Nat.ltb_ge _ _) (Hge c Hic)). }
        rewrite <- Esc. apply qlex_lt. assert (Hcr : In c (rsb n)) by (apply Hroot; auto).
        destruct single.
        * apply (g_tie _ _ _ _ _ _ _ _ _ _ _ _ _ Hg HE) with (x := x); auto.
        * apply (b_tie _ _ _ _ _ _ _ _ _ _ _ _ _ Hg HE) with (x := x); auto.
  Qed.
End Exact.
