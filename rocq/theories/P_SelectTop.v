(** Wrappers for cluster selection: excess of mass and leaves. *)
From Coq Require Import List Arith Lia Bool Permutation Sorted ZArith QArith Qcanon.
From Verif Require Import Prelude Order Size Num Forest M_Linkage S_Linkage M_Condense S_Condense M_Select S_Select
  P_CondenseTop P_CTree P_Eom P_EomTop P_Below.
Import ListNotations.
Local Open Scope nat_scope.

Lemma c25_structure (V : WOrd) (Sz : SOrd) (A : Arith V Sz) n wt mcs (T : list (crow V Sz)) mx single :
  condensed n wt mcs T -> slt sone mcs = true -> 0 < n ->
  num_lt A (num_zero A) (num_zero A) = false ->
  exists S, extract_eom_clusters A T (cluster_tree_from_condensed_tree T) mx single = Ok S /\
    StronglySorted lt S /\
    (forall c, In c S -> admissible n T mx single c) /\
    disjoint_clusters n T S /\
    (cluster_rows n T = [] -> S = []) /\
    (cluster_rows n T <> [] -> forall c, leaf_cluster n T c -> (forall m s, mx = Some m -> recorded_size n T c s -> sle s m = true) ->
     exists s, In s S /\ (s = c \/ descends n T s c)).
Proof.
  intros HT Hm Hn Hz.
  assert (Hd : cluster_rows n T = [] \/ cluster_rows n T <> []) by (destruct (cluster_rows n T); [auto|right; discriminate]).
  destruct Hd as [E|E].
  - exists []. split; [now apply (eom_empty A n wt mcs)|]. split; [constructor|]. split; [intros c []|]. split; [intros c d []|].
    split; auto. congruence.
  - destruct (eom_all A n wt mcs T HT Hm Hn Hz mx single NatSize (fun _ => num_zero A) (fun _ => 0) E)
      as (S & d & E1 & _ & H1 & H2 & H3 & H4 & _).
    exists S. split; auto. split; auto. split; auto. split; auto. split; [congruence|auto].
Qed.

Lemma clip_pos sc k : clip QcSize sc k = positive_part (sc k).
Proof. unfold clip, positive_part, slt. cbn [sle QcSize szero]. destruct (Qcleb 0 (sc k)); auto. Qed.
Lemma value_total {Sz} (to_q : Sz -> Qc) T Y : value QcSize (stability to_q T) Y = total_stability to_q T Y.
Proof.
  unfold value, total_stability. erewrite map_ext; [|intro; apply clip_pos]. reflexivity.
Qed.

Lemma c25_optimal (Sz : SOrd) (to_q : Sz -> Qc) n wt mcs (T : list (crow QInf Sz)) mx single S :
  condensed n wt mcs T -> slt sone mcs = true -> 0 < n -> all_finite T -> cluster_rows n T <> [] ->
  extract_eom_clusters (ExactArith Sz to_q) T (cluster_tree_from_condensed_tree T) mx single = Ok S ->
  (forall Y, NoDup Y -> (forall c, In c Y -> admissible n T mx single c) -> disjoint_clusters n T Y ->
     (total_stability to_q T Y <= total_stability to_q T S)%Qc) /\
  (forall c s, admissible n T mx single c -> In s S -> descends n T c s ->
     exists D, NoDup D /\ (forall x, In x D <-> In x S /\ (x = c \/ descends n T c x)) /\
       (positive_part (stability to_q T c) < total_stability to_q T D)%Qc).
Proof.
  intros HT Hm Hn Hfin Hne HR.
  destruct (eom_all (ExactArith Sz to_q) n wt mcs T HT Hm Hn eq_refl mx single QcSize Fin (stability to_q T) Hne)
    as (S' & d & E1 & Ed & _ & _ & _ & _ & HX).
  rewrite HR in E1. injection E1 as <-. destruct HX as [HX1 HX2].
  - split; [reflexivity|]. split; [reflexivity|]. split; [reflexivity|].
    intros k Hk. apply in_seq in Hk. apply (score_exact to_q n wt mcs T HT Hm d Hfin Hn Ed). unfold top_id. lia.
  - split.
    + intros Y H1 H2 H3. specialize (HX1 Y H1 H2 H3). rewrite !value_total in HX1. now apply Qcleb_le.
    + intros c s H1 H2 H3. destruct (HX2 c s H1 H2 H3) as (D & HD1 & HD2 & HD3). exists D. split; auto. split; auto.
      rewrite clip_pos, value_total in HD3. apply slt_true in HD3. now apply Qcleb_gt.
Qed.

(** ** Stability in the unweighted case *)
Section Unweighted.
  Variables (n : nat) (mcs : NatSize) (T : list (crow QInf NatSize)).
  Hypothesis HT : condensed (Sz := NatSize) n (fun _ => 1) mcs T.
  Hypothesis Hfin : all_finite T.
  Definition nat_q (k : NatSize) : Qc := Q2Qc (inject_Z (Z.of_nat k)).

  Lemma nat_q_add (a b : NatSize) : nat_q (sadd a b) = (nat_q a + nat_q b)%Qc.
  Proof.
    unfold nat_q. cbn [sadd NatSize]. rewrite Nat2Z.inj_add. apply Qc_is_canon. unfold Qcplus.
    cbn [this Q2Qc]. rewrite !Qred_correct. now rewrite inject_Z_plus.
  Qed.
  Lemma nat_q_nonneg (a : NatSize) : (0 <= nat_q a)%Qc.
  Proof.
    unfold nat_q, Qcle. cbn [this Q2Qc]. rewrite !Qred_correct. change 0%Q with (inject_Z 0). rewrite <- Zle_Qle. lia.
  Qed.
  Lemma nat_q_sum (l : list NatSize) : nat_q (ssum l) = qsum (map nat_q l).
  Proof. induction l as [|x l IH]; [reflexivity|]. cbn [ssum fold_right map qsum]. rewrite nat_q_add. f_equal. exact IH. Qed.

  (** The textbook formula: everything that leaves a cluster counts from the
      density at which the cluster appeared. *)
  Definition excess_of_mass (birth : Qc) (c : nat) : Qc :=
    qsum (map (fun r => (lam_q r - birth) * nat_q (c_size r))%Qc (filter (fun r => c_parent r =? c) T)).

  Lemma arriving_one q : In q T -> n <= c_child q -> arriving nat_q T (c_child q) = (lam_q q * nat_q (c_size q))%Qc.
  Proof.
    intros Hq Hc. unfold arriving.
    assert (E : filter (fun r => c_child r =? c_child q) T = [q]).
    { pose proof (T_NoDup n _ mcs T HT) as HN. assert (Hu : forall r, In r T -> c_child r = c_child q -> r = q).
      { intros r Hr E. eapply (row_eq n _ mcs T HT); eauto. }
      clear -HN Hu Hq. induction T as [|r l IH]; cbn [filter]; [destruct Hq|]. inversion_clear HN as [|? ? Hr HN'].
      destruct (Nat.eqb_spec (c_child r) (c_child q)) as [E|E].
      - assert (r = q) as -> by (apply Hu; simpl; auto). f_equal. apply filter_none. intros x Hx. apply Nat.eqb_neq.
        intro E'. apply Hr. rewrite <- (Hu x); simpl; auto.
      - apply IH; auto.
        + destruct Hq as [->|]; auto. congruence.
        + intros; apply Hu; simpl; auto. }
    rewrite E. unfold qsum. cbn [map fold_right]. ring.
  Qed.

  Lemma stability_textbook q : In q T -> n <= c_child q ->
    stability nat_q T (c_child q) = excess_of_mass (lam_q q) (c_child q).
  Proof.
    intros Hq Hc. unfold stability. rewrite (arriving_one q Hq Hc).
    rewrite (size_conserved n _ mcs T HT q (fun _ _ => eq_refl) Hq Hc), nat_q_sum.
    unfold leaving, excess_of_mass. change (rows_of T (c_child q)) with (filter (fun r => c_parent r =? c_child q) T).
    generalize (filter (fun r => c_parent r =? c_child q) T) as l.
    induction l as [|r l IH]; unfold qsum in *; cbn [map fold_right]; [ring|].
    rewrite <- IH. ring.
  Qed.

  Lemma excess_root : stability nat_q T n = excess_of_mass 0 n.
  Proof.
    unfold stability, arriving. rewrite filter_none.
    - unfold leaving, excess_of_mass. generalize (filter (fun r => c_parent r =? n) T) as l.
      induction l as [|r l IH]; unfold qsum in *; cbn [map fold_right] in *; [ring|]. rewrite <- IH. ring.
    - intros r Hr. apply Nat.eqb_neq. intro E. assert (Hc : In r (cluster_rows n T)) by (apply in_ct; auto; lia).
      pose proof (ct_child_in _ _ _ _ HT _ Hc). lia.
  Qed.

  Lemma excess_nonneg b c : (forall r, In r T -> c_parent r = c -> (b <= lam_q r)%Qc) -> (0 <= excess_of_mass b c)%Qc.
  Proof.
    intro H. unfold excess_of_mass.
    assert (Hall : forall r, In r (filter (fun r => c_parent r =? c) T) -> (b <= lam_q r)%Qc).
    { intros r Hr. apply filter_In in Hr as [Hr E]. apply Nat.eqb_eq in E. auto. }
    revert Hall. generalize (filter (fun r => c_parent r =? c) T) as l.
    induction l as [|r l IH]; intro Hall; unfold qsum in *; cbn [map fold_right]; [apply Qcle_refl|].
    replace 0%Qc with (0 + 0)%Qc by ring. apply Qcplus_le_compat; [|apply IH; intros; apply Hall; simpl; auto].
    replace 0%Qc with (0 * nat_q (c_size r))%Qc by ring. apply Qcmult_le_compat_r; [|apply nat_q_nonneg].
    apply Qcle_minus_iff. replace (lam_q r - b + - 0)%Qc with (lam_q r + - b)%Qc by ring.
    apply (proj1 (Qcle_minus_iff b (lam_q r))). apply Hall. simpl; auto.
  Qed.

  Lemma lam_le r q : In r T -> In q T -> n <= c_child r -> c_parent q = c_child r -> (lam_q r <= lam_q q)%Qc.
  Proof.
    intros Hr Hq Hc E. pose proof (ct_lambda _ _ _ _ HT r q Hr Hq Hc E) as H. unfold lam_q.
    pose proof (Hfin r Hr) as F1. pose proof (Hfin q Hq) as F2. destruct (c_lam r) as [a|]; [|congruence].
    destruct (c_lam q) as [b|]; [|congruence]. simpl in H. now apply Qcleb_le.
  Qed.

  Lemma stability_nonneg c : is_cluster n T c -> (forall r, In r T -> (0 <= lam_q r)%Qc) -> (0 <= stability nat_q T c)%Qc.
  Proof.
    intros [->|(Hc & r & Hr & <-)] Hpos.
    - rewrite excess_root. apply excess_nonneg. auto.
    - rewrite (stability_textbook r Hr Hc). apply excess_nonneg. intros q Hq E. now apply (lam_le r q).
  Qed.
End Unweighted.

Lemma total_plain n mcs (T : list (crow QInf NatSize)) Y :
  condensed (Sz := NatSize) n (fun _ => 1) mcs T -> all_finite T -> (forall r, In r T -> (0 <= lam_q r)%Qc) ->
  (forall c, In c Y -> is_cluster n T c) ->
  total_stability nat_q T Y = qsum (map (stability nat_q T) Y).
Proof.
  intros HT Hfin Hpos HY. unfold total_stability. f_equal. apply map_ext_in. intros c Hc.
  unfold positive_part. rewrite (proj2 (Qcleb_le _ _)); auto. apply (stability_nonneg n mcs); auto.
Qed.

Lemma c25_unweighted n mcs (T : list (crow QInf NatSize)) mx single S :
  condensed (Sz := NatSize) n (fun _ => 1) mcs T -> 2 <= mcs -> 0 < n -> all_finite T ->
  (forall r, In r T -> (0 <= lam_q r)%Qc) -> cluster_rows n T <> [] ->
  extract_eom_clusters (ExactArith NatSize nat_q) T (cluster_tree_from_condensed_tree T) mx single = Ok S ->
  (forall c, is_cluster n T c -> (0 <= stability nat_q T c)%Qc) /\
  (forall r, In r T -> n <= c_child r -> stability nat_q T (c_child r) = excess_of_mass T (lam_q r) (c_child r)) /\
  (forall Y, NoDup Y -> (forall c, In c Y -> admissible n T mx single c) -> disjoint_clusters n T Y ->
     (qsum (map (stability nat_q T) Y) <= qsum (map (stability nat_q T) S))%Qc).
Proof.
  intros HT Hm Hn Hfin Hpos Hne HR.
  assert (Hm' : slt (S := NatSize) sone mcs = true).
  { apply slt_true. cbn [sle NatSize sone]. apply Nat.leb_gt. lia. }
  split; [intros; now apply (stability_nonneg n mcs)|]. split; [intros; now apply (stability_textbook n mcs)|].
  intros Y H1 H2 H3.
  destruct (c25_structure QInf NatSize (ExactArith NatSize nat_q) n _ mcs T mx single HT Hm' Hn eq_refl)
    as (S' & E & _ & HS & _). rewrite HR in E. injection E as <-.
  rewrite <- !(total_plain n mcs); auto.
  - eapply c25_optimal; eauto.
  - intros c Hc. now apply HS.
  - intros c Hc. now apply H2.
Qed.

(** ** Leaves *)
Section Leaves.
  Context {V : WOrd} {Sz : SOrd}.
  Variables (n : nat) (wt : nat -> Sz) (mcs : Sz) (T : list (crow V Sz)).
  Hypothesis HT : condensed n wt mcs T.
  Notation CT := (cluster_rows n T).
  Notation ch := (children_of CT).
  Notation top := (top_id n T).

  Lemma leaf_iff c : leaf_cluster n T c <-> n <= c < top /\ ch c = [].
  Proof.
    split.
    - intro H. split; [apply (is_cluster_iff _ _ _ _ HT); apply H|]. now apply leaf_children.
    - intros [H1 H2]. split; [now apply (is_cluster_iff _ _ _ _ HT)|]. intros r Hr Hc E.
      assert (H : In (c_child r) (ch c)) by (apply ch_in; exists r; split; auto; now apply in_ct).
      rewrite H2 in H. destruct H.
  Qed.

  Lemma no_parent_iff c : existsb (fun r => c_parent r =? c) CT = false <-> ch c = [].
  Proof.
    split.
    - intro H. destruct (ch c) as [|w l] eqn:E; auto. assert (Hw : In w (ch c)) by (rewrite E; simpl; auto).
      apply ch_in in Hw as (r & Hr & Hp & _). assert (Ht : existsb (fun r => c_parent r =? c) CT = true).
      { apply existsb_exists. exists r. split; auto. now apply Nat.eqb_eq. }
      congruence.
    - intro H. destruct (existsb _ CT) eqn:E; auto. apply existsb_exists in E as (r & Hr & Hp). apply Nat.eqb_eq in Hp.
      assert (Hw : In (c_child r) (ch c)) by (apply ch_in; eauto). rewrite H in Hw. destruct Hw.
  Qed.

  Lemma sorted_filter (p : nat -> bool) l : StronglySorted lt l -> StronglySorted lt (filter p l).
  Proof.
    induction 1 as [|x l H IH Hx]; simpl; [constructor|]. destruct (p x); auto. constructor; auto.
    apply Forall_forall. intros y Hy. apply filter_In in Hy as [Hy _]. rewrite Forall_forall in Hx. auto.
  Qed.
  Lemma sorted_shift k l : StronglySorted lt l -> StronglySorted lt (map (fun i => i + k) l).
  Proof.
    induction 1 as [|x l H IH Hx]; simpl; constructor; auto. apply Forall_forall. intros y Hy.
    apply in_map_iff in Hy as (z & <- & Hz). rewrite Forall_forall in Hx. specialize (Hx z Hz). lia.
  Qed.

  Lemma ct_max : CT <> [] -> array_max (map c_child CT) = Ok (top - 1).
  Proof.
    intro Hne. apply array_max_ok.
    - rewrite (ids _ _ _ _ HT). apply in_seq. unfold top_id. destruct CT; [congruence|simpl; lia].
    - intros y Hy. rewrite (ids _ _ _ _ HT) in Hy. apply in_seq in Hy. unfold top_id. lia.
  Qed.

  Lemma cluster_leaves_ok : CT <> [] -> exists S, cluster_tree_leaves CT n = Ok S /\
    StronglySorted lt S /\ (forall c, In c S <-> leaf_cluster n T c).
  Proof.
    intro Hne. unfold cluster_tree_leaves. rewrite (ct_max Hne). cbn [bind].
    eexists. split; [reflexivity|]. split.
    - apply sorted_shift, sorted_filter, seq_sorted.
    - intro c. rewrite leaf_iff, in_map_iff. split.
      + intros (i & <- & Hi). apply filter_In in Hi as [Hi Hp]. apply in_seq in Hi. apply negb_true_iff in Hp.
        split; [unfold top_id in *; lia|]. now apply no_parent_iff.
      + intros [H1 H2]. exists (c - n). split; [lia|]. apply filter_In. split.
        * apply in_seq. unfold top_id in *. lia.
        * apply negb_true_iff. replace (c - n + n) with c by lia. now apply no_parent_iff.
  Qed.

  Lemma leaves_disjoint S : (forall c, In c S -> leaf_cluster n T c) -> disjoint_clusters n T S.
  Proof.
    intros H c d Hc Hd Hde. apply (descends_sub _ _ _ _ HT) in Hde as [Hde Hne].
    apply (sub_inv ch top (ct_up _ _ _ _ HT) (ct_bound _ _ _ _ HT)) in Hde as [->|(u & Hu & _)]; [congruence|].
    apply H, leaf_iff in Hc as [_ Hc]. rewrite Hc in Hu. destruct Hu.
  Qed.

  Lemma leaf_below c : is_cluster n T c -> exists l, leaf_cluster n T l /\ (l = c \/ descends n T c l).
  Proof.
    pose proof (ct_up _ _ _ _ HT) as Hup. pose proof (ct_bound _ _ _ _ HT) as Hbd.
    intro Hc. apply (is_cluster_iff _ _ _ _ HT) in Hc. revert Hc.
    induction c as [c IH] using (sub_ind ch top Hup Hbd). intro Hc.
    destruct (ch c) as [|w l] eqn:E.
    - exists c. split; auto. apply leaf_iff. auto.
    - assert (Hw : In w (ch c)) by (rewrite E; simpl; auto). pose proof (Hup _ _ Hw). pose proof (Hbd _ _ Hw).
      destruct (IH w (or_introl eq_refl)) as (x & Hx & Hx'); [lia|]. exists x. split; auto. right.
      apply ch_in in Hw as (r & Hr & <- & <-).
      assert (Hd : descends n T (c_parent r) (c_child r)).
      { apply desc_child; [now apply (ct_in n T)|lia]. }
      destruct Hx' as [->|Hx']; auto. eapply desc_trans; eauto.
  Qed.

  (** extract_leaves reads the same leaves off the full tree. *)
  Lemma leaf_has_samples c : sle (s := Sz) szero sone = true -> slt sone mcs = true -> leaf_cluster n T c -> 0 < n -> exists r, In r T /\ c_parent r = c.
  Proof.
    intros H01 Hm Hc Hn. pose proof Hc as [Hic Hcl].
    assert (Hb : exists x, below n T c x).
    { destruct Hic as [->|(Hcn & r & Hr & <-)].
      - exists 0. now apply (below_root _ _ _ _ HT).
      - destruct (ct_sizes _ _ _ _ HT r Hr Hcn) as (Hs & xs & _ & Hxs & E).
        destruct xs as [|x xs]; [|exists x; apply Hxs; simpl; auto].
        exfalso. simpl in E. (* size zero *)
        rewrite E in Hs. apply slt_true in Hm. rewrite (sle_trans _ _ _ _ Hs H01) in Hm. discriminate.
    }
    destruct Hb as (x & Hb). inversion Hb as [r y Hr E Hlt Ec|r y Hr Hcn Hb' Ec]; subst; eauto.
  Qed.

  Lemma extract_leaves_ok : sle (s := Sz) szero sone = true -> slt sone mcs = true -> 0 < n ->
    exists S, extract_leaves T = Ok S /\ StronglySorted lt S /\ (forall c, In c S <-> leaf_cluster n T c).
  Proof.
    intros H01 Hm Hn. unfold extract_leaves.
    assert (Ex : exists m, array_max (map c_parent T) = Ok m /\ n <= m < top /\ (forall r, In r T -> c_parent r <= m)).
    { assert (exists r l, T = r :: l) as (r & l & E).
      { pose proof (rows_nonempty _ _ _ _ HT Hn). destruct T as [|r l]; [congruence|eauto]. }
      assert (Hin : forall q, In q T -> n <= c_parent q < top) by (intros; now apply (parent_ge _ _ _ _ HT)).
      rewrite E in *. simpl. eexists. split; [reflexivity|].
      destruct (fold_max_spec (map c_parent l) (c_parent r)) as (H1 & H2 & H3). split.
      - destruct H1 as [->|H1]; [apply Hin; simpl; auto|]. apply in_map_iff in H1 as (q & <- & Hq). apply Hin. simpl; auto.
      - intros q [<-|Hq]; auto. apply H3. now apply in_map. }
    destruct Ex as (m & -> & Hm1 & Hm2). cbn [bind]. rewrite (t_min _ _ _ _ HT Hn). cbn [bind].
    eexists. split; [reflexivity|]. split; [apply sorted_filter, seq_sorted|].
    intro c. rewrite filter_In, in_seq, andb_true_iff, Nat.leb_le, negb_true_iff. split.
    - intros (H1 & H2 & H3). split; [apply (is_cluster_iff _ _ _ _ HT); lia|]. intros r Hr Hc E.
      assert (Ht : existsb (fun r => (c_parent r =? c) && slt sone (c_size r)) T = true).
      { apply existsb_exists. exists r. split; auto. rewrite E, Nat.eqb_refl, (row_kind n wt mcs T HT Hm r Hr).
        now apply Nat.leb_le. }
      congruence.
    - intro Hc. destruct (leaf_has_samples c H01 Hm Hc Hn) as (r & Hr & Ep). pose proof Hc as [Hic Hcl].
      apply (is_cluster_iff _ _ _ _ HT) in Hic. specialize (Hm2 r Hr). split; [lia|]. split; [lia|].
      destruct (existsb _ T) eqn:E; auto. apply existsb_exists in E as (q & Hq & E). apply andb_true_iff in E as [E1 E2].
      apply Nat.eqb_eq in E1. rewrite (row_kind n wt mcs T HT Hm q Hq) in E2. apply Nat.leb_le in E2.
      exfalso. eapply Hcl; eauto.
  Qed.
End Leaves.

Lemma c26 (V : WOrd) (Sz : SOrd) n wt mcs (T : list (crow V Sz)) :
  condensed n wt mcs T -> slt sone mcs = true -> cluster_rows n T <> [] ->
  exists S, cluster_tree_leaves (cluster_tree_from_condensed_tree T) n = Ok S /\
    StronglySorted lt S /\ (forall c, In c S <-> leaf_cluster n T c) /\ disjoint_clusters n T S /\
    (forall c, is_cluster n T c -> exists l, In l S /\ (l = c \/ descends n T c l)).
Proof.
  intros HT Hm Hne. rewrite (mask_ok _ _ _ _ HT Hm).
  destruct (cluster_leaves_ok n wt mcs T HT Hne) as (S & E & H1 & H2).
  exists S. split; auto. split; auto. split; auto. split.
  - apply (leaves_disjoint n wt mcs T HT). intros c Hc. now apply H2.
  - intros c Hc. destruct (leaf_below n wt mcs T HT c Hc) as (l & Hl & H). exists l. split; auto. now apply H2.
Qed.

(** ** A concrete tree *)
Definition dist (z : Z) : QInf := Some (Q2Qc (inject_Z z)).
Definition lr (a b : nat) (d : QInf) (s : nat) : lrow QInf NatSize := {| l_a := a; l_b := b; l_d := d; l_n := s |}.
Definition exd : list (lrow QInf NatSize) :=
  [lr 5 4 (dist 100) 2; lr 6 8 (dist 100) 3; lr 1 0 (dist 108) 2; lr 3 2 (dist 108) 2; lr 11 10 (dist 110) 4;
   lr 12 9 (dist 120) 7; lr 13 7 (dist 130) 8].
Definition exT : list (crow QInf NatSize) :=
  match condense_tree exd hdbscan_lambda_value (2 : NatSize) None (fun _ => 1) with Ok T => T | Err _ => [] end.
Lemma exd_dendrogram : dendrogram 8 exd.
Proof. apply dendrogram_checked. reflexivity. Qed.
Lemma exd_sizes : sizes_are (Sz := NatSize) 8 (fun _ => 1) exd.
Proof. apply sizes_checked; reflexivity. Qed.
Lemma exd_sorted : heights_sorted exd.
Proof. repeat constructor. Qed.
Lemma ex_run_condensed :
  condense_tree exd hdbscan_lambda_value (2 : NatSize) None (fun _ => 1) = Ok exT /\
  condensed (Sz := NatSize) 8 (fun _ => 1) (2 : NatSize) exT.
Proof.
  destruct (c24 QInf QInf NatSize 8 exd (fun _ => 1) (2 : NatSize) None hdbscan_lambda_value
              exd_dendrogram exd_sizes exd_sorted hdbscan_lambda_antitone) as (T & E & H & _).
  - reflexivity.
  - repeat constructor.
  - unfold exT. rewrite E. auto.
Qed.
Definition exd_run := proj1 ex_run_condensed.
Definition ex_condensed := proj2 ex_run_condensed.

Lemma c25_refuted :
  exists (L : list (lrow QInf NatSize)) T,
    dendrogram 8 L /\ sizes_are (Sz := NatSize) 8 (fun _ => 1) L /\ heights_sorted L /\
    condense_tree L hdbscan_lambda_value (2 : NatSize) None (fun _ => 1) = Ok T /\
    extract_eom_clusters (ExactArith NatSize nat_q) T (cluster_tree_from_condensed_tree T) (Some 7) true = Ok [8] /\
    (forall x, x < 8 -> below 8 T 8 x).
Proof.
  exists exd, exT. split; [apply exd_dendrogram|]. split; [apply exd_sizes|]. split; [apply exd_sorted|].
  split; [apply exd_run|]. split; [vm_compute; reflexivity|].
  intros x Hx. now apply (below_root _ _ _ _ ex_condensed).
Qed.
