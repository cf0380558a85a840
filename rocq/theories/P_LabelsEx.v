(** Laws of exact division, and example trees for labels. *)
From Coq Require Import List Arith Lia Bool ZArith QArith Qcanon Permutation Sorted.
From Verif Require Import Prelude Order Size Num M_Linkage S_Linkage M_Condense S_Condense P_Condense M_Select S_Select
  P_CTree P_Below P_SelectTop P_CondenseTop  M_Labels S_Labels P_Labels P_LabelsTop P_LabelsProps.
Import ListNotations.
Local Open Scope nat_scope.

Lemma exact_lam_laws : LamLaws ExactLam.
Proof.
  constructor.
  - reflexivity.
  - intros [a|] [b|]; simpl; congruence.
  - intros [a|] [b|]; simpl; intros Hf Ha Hab Hb; try discriminate.
    + apply Qcleb_le in Ha, Hab. apply Qcleb_gt in Hb. split; apply Qcleb_le.
      * apply (Qcmult_lt_0_le_reg_r _ _ b); auto. unfold Qcdiv.
        rewrite <- Qcmult_assoc, (Qcmult_comm (/ b)), Qcmult_inv_r, Qcmult_1_r, Qcmult_0_l; auto.
        intro E. rewrite E in Hb. now apply Qclt_not_eq in Hb.
      * apply (Qcmult_lt_0_le_reg_r _ _ b); auto. unfold Qcdiv.
        rewrite <- Qcmult_assoc, (Qcmult_comm (/ b)), Qcmult_inv_r, Qcmult_1_r, Qcmult_1_l; auto.
        intro E. rewrite E in Hb. now apply Qclt_not_eq in Hb.
    + split; reflexivity.
  - intros [a|] [b|]; simpl; intros Hf Hab Hba Hb; try discriminate.
    apply Qcleb_le in Hab, Hba. apply Qcleb_gt in Hb. assert (a = b) as -> by now apply Qcle_antisym.
    f_equal. unfold Qcdiv. apply Qcmult_inv_r. intro E. rewrite E in Hb. now apply Qclt_not_eq in Hb.
Qed.

Lemma condensed_sample_size {V : WOrd} {Sz : SOrd} n (wt : nat -> Sz) mcs (T : list (crow V Sz)) :
  condensed n wt mcs T -> slt sone mcs = true ->
  forall r, In r T -> c_child r < n <-> sle (c_size r) sone && sle sone (c_size r) = true.
Proof.
  intros H Hm r Hr. split.
  - intro Hx. rewrite (ct_sample_size _ _ _ _ H r Hr Hx), sle_refl. auto.
  - intro E. apply andb_true_iff in E as [E _]. destruct (Nat.lt_ge_cases (c_child r) n) as [|Hge]; auto.
    destruct (ct_sizes _ _ _ _ H r Hr Hge) as [Hs _].
    assert (sle mcs sone = true) by (eapply sle_trans; eauto). unfold slt in Hm. rewrite H0 in Hm. discriminate.
Qed.

Lemma c29_condensed (V : WOrd) (Sz : SOrd) (LA : LamArith V) n (wt : nat -> Sz) mcs (T : list (crow V Sz)) S eps ls :
  LamLaws LA -> condensed n wt mcs T -> slt sone mcs = true -> 0 < n ->
  (forall s, In s S -> is_cluster n T s) -> NoDup S ->
  (forall r, In r T -> wle (la_zero LA) (c_lam r) = true) ->
  S <> [] -> (length S = 1 -> S = [n]) -> get_cluster_label_vector LA T S eps n = Ok ls ->
    exists ps, get_point_membership_strength_vector LA T S ls = Ok ps /\ length ps = n /\
      (forall x, x < n -> wle (la_zero LA) (nth x ps (la_zero LA)) = true /\ wle (nth x ps (la_zero LA)) (la_one LA) = true) /\
      (forall x, x < n -> nth x ls 0%Z = (-1)%Z -> nth x ps (la_zero LA) = la_zero LA) /\
      (forall x, x < n -> nth x ls 0%Z <> (-1)%Z ->
         exists y, y < n /\ nth y ls 0%Z = nth x ls 0%Z /\ nth y ps (la_zero LA) = la_one LA).
Proof.
  intros HLA HT Hm Hn HC HN Hpos. apply c29; auto.
  - eapply condensed_ordered; eauto.
  - now apply (condensed_sample_size n wt mcs).
Qed.

Lemma c29_condensed_values (V : WOrd) (Sz : SOrd) (LA : LamArith V) n (wt : nat -> Sz) mcs (T : list (crow V Sz)) S eps ls ps :
  LamLaws LA -> condensed n wt mcs T -> slt sone mcs = true -> 0 < n ->
  (forall s, In s S -> is_cluster n T s) -> NoDup S ->
  (forall r, In r T -> wle (la_zero LA) (c_lam r) = true) ->
  S <> [] -> (length S = 1 -> S = [n]) -> get_cluster_label_vector LA T S eps n = Ok ls ->
  get_point_membership_strength_vector LA T S ls = Ok ps ->
  forall r, In r T -> c_child r < n -> nth (c_child r) ls 0%Z <> (-1)%Z ->
  exists c, In c S /\ nth (c_child r) ls 0%Z = Z.of_nat (position S c) /\ right_strength LA n T c r (nth (c_child r) ps (la_zero LA)).
Proof.
  intros HLA HT Hm Hn HC HN Hpos. apply c29_values; auto.
  - eapply condensed_ordered; eauto.
  - now apply (condensed_sample_size n wt mcs).
Qed.

(** One selected cluster that is not the root. *)
Definition kd : list (lrow QInf NatSize) :=
  [lr 1 0 (dist 10) 2; lr 3 2 (dist 10) 2; lr 6 4 (dist 11) 3; lr 7 5 (dist 20) 5].
Definition kT : list (crow QInf NatSize) :=
  match condense_tree kd hdbscan_lambda_value (2 : NatSize) None (fun _ => 1) with Ok T => T | Err _ => [] end.
Lemma kd_dendrogram : dendrogram 5 kd.
Proof. apply dendrogram_checked. reflexivity. Qed.
Lemma kd_sizes : sizes_are (Sz := NatSize) 5 (fun _ => 1) kd.
Proof. apply sizes_checked; reflexivity. Qed.
Lemma kd_sorted : heights_sorted kd.
Proof. repeat constructor. Qed.
Lemma kd_run_condensed :
  condense_tree kd hdbscan_lambda_value (2 : NatSize) None (fun _ => 1) = Ok kT /\
  condensed (Sz := NatSize) 5 (fun _ => 1) (2 : NatSize) kT.
Proof.
  destruct (c24 QInf QInf NatSize 5 kd (fun _ => 1) (2 : NatSize) None hdbscan_lambda_value
              kd_dendrogram kd_sizes kd_sorted hdbscan_lambda_antitone) as (T & E & H & _).
  - reflexivity.
  - repeat constructor.
  - unfold kT. rewrite E. auto.
Qed.

Lemma c27_refuted :
  exists (L : list (lrow QInf NatSize)) T S,
    dendrogram 5 L /\ sizes_are (Sz := NatSize) 5 (fun _ => 1) L /\ heights_sorted L /\
    condense_tree L hdbscan_lambda_value (2 : NatSize) None (fun _ => 1) = Ok T /\
    extract_eom_clusters (ExactArith NatSize nat_q) T (cluster_tree_from_condensed_tree T) (Some 2) false = Ok S /\
    get_cluster_label_vector ExactLam T S None 5 = Err KeyError.
Proof.
  exists kd, kT, [7]. split; [apply kd_dendrogram|]. split; [apply kd_sizes|]. split; [apply kd_sorted|].
  split; [apply kd_run_condensed|]. split; vm_compute; reflexivity.
Qed.

(** A selected cluster whose samples all leave at density zero. *)
Definition zd : list (lrow QInf NatSize) :=
  [lr 1 0 (dist 10) 2; lr 3 2 None 2; lr 5 4 None 4].
Definition zT : list (crow QInf NatSize) :=
  match condense_tree zd hdbscan_lambda_value (2 : NatSize) None (fun _ => 1) with Ok T => T | Err _ => [] end.
Lemma zd_dendrogram : dendrogram 4 zd.
Proof. apply dendrogram_checked. reflexivity. Qed.
Lemma zd_sizes : sizes_are (Sz := NatSize) 4 (fun _ => 1) zd.
Proof. apply sizes_checked; reflexivity. Qed.
Lemma zd_sorted : heights_sorted zd.
Proof. repeat constructor. Qed.
Lemma zd_run_condensed :
  condense_tree zd hdbscan_lambda_value (2 : NatSize) None (fun _ => 1) = Ok zT /\
  condensed (Sz := NatSize) 4 (fun _ => 1) (2 : NatSize) zT.
Proof.
  destruct (c24 QInf QInf NatSize 4 zd (fun _ => 1) (2 : NatSize) None hdbscan_lambda_value
              zd_dendrogram zd_sizes zd_sorted hdbscan_lambda_antitone) as (T & E & H & _).
  - reflexivity.
  - repeat constructor.
  - unfold zT. rewrite E. auto.
Qed.

Lemma c28_refuted :
  exists (L : list (lrow QInf NatSize)) T S,
    dendrogram 4 L /\ sizes_are (Sz := NatSize) 4 (fun _ => 1) L /\ heights_sorted L /\
    condense_tree L hdbscan_lambda_value (2 : NatSize) None (fun _ => 1) = Ok T /\
    cluster_tree_leaves (cluster_tree_from_condensed_tree T) 4 = Ok S /\ length S = 2 /\
    get_cluster_label_vector ExactLam T S None 4 = Ok [1; 1; -1; -1]%Z.
Proof.
  exists zd, zT, [5; 6]. split; [apply zd_dendrogram|]. split; [apply zd_sizes|]. split; [apply zd_sorted|].
  split; [apply zd_run_condensed|]. split; [vm_compute; reflexivity|]. split; [reflexivity|]. vm_compute; reflexivity.
Qed.
