(** Changing units in exact arithmetic. *)
From Coq Require Import List Arith Lia Bool ZArith Permutation Sorted QArith Qcanon.
From Verif Require Import Prelude Order Graph Size Num P_Sort M_Linkage S_Linkage M_Condense S_Condense M_Select M_Labels S_Labels
  M_Epsilon M_Simplify M_Pipeline S_Pipeline P_EpsilonTop P_Pipeline P_PipelineTop P_PipelineRun P_PipelineEx S_Equi P_Equi P_Determined.
Import ListNotations.
Local Open Scope nat_scope.

Lemma Qcleb_ext a b c d : ((a <= b)%Qc <-> (c <= d)%Qc) -> Qcleb a b = Qcleb c d.
Proof.
  intro H. destruct (Qcleb a b) eqn:E1, (Qcleb c d) eqn:E2; auto.
  - apply Qcleb_le in E1. apply H in E1. apply Qcleb_le in E1. congruence.
  - apply Qcleb_le in E2. apply H in E2. apply Qcleb_le in E2. congruence.
Qed.

Section Scale.
  Variable c : Qc.
  Hypothesis Hc : (0 < c)%Qc.
  Lemma c_ne : c <> 0%Qc.
  Proof. intro E. rewrite E in Hc. now apply Qclt_not_eq in Hc. Qed.
  Lemma cinv_pos : (0 < / c)%Qc.
  Proof. now apply Qcinv_pos. Qed.
  Lemma mul_le x y : (c * x <= c * y)%Qc <-> (x <= y)%Qc.
  Proof.
    rewrite !(Qcmult_comm c). split; intro H.
    - now apply (Qcmult_lt_0_le_reg_r _ _ c).
    - apply Qcmult_le_compat_r; auto. now apply Qclt_le_weak.
  Qed.
  Lemma mul_leb x y : Qcleb (c * x)%Qc (c * y)%Qc = Qcleb x y.
  Proof. apply Qcleb_ext, mul_le. Qed.
  Lemma mul_leb0 x : Qcleb (c * x)%Qc 0 = Qcleb x 0.
  Proof. rewrite <- (mul_leb x 0). f_equal. ring. Qed.
  Lemma mul_0leb x : Qcleb 0 (c * x)%Qc = Qcleb 0 x.
  Proof. rewrite <- (mul_leb 0 x). f_equal. ring. Qed.
  Lemma scale_le (x y : QInf) : wle (scale c x) (scale c y) = wle x y.
  Proof. destruct x, y; simpl; auto. apply mul_leb. Qed.
  Lemma scale_zero : scale c (Some 0%Qc) = Some 0%Qc.
  Proof. simpl. f_equal. ring. Qed.
End Scale.

Lemma inv_mul c d : (0 < c)%Qc -> (0 < d)%Qc -> (/ (c * d) = / c * / d)%Qc.
Proof. intros Hc Hd. field. split; now apply c_ne. Qed.

Section Units.
  Variable c : Qc.
  Hypothesis Hc : (0 < c)%Qc.
  Notation c' := (/ c)%Qc.
  Notation Hc' := (cinv_pos c Hc).

  Lemma lambda_scale (d : QInf) : hdbscan_lambda_value (scale c d) = scale c' (hdbscan_lambda_value d).
  Proof.
    destruct d as [d|]; simpl.
    - rewrite (mul_leb0 c Hc). destruct (Qcleb d 0) eqn:E; simpl; auto. apply Qcleb_gt in E. now rewrite inv_mul.
    - f_equal. ring.
  Qed.

  Definition scale_score (x : xq) : xq := match x with Fin q => Fin (c' * q)%Qc | _ => x end.

  Lemma score_add x y : xadd (scale_score x) (scale_score y) = scale_score (xadd x y).
  Proof. destruct x, y; simpl; auto. f_equal. ring. Qed.
  Lemma score_opp x : xopp (scale_score x) = scale_score (xopp x).
  Proof. destruct x; simpl; auto. f_equal. ring. Qed.
  Lemma score_mul l z : xmul (scale c' l) z = scale_score (xmul l z).
  Proof. destruct l; simpl; [f_equal; ring|]. now destruct (Qcleb z 0), (Qcleb 0 z). Qed.
  Lemma score_lt x y : xlt (scale_score x) (scale_score y) = xlt x y.
  Proof. destruct x, y; simpl; auto. now rewrite (mul_leb c' Hc'). Qed.

  Lemma div_scale (a b : QInf) : la_div ExactLam (scale c' a) (scale c' b) = la_div ExactLam a b.
  Proof.
    destruct a as [a|], b as [b|]; simpl; auto. f_equal. destruct (Qc_eq_dec b 0) as [->|Hb].
    - replace (c' * 0)%Qc with 0%Qc by ring. change (/ 0)%Qc with 0%Qc. unfold Qcdiv. change (/ 0)%Qc with 0%Qc. ring.
    - field. split; auto. now apply c_ne.
  Qed.

  Lemma inv_inv : (/ / c = c)%Qc.
  Proof.
    assert (H : (/ / c * / c = 1)%Qc) by (apply Qcmult_inv_l, c_ne, cinv_pos, Hc).
    rewrite <- (Qcmult_1_r (/ / c)), <- (Qcmult_inv_l c (c_ne c Hc)), Qcmult_assoc, H. ring.
  Qed.
  Lemma lt_eps_scale e l : (0 < e)%Qc -> exact_lt_eps (c * e) (scale c' l) = exact_lt_eps e l.
  Proof.
    intro He. destruct l as [l|]; simpl.
    - rewrite (mul_leb0 c' Hc'). destruct (Qcleb l 0) eqn:El; auto. apply Qcleb_gt in El. f_equal.
      rewrite inv_mul by (auto using cinv_pos). rewrite inv_inv. now apply mul_leb.
    - now rewrite (mul_leb0 c Hc).
  Qed.
  Lemma persists_scale p a b : exact_persists (c' * p) (scale c' a) (scale c' b) = exact_persists p a b.
  Proof.
    destruct a as [a|], b as [b|]; simpl; auto. rewrite <- (mul_leb c' Hc' p). f_equal. ring.
  Qed.
  Lemma mul_pos e : (0 < e)%Qc -> (0 < c * e)%Qc.
  Proof. intro He. apply Qcleb_gt. rewrite (mul_leb0 c Hc). now apply Qcleb_gt. Qed.

  Section Tree.
    Context {Sz : SOrd} (to_q : Sz -> Qc).
    Variables (g : nat -> QInf) (mcs : Sz) (m : selection_method) (a : bool) (e p : Qc).
    Notation st := (exact_settings mcs m a e p).
    Notation st' := (exact_settings mcs m a (c * e)%Qc (c' * p)%Qc).
    Notation AA := (ExactArith Sz to_q).
    Definition stable_by (ct : list (crow QInf Sz)) : list (crow QInf Sz) := nsort c_parent ct.
    Lemma stable_sorts : sorts_by_parent stable_by.
    Proof. intro ct. split; [apply Permutation_sym, nsort_perm|apply nsort_sorted]. Qed.
    Lemma tree_scale wts n L :
      clusters_from_linkage_tree hdbscan_lambda_value ExactLam AA (fun i => scale c' (g i)) stable_by st' wts n (map (map_lrow (scale c)) L) =
      map_ok (map_run (scale c') (fun v => v)) (clusters_from_linkage_tree hdbscan_lambda_value ExactLam AA g stable_by st wts n L).
    Proof.
      apply rel_map.
      assert (K := linkage_tree_map (W := QInf) (W' := QInf) (V := QInf) (V' := QInf) (scale c) (scale c') (scale_le c' Hc')
        hdbscan_lambda_value hdbscan_lambda_value ExactLam ExactLam AA AA scale_score (fun v => v) lambda_scale).
      specialize (K (eq_sym (scale_zero c')) eq_refl eq_refl).
      match goal with |- rel_res ?R _ _ => assert (HR : forall x y, run_rel (scale c') (fun v : QInf => v) (Sz := Sz) x y -> R x y) end.
      { intros [[x1 x2] x3] y ->. cbn. reflexivity. }
      assert (KK : rel_res (run_rel (scale c') (fun v : QInf => v))
        (clusters_from_linkage_tree hdbscan_lambda_value ExactLam AA g stable_by st wts n L)
        (clusters_from_linkage_tree hdbscan_lambda_value ExactLam AA (fun i => scale c' (g i)) stable_by st' wts n (map (map_lrow (scale c)) L))).
      { apply K; clear K; auto.
        - intros [v|]; reflexivity.
        - apply div_scale.
        - cbn. f_equal. ring.
        - apply score_add.
        - apply score_opp.
        - intros l z. apply score_mul.
        - apply score_lt.
        - intro ct. apply nsort_map. reflexivity.
        - cbn [cluster_selection_epsilon exact_settings]. rewrite (mul_leb0 c Hc). destruct (Qcleb e 0) eqn:E; auto. apply Qcleb_gt in E. split.
          + intro l. now apply lt_eps_scale.
          + cbn. f_equal. now apply inv_mul.
        - cbn [cluster_selection_persistence exact_settings]. rewrite (mul_leb0 c' Hc'). destruct (Qcleb p 0); auto. intros x y. apply persists_scale. }
      destruct (clusters_from_linkage_tree hdbscan_lambda_value ExactLam AA g stable_by st wts n L),
        (clusters_from_linkage_tree hdbscan_lambda_value ExactLam AA (fun i => scale c' (g i)) stable_by st' wts n (map (map_lrow (scale c)) L)); cbn [rel_res] in *; auto.
    Qed.
  End Tree.
End Units.
