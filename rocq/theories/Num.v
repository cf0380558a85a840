(** Exact numbers: rationals with infinity (distances, lambdas) and rationals
    with infinities and NaN (scores).  The code computes with float32/float64;
    rounding is not modelled here. *)
From Coq Require Import List Arith Lia Bool QArith Qcanon Lqa.
From Verif Require Import Prelude Order Size.
Import ListNotations.
Local Open Scope nat_scope.

(** ** Rationals with +inf *)
Definition qinf_le (x y : option Qc) : bool :=
  match x, y with
  | _, None => true
  | None, Some _ => false
  | Some a, Some b => Qcleb a b
  end.
Lemma qinf_total x y : qinf_le x y = true \/ qinf_le y x = true.
Proof. destruct x, y; simpl; auto. apply Qcleb_total. Qed.
Lemma qinf_trans x y z : qinf_le x y = true -> qinf_le y z = true -> qinf_le x z = true.
Proof. destruct x, y, z; simpl; auto; try discriminate. apply Qcleb_trans. Qed.
Lemma qinf_top x : qinf_le x None = true.
Proof. now destruct x. Qed.

Definition QInf : WOrd :=
  {| wcar := option Qc; wle := qinf_le; winf := None;
     wle_total := qinf_total; wle_trans := qinf_trans; winf_top := qinf_top |}.

(** cluster_trees.py:193-198 on exact numbers; 1/inf is 0. *)
Definition hdbscan_lambda_value (distance : QInf) : QInf :=
  match distance with
  | None => Some 0%Qc
  | Some d => if Qcleb d 0 then None else Some (/ d)%Qc
  end.

Lemma Qcleb_gt x y : Qcleb x y = false <-> (y < x)%Qc.
Proof.
  split.
  - intro H. destruct (Qclt_le_dec y x) as [?|H']; auto. apply Qcleb_le in H'. congruence.
  - intro H. destruct (Qcleb x y) eqn:E; auto. apply Qcleb_le in E.
    exfalso. apply (Qclt_not_le _ _ H E).
Qed.

Lemma Qcinv_pos d : (0 < d)%Qc -> (0 < / d)%Qc.
Proof.
  intro H. unfold Qclt in *. simpl. rewrite Qred_correct. now apply Qinv_lt_0_compat.
Qed.

Lemma Qcinv_anti x y : (0 < x)%Qc -> (x <= y)%Qc -> (/ y <= / x)%Qc.
Proof.
  intros Hx Hxy. assert (Hy : (0 < y)%Qc) by (eapply Qclt_le_trans; eauto).
  apply (Qcmult_lt_0_le_reg_r _ _ (x * y)%Qc).
  - rewrite <- (Qcmult_0_l y). apply Qcmult_lt_compat_r; auto.
  - replace (/ y * (x * y))%Qc with x.
    2:{ rewrite (Qcmult_comm x y), Qcmult_assoc, (Qcmult_comm (/ y) y), Qcmult_inv_r, Qcmult_1_l; auto.
        intro E. rewrite E in Hy. now apply Qclt_not_eq in Hy. }
    replace (/ x * (x * y))%Qc with y; auto.
    rewrite Qcmult_assoc, (Qcmult_comm (/ x) x), Qcmult_inv_r, Qcmult_1_l; auto.
    intro E. rewrite E in Hx. now apply Qclt_not_eq in Hx.
Qed.

Lemma hdbscan_lambda_antitone (x y : QInf) :
  wle x y = true -> wle (hdbscan_lambda_value y) (hdbscan_lambda_value x) = true.
Proof.
  destruct x as [x|], y as [y|]; simpl; try discriminate; intro H.
  - apply Qcleb_le in H. destruct (Qcleb x 0) eqn:Ex; simpl.
    + apply qinf_top.
    + apply Qcleb_gt in Ex. destruct (Qcleb y 0) eqn:Ey.
      * apply Qcleb_le in Ey. exfalso. apply (Qclt_not_le _ _ Ex). eapply Qcle_trans; eauto.
      * simpl. apply Qcleb_le, Qcinv_anti; auto.
  - destruct (Qcleb x 0) eqn:Ex; simpl; auto. apply Qcleb_gt in Ex.
    apply Qcleb_le, Qclt_le_weak, Qcinv_pos; auto.
  - apply Qcleb_le, Qcle_refl.
Qed.

(** ** Scores: rationals with both infinities and NaN *)
Inductive xq : Type := Fin (q : Qc) | PInf | MInf | NaN.

(** IEEE rules for sums, opposites and [<], without rounding. *)
Definition xadd (x y : xq) : xq :=
  match x, y with
  | Fin a, Fin b => Fin (a + b)%Qc
  | NaN, _ | _, NaN => NaN
  | PInf, MInf | MInf, PInf => NaN
  | PInf, _ | _, PInf => PInf
  | MInf, _ | _, MInf => MInf
  end.
Definition xopp (x : xq) : xq :=
  match x with Fin a => Fin (- a)%Qc | PInf => MInf | MInf => PInf | NaN => NaN end.
Definition xlt (x y : xq) : bool :=
  match x, y with
  | NaN, _ | _, NaN => false
  | Fin a, Fin b => negb (Qcleb b a)
  | MInf, MInf => false
  | MInf, _ => true
  | _, PInf => match x with PInf => false | _ => true end
  | _, _ => false
  end.
(** A non-negative lambda times a size: inf * 0 is NaN. *)
Definition xmul (l : option Qc) (s : Qc) : xq :=
  match l with
  | Some a => Fin (a * s)%Qc
  | None => if Qcleb s 0 then (if Qcleb 0 s then NaN else MInf) else PInf
  end.
