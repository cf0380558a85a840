(** Cluster sizes: numbers of samples, or sums of sample weights in exact
    arithmetic.  Nothing here models project code. *)
From Coq Require Import List Arith Lia Bool Permutation QArith Qcanon.
From Verif Require Import Prelude.
Import ListNotations.
Local Open Scope nat_scope.

Record SOrd := {
  scar :> Type;
  szero : scar;
  sone : scar;
  sadd : scar -> scar -> scar;
  sle : scar -> scar -> bool;
  sadd_comm : forall x y, sadd x y = sadd y x;
  sadd_assoc : forall x y z, sadd x (sadd y z) = sadd (sadd x y) z;
  sadd_0 : forall x, sadd szero x = x;
  sle_total : forall x y, sle x y = true \/ sle y x = true;
  sle_trans : forall x y z, sle x y = true -> sle y z = true -> sle x z = true;
  sadd_mono : forall x y z, sle x y = true -> sle (sadd x z) (sadd y z) = true
}.
Arguments szero {_}.
Arguments sone {_}.
Arguments sadd {_} _ _.
Arguments sle {_} _ _.

Definition slt {S : SOrd} (x y : S) : bool := negb (sle y x).
Definition ssum {S : SOrd} (l : list S) : S := fold_right sadd szero l.

Section SFacts.
  Context {S : SOrd}.
  Implicit Types x y z : S.

  Lemma sle_refl x : sle x x = true.
  Proof. destruct (sle_total S x x); auto. Qed.
  Lemma slt_false x y : slt x y = false <-> sle y x = true.
  Proof. unfold slt. destruct (sle y x); simpl; split; congruence. Qed.
  Lemma slt_true x y : slt x y = true <-> sle y x = false.
  Proof. unfold slt. destruct (sle y x); simpl; split; congruence. Qed.
  Lemma sadd_0_r x : sadd x szero = x.
  Proof. rewrite sadd_comm. apply sadd_0. Qed.

  Lemma ssum_app (l1 l2 : list S) : ssum (l1 ++ l2) = sadd (ssum l1) (ssum l2).
  Proof.
    induction l1 as [|x l1 IH]; simpl.
    - now rewrite sadd_0.
    - rewrite IH. apply sadd_assoc.
  Qed.

  Lemma ssum_perm (l1 l2 : list S) : Permutation l1 l2 -> ssum l1 = ssum l2.
  Proof.
    induction 1 as [|x l l' H IH|x y l|l l' l'' H1 IH1 H2 IH2]; simpl; try congruence.
    rewrite !sadd_assoc. f_equal. apply sadd_comm.
  Qed.
End SFacts.

(** Numbers of samples. *)
Lemma nat_sle_total x y : (x <=? y) = true \/ (y <=? x) = true.
Proof. rewrite !Nat.leb_le. lia. Qed.
Lemma nat_sle_trans x y z : (x <=? y) = true -> (y <=? z) = true -> (x <=? z) = true.
Proof. rewrite !Nat.leb_le. lia. Qed.
Lemma nat_sadd_mono x y z : (x <=? y) = true -> (x + z <=? y + z) = true.
Proof. rewrite !Nat.leb_le. lia. Qed.

Definition NatSize : SOrd :=
  {| scar := nat; szero := 0; sone := 1; sadd := Nat.add; sle := Nat.leb;
     sadd_comm := Nat.add_comm; sadd_assoc := Nat.add_assoc; sadd_0 := Nat.add_0_l;
     sle_total := nat_sle_total; sle_trans := nat_sle_trans; sadd_mono := nat_sadd_mono |}.

(** Weights in exact rational arithmetic. *)
Definition Qcleb (x y : Qc) : bool := Qle_bool x y.
Lemma Qcleb_le x y : Qcleb x y = true <-> (x <= y)%Qc.
Proof. unfold Qcleb, Qcle. apply Qle_bool_iff. Qed.
Lemma Qcleb_total x y : Qcleb x y = true \/ Qcleb y x = true.
Proof. rewrite !Qcleb_le. destruct (Qclt_le_dec x y); auto using Qclt_le_weak. Qed.
Lemma Qcleb_trans x y z : Qcleb x y = true -> Qcleb y z = true -> Qcleb x z = true.
Proof. rewrite !Qcleb_le. apply Qcle_trans. Qed.
Lemma Qcleb_mono x y z : Qcleb x y = true -> Qcleb (x + z)%Qc (y + z)%Qc = true.
Proof. rewrite !Qcleb_le. intro H. apply Qcplus_le_compat; auto. apply Qcle_refl. Qed.

Definition QcSize : SOrd :=
  {| scar := Qc; szero := 0%Qc; sone := 1%Qc; sadd := Qcplus; sle := Qcleb;
     sadd_comm := Qcplus_comm; sadd_assoc := Qcplus_assoc; sadd_0 := Qcplus_0_l;
     sle_total := Qcleb_total; sle_trans := Qcleb_trans; sadd_mono := Qcleb_mono |}.

Lemma ssum_ones (l : list nat) : @ssum NatSize (map (fun _ => 1) l) = length l.
Proof. induction l; simpl in *; auto. Qed.
