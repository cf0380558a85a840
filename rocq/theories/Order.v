(** Weights: any total preorder with a greatest element (infinity).  IEEE
    floating point numbers without NaN are an instance, so statements made for
    every [WOrd] are not affected by rounding. *)
From Coq Require Import List Arith Lia Bool Permutation Sorted ZArith.
From Verif Require Import Prelude.
Import ListNotations.

Record WOrd := {
  wcar :> Type;
  wle : wcar -> wcar -> bool;
  winf : wcar;
  wle_total : forall x y, wle x y = true \/ wle y x = true;
  wle_trans : forall x y z, wle x y = true -> wle y z = true -> wle x z = true;
  winf_top : forall x, wle x winf = true
}.
Arguments wle {_} _ _.
Arguments winf {_}.

(** [x < y]. *)
Definition wlt {W : WOrd} (x y : W) : bool := negb (wle y x).
(** numpy's [isfinite] on non-NaN, non-negative numbers: strictly below inf. *)
Definition wfinite {W : WOrd} (x : W) : bool := wlt x winf.
(** python's [max(x, y)] / numba's [max]: keeps [x] unless [y] is greater. *)
Definition wmax {W : WOrd} (x y : W) : W := if wlt x y then y else x.
(** [min(x, y)]: keeps [x] unless [y] is smaller. *)
Definition wmin {W : WOrd} (x y : W) : W := if wlt y x then y else x.

Section WFacts.
  Context {W : WOrd}.
  Implicit Types x y z : W.

  Lemma wle_refl x : wle x x = true.
  Proof. destruct (wle_total W x x); auto. Qed.

  Lemma wlt_nle x y : wlt x y = true <-> wle y x = false.
  Proof. unfold wlt. destruct (wle y x); simpl; split; congruence. Qed.

  Lemma wlt_false x y : wlt x y = false <-> wle y x = true.
  Proof. unfold wlt. destruct (wle y x); simpl; split; congruence. Qed.

  Lemma wlt_le x y : wlt x y = true -> wle x y = true.
  Proof.
    rewrite wlt_nle. intro H. destruct (wle_total W x y); congruence.
  Qed.

  Lemma wle_lt_trans x y z : wle x y = true -> wlt y z = true -> wlt x z = true.
  Proof.
    intros H1 H2. rewrite wlt_nle in *. destruct (wle z x) eqn:E; auto.
    rewrite (wle_trans W z x y) in H2; auto.
  Qed.

  Lemma wlt_le_trans x y z : wlt x y = true -> wle y z = true -> wlt x z = true.
  Proof.
    intros H1 H2. rewrite wlt_nle in *. destruct (wle z x) eqn:E; auto.
    rewrite (wle_trans W y z x) in H1; auto.
  Qed.

  Lemma wlt_irrefl x : wlt x x = false.
  Proof. apply wlt_false, wle_refl. Qed.

  Lemma wle_dec_lt x y : wle x y = true \/ wlt y x = true.
  Proof. rewrite wlt_nle. destruct (wle x y); auto. Qed.

  Lemma wmax_l x y : wle x (wmax x y) = true.
  Proof.
    unfold wmax. destruct (wlt x y) eqn:E; auto using wle_refl, wlt_le.
  Qed.
  Lemma wmax_r x y : wle y (wmax x y) = true.
  Proof.
    unfold wmax. destruct (wlt x y) eqn:E; auto using wle_refl.
    now apply wlt_false.
  Qed.
  Lemma wmax_lub x y z : wle x z = true -> wle y z = true -> wle (wmax x y) z = true.
  Proof. unfold wmax. destruct (wlt x y); auto. Qed.
  Lemma wmin_l x y : wle (wmin x y) x = true.
  Proof. unfold wmin. destruct (wlt y x) eqn:E; auto using wle_refl, wlt_le. Qed.
  Lemma wmin_r x y : wle (wmin x y) y = true.
  Proof.
    unfold wmin. destruct (wlt y x) eqn:E; auto using wle_refl. now apply wlt_false.
  Qed.
  Lemma wmin_glb x y z : wle z x = true -> wle z y = true -> wle z (wmin x y) = true.
  Proof. unfold wmin. destruct (wlt y x); auto. Qed.
  Lemma wmin_cases x y : wmin x y = x \/ wmin x y = y.
  Proof. unfold wmin. destruct (wlt y x); auto. Qed.
  Lemma wmax_cases x y : wmax x y = x \/ wmax x y = y.
  Proof. unfold wmax. destruct (wlt x y); auto. Qed.
End WFacts.

(** Stable insertion sort by a key; this is what [np.argsort(kind="stable")]
    and [mergesort] compute. *)
Section Sort.
  Context {W : WOrd} {A : Type} (key : A -> W).

  Fixpoint insert (x : A) (l : list A) : list A :=
    match l with
    | [] => [x]
    | y :: l' => if wle (key x) (key y) then x :: l else y :: insert x l'
    end.

  Fixpoint isort (l : list A) : list A :=
    match l with [] => [] | x :: l' => insert x (isort l') end.

  Definition sorted_by : list A -> Prop :=
    StronglySorted (fun x y => wle (key x) (key y) = true).

  Lemma insert_perm x l : Permutation (x :: l) (insert x l).
  Proof.
    induction l as [|y l IH]; simpl; auto.
    destruct (wle (key x) (key y)); auto.
    eapply perm_trans; [apply perm_swap|]. now constructor.
  Qed.

  Lemma isort_perm l : Permutation l (isort l).
  Proof.
    induction l as [|x l IH]; simpl; auto.
    eapply perm_trans; [|apply insert_perm]. now constructor.
  Qed.

  Lemma insert_sorted x l : sorted_by l -> sorted_by (insert x l).
  Proof.
    induction l as [|y l IH]; simpl; intro H.
    - repeat constructor.
    - destruct (wle (key x) (key y)) eqn:E.
      + constructor; auto. inversion_clear H as [|? ? Hs Hf]. constructor; auto.
        rewrite Forall_forall in *. intros z Hz. eapply wle_trans; eauto.
      + inversion_clear H as [|? ? Hs Hf]. constructor; [now apply IH|].
        rewrite Forall_forall in *. intros z Hz.
        apply (Permutation_in _ (Permutation_sym (insert_perm x l))) in Hz.
        destruct Hz as [<-|Hz]; auto.
        destruct (wle_total W (key x) (key y)); congruence.
  Qed.

  Lemma isort_sorted l : sorted_by (isort l).
  Proof. induction l; simpl; [constructor | now apply insert_sorted]. Qed.

  Lemma isort_length l : length (isort l) = length l.
  Proof. symmetry. apply Permutation_length, isort_perm. Qed.

  (** Stability: elements of equal key keep their order. *)
  Lemma insert_filter p x l :
    (forall y, p y = true -> p x = true -> wle (key x) (key y) = true) ->
    filter p (insert x l) = filter p (x :: l).
  Proof.
    intro H. induction l as [|y l IH]; auto.
    simpl insert. destruct (wle (key x) (key y)) eqn:E; auto.
    simpl in *. rewrite IH. destruct (p x) eqn:Ex; auto.
    destruct (p y) eqn:Ey; auto. rewrite (H y) in E; auto. discriminate.
  Qed.

  Lemma isort_stable p l :
    (forall x y, p x = true -> p y = true -> wle (key x) (key y) = true) ->
    filter p (isort l) = filter p l.
  Proof.
    intro H. induction l as [|x l IH]; auto.
    simpl isort. rewrite insert_filter by auto. simpl. rewrite IH. reflexivity.
  Qed.

  Lemma insert_head_sorted x l :
    Forall (fun y => wle (key x) (key y) = true) l -> insert x l = x :: l.
  Proof. intros H. destruct l as [|y l]; simpl; auto. inversion_clear H. now rewrite H0. Qed.

  Lemma isort_id l : sorted_by l -> isort l = l.
  Proof.
    induction 1 as [|x l Hs IH Hf]; simpl; auto. rewrite IH. now apply insert_head_sorted.
  Qed.
End Sort.

(** ** Concrete instances, used by the examples *)

(** Integers extended by +inf ([None]). *)
Definition zinf_le (x y : option Z) : bool :=
  match x, y with
  | _, None => true
  | None, Some _ => false
  | Some a, Some b => (a <=? b)%Z
  end.

Lemma zinf_total x y : zinf_le x y = true \/ zinf_le y x = true.
Proof. destruct x, y; simpl; auto. rewrite !Z.leb_le. lia. Qed.
Lemma zinf_trans x y z : zinf_le x y = true -> zinf_le y z = true -> zinf_le x z = true.
Proof. destruct x, y, z; simpl; auto; try discriminate. rewrite !Z.leb_le. lia. Qed.
Lemma zinf_top x : zinf_le x None = true.
Proof. now destruct x. Qed.

Definition ZInf : WOrd :=
  {| wcar := option Z; wle := zinf_le; winf := None;
     wle_total := zinf_total; wle_trans := zinf_trans; winf_top := zinf_top |}.

(** Naturals extended by a top, used as sort keys. *)
Definition ninf_le (x y : option nat) : bool :=
  match x, y with
  | _, None => true
  | None, Some _ => false
  | Some a, Some b => a <=? b
  end.

Lemma ninf_total x y : ninf_le x y = true \/ ninf_le y x = true.
Proof. destruct x, y; simpl; auto. rewrite !Nat.leb_le. lia. Qed.
Lemma ninf_trans x y z : ninf_le x y = true -> ninf_le y z = true -> ninf_le x z = true.
Proof. destruct x, y, z; simpl; auto; try discriminate. rewrite !Nat.leb_le. lia. Qed.
Lemma ninf_top x : ninf_le x None = true.
Proof. now destruct x. Qed.

Definition NInf : WOrd :=
  {| wcar := option nat; wle := ninf_le; winf := None;
     wle_total := ninf_total; wle_trans := ninf_trans; winf_top := ninf_top |}.

(** Stable sort by a key in [nat]. *)
Definition nsort {A} (key : A -> nat) : list A -> list A :=
  isort (W := NInf) (fun x => Some (key x)).

(** [np.unique] on non-negative integers: the distinct values, increasing. *)
Definition unique (l : list nat) : list nat := nsort (fun x => x) (nodup Nat.eq_dec l).
