(** Counting edges of forests; minimality of the total weight. *)
From Coq Require Import List Arith Lia Bool Permutation Sorted ZArith.
From Verif Require Import Prelude Order Graph UF S_Kruskal.
Import ListNotations.

Section Count.
  Context {W : Type}.
  Implicit Types E F M : list (edge W).

  Lemma in_range_app n E F : in_range n (E ++ F) <-> in_range n E /\ in_range n F.
  Proof.
    unfold in_range. split.
    - intro H. split; intros e He; apply H, in_app_iff; auto.
    - intros [H1 H2] e He. apply in_app_iff in He as [He|He]; auto.
  Qed.

  Lemma in_range_perm n E F : Permutation E F -> in_range n E -> in_range n F.
  Proof. intros HP H e He. apply H. eapply Permutation_in; [apply Permutation_sym|]; eauto. Qed.

  Lemma acyclic_filter (P : edge W -> bool) E : acyclic E -> acyclic (filter P E).
  Proof.
    induction E as [|e E IH]; intro H; simpl; auto.
    apply acyclic_tail in H as [H1 H2]. destruct (P e); auto.
    apply acyclic_cons; auto. intro K. apply H2. eapply connected_incl; eauto.
    intros f Hf. now apply filter_In in Hf.
  Qed.

  (** A forest realised by a parent array. *)
  Lemma forest_uf n F :
    acyclic F -> in_range n F ->
    exists p, uf_wf n p /\ classes n p (connected F) /\ nroots n p + length F = n.
  Proof.
    induction F as [|e F IH] using rev_ind; intros HA HR.
    - exists (fun x => x). split; [apply id_wf|]. split.
      + intros x y _ _. rewrite connected_nil. apply same_id.
      + rewrite nroots_id. simpl. lia.
    - assert (HA' : acyclic (e :: F)) by
        (eapply acyclic_perm; [apply Permutation_sym, Permutation_cons_append|]; auto).
      apply acyclic_tail in HA' as [HA1 HA2].
      apply in_range_app in HR as [HR1 HR2].
      destruct (IH HA1 HR1) as (p & Hwf & Hc & Hn).
      destruct (HR2 e) as [Hs Hd]; [simpl; auto|].
      destruct (proj2 Hwf _ Hs) as [a Ha]. destruct (proj2 Hwf _ Hd) as [b Hb].
      assert (Hab : a <> b).
      { intros ->. apply HA2. apply Hc; auto. exists b; auto. }
      destruct (classes_link n p F e a b) as [H1 H2]; auto.
      exists (upd p a b). split; auto. split; auto.
      rewrite app_length. simpl.
      pose proof (nroots_link n p a b (Root_range n p _ _ (proj1 Hwf) Ha Hs)
                    (Root_root _ _ _ Ha) (not_eq_sym Hab)). lia.
  Qed.

  Lemma nroots_mono n p q :
    uf_wf n p -> uf_wf n q ->
    (forall x y, x < n -> y < n -> same p x y -> same q x y) -> nroots n q <= nroots n p.
  Proof.
    intros Hp Hq H. unfold nroots. rewrite !countp_filter.
    set (f := fun x => match walk n p x with Ok r => r | Err _ => 0 end).
    assert (Hf : forall x, x < n -> Root p x (f x) /\ f x < n).
    { intros x Hx. unfold f. destruct (walk_ok n p x n Hp Hx (le_n _)) as (r & -> & H1 & H2). auto. }
    rewrite <- (map_length f (filter (fun x => q x =? x) (seq 0 n))).
    apply NoDup_incl_length.
    - apply NoDup_map_inj; [apply NoDup_filter, seq_NoDup|].
      intros x y Hx Hy E. apply filter_In in Hx as [Hx Qx]. apply filter_In in Hy as [Hy Qy].
      apply in_seq in Hx. apply in_seq in Hy. apply Nat.eqb_eq in Qx, Qy.
      destruct (H x y) as (r & H1 & H2); try lia.
      { exists (f x). split; [apply Hf; lia|]. rewrite E. apply Hf. lia. }
      rewrite <- (Root_fix _ _ _ H1 Qx). now apply (Root_fix _ _ _ H2).
    - intros z Hz. apply in_map_iff in Hz as (x & <- & Hx). apply filter_In in Hx as [Hx _].
      apply in_seq in Hx. destruct (Hf x) as [H1 H2]; [lia|].
      apply filter_In. split; [apply in_seq; lia|]. apply Nat.eqb_eq. eapply Root_root; eauto.
  Qed.

  (** A forest that connects no more than another one has no more edges. *)
  Lemma forest_length_le n F M :
    acyclic F -> acyclic M -> in_range n F -> in_range n M ->
    (forall x y, connected F x y -> connected M x y) -> length F <= length M.
  Proof.
    intros AF AM RF RM H.
    destruct (forest_uf n F AF RF) as (p & Wp & Cp & Np).
    destruct (forest_uf n M AM RM) as (q & Wq & Cq & Nq).
    assert (nroots n q <= nroots n p); [|lia].
    apply nroots_mono; auto. intros x y Hx Hy K. apply Cq; auto. apply H. now apply Cp.
  Qed.
End Count.

Section Weight.
  Context {W : WOrd}.

  Lemma sorted_le_prefix (l : list W) i x :
    sorted_by (fun w => w) l -> nth_error l i = Some x ->
    i < countp (fun w => wle w x) l.
  Proof.
    revert i. induction l as [|y l IH]; intros [|i] Hs Hi; simpl in *; try discriminate.
    - injection Hi as ->. rewrite wle_refl. lia.
    - inversion_clear Hs as [|? ? Hs' Hf]. rewrite Forall_forall in Hf.
      rewrite (Hf x) by (eapply nth_error_In; eauto). specialize (IH i Hs' Hi). lia.
  Qed.

  Lemma sorted_gt_suffix (l : list W) i x t :
    sorted_by (fun w => w) l -> nth_error l i = Some x -> wle x t = false ->
    countp (fun w => wle w t) l <= i.
  Proof.
    revert i. induction l as [|y l IH]; intros [|i] Hs Hi Hx; simpl in *; try discriminate.
    - injection Hi as ->. rewrite Hx. inversion_clear Hs as [|? ? Hs' Hf].
      rewrite Forall_forall in Hf. simpl.
      assert (E : countp (fun w => wle w t) l = 0); [|lia].
      apply countp_zero. intros z Hz. destruct (wle z t) eqn:E; auto.
      rewrite (wle_trans W x z t) in Hx; auto. 
    - inversion_clear Hs as [|? ? Hs' Hf]. specialize (IH i Hs' Hi Hx). destruct (wle y t); lia.
  Qed.

  Lemma Forall2_nth_error {A B} (R : A -> B -> Prop) l1 : forall l2,
    length l1 = length l2 ->
    (forall i a b, nth_error l1 i = Some a -> nth_error l2 i = Some b -> R a b) ->
    Forall2 R l1 l2.
  Proof.
    induction l1 as [|a l1 IH]; intros [|b l2] HL H; try discriminate; constructor.
    - apply (H 0); auto.
    - apply IH; [simpl in HL; lia|]. intros i x y Hx Hy. apply (H (S i)); auto.
  Qed.

  Lemma sorted_pointwise (a b : list W) :
    sorted_by (fun w => w) a -> sorted_by (fun w => w) b -> length a = length b ->
    (forall t, countp (fun w => wle w t) b <= countp (fun w => wle w t) a) ->
    Forall2 (fun x y => wle x y = true) a b.
  Proof.
    intros Ha Hb HL H. apply Forall2_nth_error; auto.
    intros i x y Hx Hy. destruct (wle x y) eqn:E; auto. exfalso.
    pose proof (sorted_le_prefix b i y Hb Hy) as H1.
    pose proof (sorted_gt_suffix a i x y Ha Hx E) as H2.
    specialize (H y). lia.
  Qed.

  Lemma countp_map {A B} (f : A -> B) p l : countp p (map f l) = countp (fun x => p (f x)) l.
  Proof. induction l; simpl; auto. Qed.

  Lemma countp_passing (P : W -> bool) (E : list (edge W)) :
    countp P (map ewt E) = length (passing P E).
  Proof. rewrite countp_map, countp_filter. reflexivity. Qed.

  (** Among all spanning forests, one with the bottleneck property has the
      pointwise smallest weights. *)
  Lemma msf_pointwise n (E M F : list (edge W)) :
    in_range n E -> min_spanning_forest E M ->
    incl F E -> acyclic F -> (forall x y, connected F x y <-> connected E x y) ->
    Forall2 (fun x y => wle x y = true) (sorted_weights M) (sorted_weights F).
  Proof.
    intros HR [HI HA HL] FI FA FC.
    assert (RM : in_range n M) by (eapply in_range_incl; eauto).
    assert (RF : in_range n F) by (eapply in_range_incl; eauto).
    assert (MC : forall x y, connected M x y <-> connected E x y).
    { intros x y. specialize (HL _ threshold_all x y). now rewrite !passing_all in HL. }
    apply sorted_pointwise; try apply isort_sorted.
    - unfold sorted_weights. rewrite !isort_length, !map_length. apply Nat.le_antisymm.
      + apply (forest_length_le n); auto. intros x y. rewrite MC, FC. auto.
      + apply (forest_length_le n); auto. intros x y. rewrite MC, FC. auto.
    - intro t. unfold sorted_weights.
      rewrite <- !(countp_perm _ _ _ (isort_perm _ _)), !countp_passing.
      apply (forest_length_le n).
      + apply acyclic_filter; auto.
      + apply acyclic_filter; auto.
      + eapply in_range_incl; [|apply RF]. intros e He. now apply in_passing in He.
      + eapply in_range_incl; [|apply RM]. intros e He. now apply in_passing in He.
      + intros x y K. apply (HL _ (threshold_le t)). eapply connected_incl; eauto.
        intros e He. apply in_passing in He as [H1 H2]. apply in_passing. auto.
  Qed.

  Lemma total_perm (cost : W -> Z) l1 l2 : Permutation l1 l2 -> total cost l1 = total cost l2.
  Proof. unfold total. induction 1; simpl; lia. Qed.

  Lemma total_pointwise (cost : W -> Z) l1 l2 :
    (forall x y, wle x y = true -> (cost x <= cost y)%Z) ->
    Forall2 (fun x y => wle x y = true) l1 l2 -> (total cost l1 <= total cost l2)%Z.
  Proof.
    intros Hm. unfold total. induction 1 as [|x y l1 l2 Hxy _ IH]; simpl; [lia|].
    specialize (Hm x y Hxy). lia.
  Qed.

  Lemma total_sorted (cost : W -> Z) (E : list (edge W)) :
    total cost (sorted_weights E) = total cost (map ewt E).
  Proof. apply total_perm, Permutation_sym, isort_perm. Qed.
End Weight.
