(** Identical samples. *)
From Coq Require Import List Arith Lia Bool Permutation ZArith.
From Verif Require Import Prelude Order Graph Size Num M_Linkage S_Linkage M_Condense S_Condense M_Select M_Labels M_Pipeline S_Pipeline
  P_UniqueTree M_Estimator S_Estimator P_Estimator P_EstimatorEx S_Dbscan P_Dbscan S_Level P_LevelTop S_Join P_JoinTop.
Import ListNotations.
Local Open Scope nat_scope.

Section Twins.
  Context {W : WOrd} {Row : Type}.
  Variables (finite : Row -> bool) (dist : Row -> Row -> W) (X : list Row) (ms : nat) (a : Row) (p q : nat).
  Hypothesis Self : forall a b, wle (dist a a) (dist a b) = true.
  Hypothesis Hp : nth_error X p = Some a.
  Hypothesis Hq : nth_error X q = Some a.
  Hypothesis Fa : finite a = true.
  Notation D := (row_distance finite dist X).
  Notation n := (length X).
  Notation core eps := (core_sample D n ms eps).
  Notation dc eps := (density_connected D n ms eps).

  Lemma twin_p : p < n.
  Proof. apply nth_error_Some. rewrite Hp. discriminate. Qed.
  Lemma twin_row j : D p j = D q j.
  Proof. unfold row_distance. now rewrite Hp, Hq. Qed.
  Lemma twin_column j : D j p = D j q.
  Proof. unfold row_distance. now rewrite Hp, Hq. Qed.
  Lemma twin_self : D p p = dist a a /\ D p q = dist a a.
  Proof. unfold row_distance. rewrite Hp, Hq, Fa. auto. Qed.
  Lemma twin_near j eps : wlt (D p j) eps = true -> wlt (dist a a) eps = true.
  Proof.
    unfold row_distance. rewrite Hp, Fa. destruct (nth_error X j) as [b|]; [|unfold wlt; now rewrite winf_top].
    destruct (finite b); cbn [andb]; [intro; eapply wle_lt_trans; eauto|unfold wlt; now rewrite winf_top].
  Qed.
  Lemma alone eps y : ~ (core eps p /\ wlt (dist a a) eps = true) -> dc eps p y -> y = p.
  Proof.
    intros H K. induction K as [|y z K IH Hy Hz Cy Cz L]; auto. exfalso. subst y. apply H. split; auto. eapply twin_near; eauto.
  Qed.
End Twins.

Section Pair.
  Context {W : WOrd} {Row : Type}.
  Variables (finite : Row -> bool) (dist : Row -> Row -> W) (X : list Row) (ms : nat) (a : Row) (p q : nat).
  Hypothesis Self : forall a b, wle (dist a a) (dist a b) = true.
  Hypothesis Hp : nth_error X p = Some a.
  Hypothesis Hq : nth_error X q = Some a.
  Hypothesis Fa : finite a = true.
  Notation D := (row_distance finite dist X).
  Notation n := (length X).
  Notation core eps := (core_sample D n ms eps).
  Notation dc eps := (density_connected D n ms eps).

  Lemma twin_core eps : core eps p -> core eps q.
  Proof.
    intros [H|(near & N & L & H)]; [now left|]. right. set (swap := fun j => if j =? q then p else if j =? p then q else j).
    assert (Hsw : forall j, In j near -> j <> p) by (intros j Hj; now apply H).
    exists (map swap near). split; [|split; [now rewrite map_length|]].
    - apply NoDup_map_in; auto. intros x y Hx Hy. unfold swap. apply Hsw in Hx, Hy. destruct (Nat.eqb_spec x q), (Nat.eqb_spec y q), (Nat.eqb_spec x p), (Nat.eqb_spec y p); subst; congruence.
    - intros j Hj. apply in_map_iff in Hj as (k & <- & Hk). destruct (H k Hk) as (K1 & K2 & K3). unfold swap.
      pose proof (twin_p X a p Hp) as Pp. destruct (Nat.eqb_spec k q) as [->|Hne].
      + split; auto. split; auto. destruct (twin_self finite dist X a p q Hp Hq Fa) as [_ E1]. destruct (twin_self finite dist X a q p Hq Hp Fa) as [_ E2]. congruence.
      + destruct (Nat.eqb_spec k p) as [->|Hne']; [congruence|]. split; auto. split; auto. now rewrite <- (twin_row finite dist X a p q Hp Hq).
  Qed.
  Lemma twin_joined eps : core eps p -> wlt (dist a a) eps = true -> dc eps p q.
  Proof.
    intros C H. eapply dc_next; [constructor|apply (twin_p X a p Hp)|apply (twin_p X a q Hq)|auto|now apply twin_core|].
    now rewrite (proj2 (twin_self finite dist X a p q Hp Hq Fa)).
  Qed.
End Pair.

Lemma dc_trans {W : WOrd} (D : nat -> nat -> W) n ms eps x y z : density_connected D n ms eps x y -> density_connected D n ms eps y z -> density_connected D n ms eps x z.
Proof. intros H K. induction K as [|u v K IH]; auto. eapply dc_next; eauto. Qed.

Section Gather.
  Context {W : WOrd} {Row : Type}.
  Variables (finite : Row -> bool) (dist : Row -> Row -> W) (X : list Row) (ms : nat) (a : Row) (p q : nat).
  Hypothesis Self : forall a b, wle (dist a a) (dist a b) = true.
  Hypothesis Hp : nth_error X p = Some a.
  Hypothesis Hq : nth_error X q = Some a.
  Hypothesis Fa : finite a = true.
  Notation D := (row_distance finite dist X).
  Notation n := (length X).

  Lemma twin_gathered k eps : 2 <= k -> gathered D n ms k eps p -> gathered D n ms k eps q.
  Proof.
    intros Hk (xs & N & L & U).
    assert (HC : exists y, In y xs /\ y <> p).
    { destruct xs as [|x [|y l]]; cbn [length] in L; try lia. inversion_clear N as [|? ? N1 N2]. destruct (Nat.eq_dec x p) as [->|Hne].
      - exists y. split; [cbn; auto|]. intros ->. apply N1. now left.
      - exists x. split; [now left|auto]. }
    destruct HC as (y & Hy & Hne). destruct (U y Hy) as [_ K].
    assert (Hc : core_sample D n ms eps p /\ wlt (dist a a) eps = true).
    { clear -K Hne Self Hp Fa. induction K as [|y z K IH Ly Lz Cy Cz Lw]; [congruence|].
      destruct (Nat.eq_dec y p) as [->|Hn]; auto. split; auto. eapply twin_near; eauto. }
    destruct Hc as [C Hw]. assert (Kq : density_connected D n ms eps q p).
    { eapply (twin_joined finite dist X ms a q p); eauto. eapply (twin_core finite dist X ms a p q); eauto. }
    exists xs. split; auto. split; auto. intros z Hz. destruct (U z Hz). split; auto. eapply dc_trans; eauto.
  Qed.
End Gather.

Section Fit.
  Context {W V : WOrd} {Row : Type}.
  Variables (lam : W -> V) (LA : LamArith V) (garbage : nat -> V) (zero : W) (dist : Row -> Row -> W) (ms : nat)
    (finite : Row -> bool) (set_list : list nat -> list nat) (X : list Row) (A : Arith V NatSize)
    (by_parent : list (crow V NatSize) -> list (crow V NatSize)) (st : settings V NatSize) (r : fitted W V NatSize).
  Hypothesis Hset : forall l, Permutation (set_list l) l.
  Hypothesis HK : setting_ok lam LA A by_parent st.
  Hypothesis Sym : forall a b, dist a b = dist b a.
  Hypothesis Self : forall a b, wle (dist a a) (dist a b) = true.
  Hypothesis Least : forall a b, wle zero (dist a b) = true.
  Hypothesis Hn : (if forallb finite X then 2 else 3) <= length (filter finite X).
  Hypothesis E : fit (la_zero LA) finite set_list (fast_hdbscan lam LA garbage (pairs_mst zero dist ms) A by_parent st) X = Ok r.
  Variables (a : Row) (p q : nat).
  Hypothesis Hp : nth_error X p = Some a.
  Hypothesis Hq : nth_error X q = Some a.
  Hypothesis Fa : finite a = true.
  Notation D := (row_distance finite dist X).

  Theorem twins_cut eps labels : dbscan_clustering r eps ms = Ok labels -> 2 <= ms \/ wlt (dist a a) eps = true ->
    nth p labels (-2)%Z = nth q labels (-2)%Z.
  Proof.
    intros EL Hw. destruct (fit_cut W V Row lam LA garbage zero dist ms finite set_list X A by_parent st r eps Hset HK Sym Self Least Hn E) as (labels' & EL' & DS).
    assert (labels' = labels) by congruence. subst labels'. pose proof (twin_p X a p Hp) as Pp. pose proof (twin_p X a q Hq) as Pq.
    assert (Dec : forall x, x < length X -> nth x labels (-2)%Z = (-1)%Z \/ (0 <= nth x labels (-2))%Z).
    { intros x Hx. destruct (ds_size _ _ _ _ _ DS x Hx) as (xs & _ & _ & S1 & S2). destruct (le_lt_dec ms (length xs)); auto. }
    assert (HJ : forall u v, nth_error X u = Some a -> nth_error X v = Some a -> (0 <= nth u labels (-2))%Z -> nth u labels (-2)%Z = nth v labels (-2)%Z).
    { intros u v Hu Hv Lu. pose proof (twin_p X a u Hu) as Pu. pose proof (twin_p X a v Hv) as Pv. apply (ds_same _ _ _ _ _ DS); auto.
      destruct (ds_size _ _ _ _ _ DS u Pu) as (xs & N & U & S1 & _). assert (Hl : ms <= length xs) by (destruct (le_lt_dec ms (length xs)); auto; lia).
      assert (Hc : (core_sample D (length X) ms eps u /\ wlt (dist a a) eps = true) \/ forall y, In y xs -> y = u).
      { destruct (le_lt_dec ms 1) as [Hm|Hm]; [left; split; [now left|destruct Hw; auto; lia]|].
        destruct xs as [|x [|y l]]; cbn [length] in Hl; try lia. inversion_clear N as [|? ? N1 N2].
        assert (HC : exists y', In y' (x :: y :: l) /\ y' <> u).
        { destruct (Nat.eq_dec x u) as [->|Hne]; [exists y; split; [cbn; auto|]; intros ->; apply N1; now left|exists x; split; [now left|auto]]. }
        destruct HC as (y' & Hy & Hne). apply U in Hy as [_ K]. left.
        clear -K Hne Self Hu Fa. induction K as [|y z K IH Ly Lz Cy Cz Lw]; [congruence|].
        destruct (Nat.eq_dec y u) as [->|Hn]; auto. split; auto. eapply twin_near; eauto. }
      destruct Hc as [[C Hd]|Hall]; [eapply twin_joined; eauto|].
      destruct (le_lt_dec ms 1) as [Hm|Hm]; [destruct Hw as [|Hd]; [lia|]; eapply twin_joined; eauto; now left|].
      exfalso. destruct xs as [|x [|y l]]; cbn [length] in Hl; try lia. inversion_clear N as [|? ? N1 N2]. apply N1.
      rewrite (Hall x), (Hall y) by (cbn; auto). now left. }
    destruct (Dec p Pp) as [Np|Np]; [|auto]. destruct (Dec q Pq) as [Nq|Nq]; [congruence|]. symmetry. auto.
  Qed.

  Theorem twins_density : min_cluster_size st <= length (filter finite X) -> cluster_selection_persistence st = None ->
    forall u v, In u (f_condensed r) -> In v (f_condensed r) -> c_child u = p -> c_child v = q ->
    wle (c_lam u) (c_lam v) = true /\ wle (c_lam v) (c_lam u) = true.
  Proof.
    intros Hm Hper u v Hu Hv Eu Ev.
    destruct (fit_density lam LA garbage zero dist ms finite set_list X A by_parent st r Hset HK Sym Self Least Hn Hm Hper E p a Hp Fa) as (d & Jd & _ & Ed).
    destruct (fit_density lam LA garbage zero dist ms finite set_list X A by_parent st r Hset HK Sym Self Least Hn Hm Hper E q a Hq Fa) as (e & Je & _ & Ee).
    rewrite (Ed u Hu Eu), (Ee v Hv Ev).
    assert (H2 : 2 <= min_cluster_size st).
    { pose proof (us_size _ _ (so_usable _ _ _ _ _ HK)) as H. unfold slt in H. cbn in H. apply negb_true_iff, Nat.leb_gt in H. exact H. }
    assert (G : forall eps, gathered D (length X) ms (min_cluster_size st) eps p <-> gathered D (length X) ms (min_cluster_size st) eps q).
    { intro eps. split; eapply twin_gathered; eauto. }
    assert (Je' : joins_at D (length X) ms (min_cluster_size st) p e) by (intro eps; rewrite G; apply Je).
    split; apply (so_antitone _ _ _ _ _ HK); eapply joins_at_le; eauto.
  Qed.

  Theorem twins_apart : ms < length (filter finite X) -> wle (lam winf) (la_zero LA) = true ->
    (forall a b, In a X -> In b X -> finite a = true -> finite b = true -> wlt (la_zero LA) (lam (dist a b)) = true) -> one_root st ->
    nth p (f_labels r) 0%Z <> (-1)%Z -> nth q (f_labels r) 0%Z <> nth p (f_labels r) 0%Z ->
    exists d, dense_group D (length X) ms (fun x => x < length X /\ nth x (f_labels r) 0%Z = nth p (f_labels r) 0%Z) d /\
      ~ (core_sample D (length X) ms d p /\ wlt (dist a a) d = true).
  Proof.
    intros Hms Hinf Hd Hroot Hl Hne. pose proof (twin_p X a p Hp) as Pp. pose proof (twin_p X a q Hq) as Pq.
    destruct (fit_groups lam LA garbage zero dist ms finite set_list X A by_parent st r Hset HK Sym Self Least Hn Hms Hinf Hd Hroot E p Pp Hl) as (d & G).
    exists d. split; auto. intros [C Hw]. destruct G as (_ & _ & G). apply (G d p q); auto; [apply wle_refl|intros [_ K]; congruence|].
    eapply twin_joined; eauto.
  Qed.
End Fit.
