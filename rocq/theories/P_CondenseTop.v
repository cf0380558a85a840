(** Wrappers for the condensed tree theorems, and decidable checks for examples. *)
From Coq Require Import List Arith Lia Bool Permutation Sorted ZArith QArith Qcanon.
From Verif Require Import Prelude Order Graph UF Size Num M_Linkage S_Linkage P_Dendro M_Condense S_Condense P_Bfs P_Condense P_CondenseRun.
Import ListNotations.
Local Open Scope nat_scope.

Lemma c24 (W V : WOrd) (Sz : SOrd) n (L : list (lrow W Sz)) wt mcs mx (lam : W -> V) :
  dendrogram n L -> sizes_are n wt L -> heights_sorted L ->
  (forall x y, wle x y = true -> wle (lam y) (lam x) = true) ->
  (forall x, x < n -> sle mcs (wt x) = false) -> 2 <= n ->
  exists T, condense_tree L lam mcs mx wt = Ok T /\
    condensed n wt mcs T /\ faithful n L wt mcs mx lam T /\ (mx = None -> splits_once n T).
Proof.
  intros H1 H2 H3 H4 H5 H6. destruct (condense_ok n L wt mcs mx lam H1 H2 H3 H4 H5 H6) as (T & E & HT & HF & HO).
  exists T. split; auto. split; auto. split; auto. intro H. now apply HO.
Qed.

(** The rows of one cluster come in order of density. *)
Lemma c24_ascending (W V : WOrd) (Sz : SOrd) n (L : list (lrow W Sz)) wt mcs (lam : W -> V) T :
  dendrogram n L -> sizes_are n wt L -> heights_sorted L ->
  (forall x y, wle x y = true -> wle (lam y) (lam x) = true) ->
  (forall x, x < n -> sle mcs (wt x) = false) -> 2 <= n ->
  condense_tree L lam mcs None wt = Ok T -> ascending T.
Proof.
  intros H1 H2 H3 H4 H5 H6 ET. destruct (condense_ok n L wt mcs None lam H1 H2 H3 H4 H5 H6) as (T' & E & _ & _ & HO).
  rewrite E in ET. injection ET as <-. now apply HO.
Qed.

Lemma c23 (W V : WOrd) (Sz : SOrd) n (L : list (lrow W Sz)) wt mcs mx (lam : W -> V) :
  dendrogram n L -> sizes_are n wt L -> heights_sorted L ->
  (forall x y, wle x y = true -> wle (lam y) (lam x) = true) ->
  (forall x, x < n -> sle mcs (wt x) = false) -> 2 <= n ->
  exists T, condense_tree L lam mcs mx wt = Ok T /\
    Permutation (map c_child (sample_rows n T)) (seq 0 n) /\
    (forall r, In r (sample_rows n T) -> c_size r = sone).
Proof.
  intros H1 H2 H3 H4 H5 H6. destruct (c24 W V Sz n L wt mcs mx lam H1 H2 H3 H4 H5 H6) as (T & E & H & _).
  exists T. split; auto. split; [apply (ct_samples _ _ _ _ H)|].
  intros r Hr. apply filter_In in Hr as [Hr Hc]. apply Nat.ltb_lt in Hc. eapply ct_sample_size; eauto.
Qed.

(** Checks. *)
Definition dendrogram_check {W Sz} (n : nat) (L : list (lrow W Sz)) : bool :=
  (S (length L) =? n) &&
  forallb (fun ir => (l_a (snd ir) <? n + fst ir) && (l_b (snd ir) <? n + fst ir)) (combine (seq 0 (length L)) L) &&
  (if list_eq_dec Nat.eq_dec (nsort (fun x => x) (child_list L)) (seq 0 (2 * n - 2)) then true else false).

Lemma nth_error_combine_seq {A} (l : list A) : forall a i x, nth_error l i = Some x ->
  In (a + i, x) (combine (seq a (length l)) l).
Proof.
  induction l as [|y l IH]; intros a [|i] x H; simpl in *; try discriminate.
  - injection H as ->. left. f_equal. lia.
  - right. replace (a + S i) with (S a + i) by lia. now apply IH.
Qed.

Lemma dendrogram_checked {W Sz} n (L : list (lrow W Sz)) : dendrogram_check n L = true -> dendrogram n L.
Proof.
  unfold dendrogram_check. rewrite !andb_true_iff. intros [[H1 H2] H3]. constructor.
  - now apply Nat.eqb_eq.
  - intros i r Hi. rewrite forallb_forall in H2. specialize (H2 (0 + i, r) (nth_error_combine_seq L 0 i r Hi)).
    simpl in H2. apply andb_true_iff in H2 as [Ha Hb]. apply Nat.ltb_lt in Ha, Hb. auto.
  - destruct (list_eq_dec _ _ _) as [E|]; [|discriminate]. rewrite <- E.
    unfold nsort. apply isort_perm.
Qed.

Definition sizes_check {W} (n : nat) (L : list (lrow W NatSize)) : bool :=
  forallb (fun ir => (l_n (snd ir) =? length (lv n L (n + fst ir))) &&
                     (if list_eq_dec Nat.eq_dec (nodup Nat.eq_dec (lv n L (n + fst ir))) (lv n L (n + fst ir)) then true else false))
    (combine (seq 0 (length L)) L).

Lemma sizes_checked {W} n (L : list (lrow W NatSize)) : dendrogram_check n L = true ->
  sizes_check n L = true -> sizes_are (Sz := NatSize) n (fun _ => 1) L.
Proof.
  intros HD H i r Hi. apply dendrogram_checked in HD.
  unfold sizes_check in H. rewrite forallb_forall in H.
  specialize (H (0 + i, r) (nth_error_combine_seq L 0 i r Hi)). cbn [fst snd plus] in H.
  apply andb_true_iff in H as [H1 H2]. apply Nat.eqb_eq in H1.
  exists (lv n L (n + i)). split; [|split].
  - destruct (list_eq_dec _ _ _) as [E|]; [|discriminate]. rewrite <- E. apply NoDup_nodup.
  - intro x. symmetry. apply under_lv. exact (dg_down _ _ HD).
  - rewrite ssum_ones. auto.
Qed.

Lemma c23_refuted : exists (L : list (lrow QInf NatSize)) T,
    dendrogram 2 L /\ sizes_are (Sz := NatSize) 2 (fun _ => 1) L /\ heights_sorted L /\
    condense_tree L hdbscan_lambda_value (1 : NatSize) None (fun _ => 1) = Ok T /\
    ~ In 0 (map c_child T).
Proof.
  exists [{| l_a := 1; l_b := 0; l_d := Some (Q2Qc 1) : QInf; l_n := 2 : NatSize |}].
  eexists. split; [apply dendrogram_checked; reflexivity|].
  split; [apply sizes_checked; reflexivity|]. split; [repeat constructor|].
  split; [vm_compute; reflexivity|]. simpl. intros [|[]]; discriminate.
Qed.
