(** C17 without ties: the edges themselves do not depend on the schedule. *)
From Coq Require Import List Arith Bool Lia Permutation.
From Verif Require Import Prelude Order Graph M_Kruskal M_Precomputed M_CoreGraph M_KruskalEntry M_TreeQuery M_Boruvka
  S_Kruskal S_Precomputed S_CoreGraph S_SpaceTree S_Boruvka P_BoruvkaTree P_BoruvkaAgree.
Import ListNotations.

Section Links.
  Context {W : WOrd}.

  Lemma same_weights_in (T1 T2 : list (edge W)) e1 :
    same_weights (sorted_weights T1) (sorted_weights T2) -> In e1 T1 ->
    exists e2, In e2 T2 /\ equiv (ewt e1) (ewt e2).
  Proof.
    intros H Hin.
    assert (H1 : In (ewt e1) (sorted_weights T1)).
    { unfold sorted_weights. eapply Permutation_in; [apply isort_perm|]. now apply in_map. }
    assert (G : forall l1 l2 : list W, Forall2 (fun x y => wle x y = true /\ wle y x = true) l1 l2 ->
                forall x, In x l1 -> exists y, In y l2 /\ equiv x y).
    { induction 1 as [|x y l1 l2 R F IH]; intros z Hz; [easy|].
      destruct Hz as [->|Hz]; [exists y; split; [now left|exact R]|].
      destruct (IH _ Hz) as (y' & I & E). exists y'. split; [now right|exact E]. }
    destruct (G _ _ H _ H1) as (y & Iy & E).
    unfold sorted_weights in Iy. eapply Permutation_in in Iy; [|apply Permutation_sym, isort_perm].
    apply in_map_iff in Iy. destruct Iy as (e2 & <- & I2). eauto.
  Qed.

  Lemma joined_sym (T : list (edge W)) i j : joined_by T i j -> joined_by T j i.
  Proof. intros (w & H). exists w. tauto. Qed.

  Lemma links_half n (T1 T2 : list (edge W)) (w1 w2 : nat -> nat -> W) :
    spanning_tree n T1 -> spanning_tree n T2 ->
    (forall e, In e T1 -> equiv (ewt e) (w1 (esrc e) (edst e))) ->
    (forall e, In e T2 -> equiv (ewt e) (w2 (esrc e) (edst e))) ->
    (forall i j, i < n -> j < n -> equiv (w1 i j) (w2 i j)) ->
    no_ties n w1 ->
    same_weights (sorted_weights T1) (sorted_weights T2) ->
    forall i j w, In (i, j, w) T1 -> joined_by T2 i j.
  Proof.
    intros S1 S2 E1 E2 EW NT SW i j w Hin.
    destruct (same_weights_in T1 T2 (i, j, w) SW Hin) as (((k & l) & w') & I2 & EQ).
    pose proof (E1 _ Hin) as A. pose proof (E2 _ I2) as B. simpl in *.
    assert (G : forall n (T : list (edge W)) e, spanning_tree n T -> In e T -> esrc e < n /\ edst e < n /\ esrc e <> edst e).
    { clear. intros n T e ST Hin. destruct (st_range _ _ ST _ Hin) as [? ?]. repeat split; auto.
      intros Q. apply in_split in Hin. destruct Hin as (l1 & l2 & ->).
      pose proof (st_acyclic _ _ ST) as A.
      apply (acyclic_perm _ (e :: l1 ++ l2)) in A; [|apply Permutation_sym, Permutation_middle].
      apply acyclic_tail in A. destruct A as [_ A]. apply A. rewrite Q. apply connected_refl. }
    destruct (G _ _ _ S1 Hin) as (N1 & N2 & D1). destruct (G _ _ _ S2 I2) as (N3 & N4 & D2). simpl in *.
    destruct (NT i j k l) as [[-> ->]|[-> ->]]; try tauto.
    - eapply equiv_trans; [apply equiv_sym; exact A|].
      eapply equiv_trans; [exact EQ|]. eapply equiv_trans; [exact B|]. apply equiv_sym. apply EW; tauto.
    - exists w'. now left.
    - exists w'. now right.
  Qed.
End Links.

Lemma tree_boruvka_links (W : WOrd) t1 t2 n (rd lb1 lb2 : nat -> nat -> W) zero root mode1 mode2 ms :
  tree_shape t1 n -> lower_bounds t1 rd lb1 -> tree_shape t2 n -> lower_bounds t2 rd lb2 ->
  (forall i j, i < n -> j < n -> rd i j = rd j i) ->
  (forall i j, i < n -> j < n -> wfinite (rd i j) = true) ->
  wfinite zero = true -> (forall i, i < n -> wle (rd i i) zero = true) ->
  (forall x y, wle x y = true -> wle (root x) (root y) = true) ->
  2 <= n -> ms < n -> threads_available mode1 -> threads_available mode2 ->
  equiv (root zero) zero ->
  (forall core, core_distances n (fun i j => root (rd i j)) (root zero) ms core ->
     no_ties n (mutual (fun i => nth i core winf) (fun i j => root (rd i j)))) ->
  exists T1 nbrs1 core1 T2 nbrs2 core2,
    parallel_boruvka t1 n rd lb1 zero root mode1 ms = Ok (T1, nbrs1, core1) /\
    parallel_boruvka t2 n rd lb2 zero root mode2 ms = Ok (T2, nbrs2, core2) /\
    forall i j, joined_by T1 i j <-> joined_by T2 i j.
Proof.
  intros A1 B1 A2 B2 Sym Fin Z Self Mono Hn Hm M1 M2 RZ NT.
  destruct (tree_boruvka_schedules W t1 t2 n rd lb1 lb2 zero root mode1 mode2 ms A1 B1 A2 B2 Sym Fin Z Self Mono Hn Hm M1 M2 RZ)
    as (T1 & nb1 & c1 & T2 & nb2 & c2 & E1 & E2 & C & _ & SW).
  destruct (tree_boruvka_reported t1 n rd lb1 zero root mode1 ms A1 B1 Sym Fin Z Self Mono Hn Hm M1)
    as (T1' & nb1' & c1' & E1' & CD1 & ST1 & (_ & W1) & _). rewrite E1 in E1'. injection E1' as <- <- <-.
  destruct (tree_boruvka_reported t2 n rd lb2 zero root mode2 ms A2 B2 Sym Fin Z Self Mono Hn Hm M2)
    as (T2' & nb2' & c2' & E2' & CD2 & ST2 & (_ & W2) & _). rewrite E2 in E2'. injection E2' as <- <- <-.
  exists T1, nb1, c1, T2, nb2, c2. split; [exact E1|]. split; [exact E2|].
  assert (EC : forall l1 l2 : list W, Forall2 equiv l1 l2 -> forall i, equiv (nth i l1 winf) (nth i l2 winf)).
  { induction 1; intros [|i]; simpl; auto; apply equiv_refl. }
  assert (EW : forall i j, equiv (mutual (fun i => nth i c1 winf) (fun i j => root (rd i j)) i j)
                                 (mutual (fun i => nth i c2 winf) (fun i j => root (rd i j)) i j)).
  { intros i j. unfold mutual. apply wmax_equiv; [apply wmax_equiv|]; auto; apply equiv_refl. }
  assert (SW' : same_weights (sorted_weights T2) (sorted_weights T1)).
  { clear -SW. unfold same_weights in *. induction SW; constructor; tauto. }
  intros i j. split; intros (w & [H|H]).
  - eapply links_half; [exact ST1|exact ST2|exact W1|exact W2| |apply NT; exact CD1|exact SW|exact H]. intros; apply EW.
  - apply joined_sym. eapply links_half; [exact ST1|exact ST2|exact W1|exact W2| |apply NT; exact CD1|exact SW|exact H]. intros; apply EW.
  - eapply links_half; [exact ST2|exact ST1|exact W2|exact W1| |apply NT; exact CD2|exact SW'|exact H]. intros; apply equiv_sym, EW.
  - apply joined_sym. eapply links_half; [exact ST2|exact ST1|exact W2|exact W1| |apply NT; exact CD2|exact SW'|exact H]. intros; apply equiv_sym, EW.
Qed.
