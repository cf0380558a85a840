(** Two condensed trees of one hierarchy differ only in the names of clusters. *)
From Coq Require Import List Arith Lia Bool Permutation.
From Verif Require Import Prelude Order Size Forest M_Linkage S_Linkage M_Condense S_Condense P_CTree P_Below P_NodePath P_Unique S_Unique.
Import ListNotations.

Lemma NoDup_map_in {A B} (f : A -> B) l : NoDup l -> (forall x y, In x l -> In y l -> f x = f y -> x = y) -> NoDup (map f l).
Proof.
  induction 1 as [|a l Ha Hl IH]; intro H; cbn; constructor.
  - intro K. apply in_map_iff in K as (b & E & Hb). rewrite (H b a) in Hb; simpl; auto.
  - apply IH. intros x y Hx Hy. apply H; simpl; auto.
Qed.

Section Two.
  Context {W V : WOrd} {Sz : SOrd}.
  Variables (n : nat) (L : list (lrow W Sz)) (wt : nat -> Sz) (mcs : Sz) (lam : W -> V).
  Hypothesis HD : dendrogram n L.
  Hypothesis Hn : 2 <= n.
  Variables (T T' : list (crow V Sz)).
  Hypothesis HT : condensed n wt mcs T.
  Hypothesis HT' : condensed n wt mcs T'.

  Lemma row_names q : In q T -> (c_child q < n \/ is_cluster n T (c_child q)) /\ is_cluster n T (c_parent q).
  Proof.
    intro Hq. split; [|apply (is_cluster_iff n wt mcs T HT), (parent_ge n wt mcs T HT q Hq)].
    destruct (Nat.lt_ge_cases (c_child q) n); auto. right. right. eauto.
  Qed.

  Lemma faithful_unique : faithful n L wt mcs None lam T -> faithful n L wt mcs None lam T' ->
    exists f, renamed n f T T' /\ forall x, x < n -> f x = x.
  Proof.
    intros (top & R & B & SA & C) (top' & R' & B' & SA' & C').
    set (f := fun c => if c <? n then c else match find (fun d => top' d =? top c) (seq n (top_id n T' - n)) with Some d => d | None => n end).
    assert (Hid : forall x, x < n -> f x = x) by (intros x Hx; unfold f; destruct (Nat.ltb_spec x n); auto; lia).
    assert (Hf : forall c, is_cluster n T c -> is_cluster n T' (f c) /\ top' (f c) = top c).
    { intros c Hc. assert (Hge : n <= c) by (apply (is_cluster_iff n wt mcs T HT) in Hc; lia).
      destruct (start_top n L wt mcs lam HD Hn T' HT' top' R' SA' C' (top c)) as (d & Hd & Ed).
      { apply (top_start n L wt mcs lam Hn T HT top R C); auto. }
      apply (is_cluster_iff n wt mcs T' HT') in Hd. unfold f. destruct (Nat.ltb_spec c n); [lia|].
      destruct (find _ _) as [e|] eqn:Ef.
      - apply find_some in Ef as [Ef1 Ef2]. apply in_seq in Ef1. apply Nat.eqb_eq in Ef2. split; auto. apply (is_cluster_iff n wt mcs T' HT'). lia.
      - exfalso. assert (K : (top' d =? top c) = false) by (apply (find_none _ _ Ef d), in_seq; lia). apply Nat.eqb_neq in K. auto. }
    assert (Tinj : forall c d, is_cluster n T c -> is_cluster n T d -> top c = top d -> c = d) by (apply (top_inj n L wt mcs lam HD Hn T HT top R B C)).
    assert (Tinj' : forall c d, is_cluster n T' c -> is_cluster n T' d -> top' c = top' d -> c = d) by (apply (top_inj n L wt mcs lam HD Hn T' HT' top' R' B' C')).
    assert (Hst : forall c, is_cluster n T c -> start n L wt mcs (top c)) by (apply (top_start n L wt mcs lam Hn T HT top R C)).
    assert (Hst' : forall c, is_cluster n T' c -> start n L wt mcs (top' c)) by (apply (top_start n L wt mcs lam Hn T' HT' top' R' C')).
    assert (Hroot : f n = n).
    { destruct (Hf n (or_introl eq_refl)) as [H1 H2]. apply Tinj'; auto; [now left|congruence]. }
    assert (Hrow : forall q, In q T -> In (ren f q) T').
    { intros q Hq. destruct (row_names q Hq) as [Hnm Hp]. destruct (Hf _ Hp) as [Hp1 Hp2].
      destruct (Nat.lt_ge_cases (c_child q) n) as [Hlt|Hge].
      - destruct (SA q Hq Hlt) as (i & r & v & S1 & Hr & Elam & Hv & Sv & Uv).
        destruct (sample_leaves n L wt mcs lam Hn T' HT' top' R' SA' C' (c_child q) Hlt) as (q' & j & r' & u & Hq' & Eq' & S2 & Lj & Hr' & Elam' & Hu & Su & Uu).
        assert (Li : live n L wt mcs (n + i)) by (eapply seg_live; eauto; apply start_live; auto).
        destruct (leaves_once n L wt mcs HD Hn i r v j r' u (c_child q)) as [<- <-]; auto. assert (r' = r) as -> by congruence.
        assert (Hp' : is_cluster n T' (c_parent q')) by (eapply parent_cluster; eauto).
        assert (E : f (c_parent q) = c_parent q').
        { apply Tinj'; auto. rewrite Hp2. eapply (seg_owner n L wt mcs HD); eauto. }
        replace (ren f q) with q'; auto. destruct q as [p c l s], q' as [p' c' l' s']. unfold ren. cbn in *.
        rewrite (Hid c Hlt), E, Eq', Elam, Elam'. f_equal.
        pose proof (ct_sample_size _ _ _ _ HT _ Hq Hlt) as Z1. pose proof (ct_sample_size _ _ _ _ HT' _ Hq' ltac:(cbn; lia)) as Z2. cbn in Z1, Z2. congruence.
      - destruct Hnm as [?|Hc]; [lia|]. destruct (Hf _ Hc) as [Hc1 Hc2].
        destruct (C q Hq Hge) as (i & r & S1 & Hr & Hsp & Elam & Hch & Hw).
        assert (Hne : f (c_child q) <> n).
        { intro E. assert (E2 : top (c_child q) = 2 * n - 2) by congruence. pose proof (child_lt n L HD i r _ Hr Hch). pose proof (row_lt n L HD i r Hr). lia. }
        destruct (cluster_row n wt mcs Hn T' HT' top' R' _ Hc1 Hne) as (q' & Hq' & Eq' & Hlt' & Hp').
        destruct (C' q' Hq' ltac:(lia)) as (j & r' & S2 & Hr' & Hsp' & Elam' & Hch' & Hw').
        rewrite Eq', Hc2 in Hch', Hw'. assert (i = j) as <- by (eapply (parent_unique n L HD); eauto). assert (r' = r) as -> by congruence.
        assert (E : f (c_parent q) = c_parent q').
        { apply Tinj'; auto. rewrite Hp2. eapply (seg_owner n L wt mcs HD); eauto. }
        replace (ren f q) with q'; auto. assert (Ez : c_size q = c_size q') by (eapply (weight_unique n L wt); eauto).
        destruct q as [p c l s], q' as [p' c' l' s']. unfold ren. cbn in *. congruence. }
    assert (Hinj : forall a b, a < n \/ is_cluster n T a -> b < n \/ is_cluster n T b -> f a = f b -> a = b).
    { assert (K : forall a, is_cluster n T a -> n <= f a) by (intros a Ha; destruct (Hf a Ha) as [H _]; apply (is_cluster_iff n wt mcs T' HT') in H; lia).
      intros a b [Ha|Ha] [Hb|Hb] E.
      - rewrite (Hid a Ha), (Hid b Hb) in E. auto.
      - rewrite (Hid a Ha) in E. specialize (K b Hb). lia.
      - rewrite (Hid b Hb) in E. specialize (K a Ha). lia.
      - apply Tinj; auto. destruct (Hf a Ha) as [_ <-]. destruct (Hf b Hb) as [_ <-]. congruence. }
    exists f. split; auto. split; auto.
    - intros x Hx. rewrite Hid; auto.
    - intros c Hc. now apply Hf.
    - (* the rows: same elements, no repetition *)
      apply NoDup_Permutation.
      + apply NoDup_map_in; [apply (T_NoDup n wt mcs T HT)|]. intros q q' Hq Hq' E. apply (row_eq n wt mcs T HT); auto.
        apply Hinj; [apply (row_names q Hq)|apply (row_names q' Hq')|]. apply (f_equal c_child) in E. exact E.
      + apply (T_NoDup n wt mcs T' HT').
      + intro q'. split; [intro H; apply in_map_iff in H as (q & <- & Hq); auto|]. intro Hq'.
        assert (Hc : exists q, In q T /\ f (c_child q) = c_child q').
        { destruct (Nat.lt_ge_cases (c_child q') n) as [Hlt|Hge].
          - destruct (sample_row n wt mcs T HT _ Hlt) as (q & Hq & E). exists q. split; auto. rewrite E. auto.
          - assert (Hc' : is_cluster n T' (c_child q')) by (right; eauto).
            destruct (start_top n L wt mcs lam HD Hn T HT top R SA C (top' (c_child q')) (Hst' _ Hc')) as (c & Hc & Ec).
            assert (Efc : f c = c_child q') by (destruct (Hf c Hc) as [H1 H2]; apply Tinj'; auto; congruence).
            destruct (Nat.eq_dec c n) as [->|Hne].
            + exfalso. rewrite Hroot in Efc. assert (HC : In q' (cluster_rows n T')) by (apply filter_In; split; auto; apply Nat.leb_le; lia).
              pose proof (ct_child_in n wt mcs T' HT' q' HC). lia.
            + destruct (cluster_row n wt mcs Hn T HT top R c Hc Hne) as (q & Hq & E & _). exists q. split; auto. congruence. }
        destruct Hc as (q & Hq & E). apply in_map_iff. exists q. split; auto. apply (row_eq n wt mcs T' HT'); auto.
  Qed.
End Two.
