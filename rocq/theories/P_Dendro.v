(** Leaf lists of dendrograms. *)
From Coq Require Import List Arith Lia Bool Permutation Sorted ZArith.
From Verif Require Import Prelude Order Graph UF Size M_Linkage S_Linkage.
Import ListNotations.

Definition down {W Sz} (n : nat) (L : list (lrow W Sz)) : Prop :=
  forall i r, nth_error L i = Some r -> l_a r < n + i /\ l_b r < n + i.

Fixpoint lvs {W Sz} (fuel n : nat) (L : list (lrow W Sz)) (v : nat) : list nat :=
  match fuel with
  | 0 => []
  | S f =>
      if v <? n then [v]
      else match nth_error L (v - n) with
           | Some r => lvs f n L (l_a r) ++ lvs f n L (l_b r)
           | None => []
           end
  end.
Definition lv {W Sz} (n : nat) (L : list (lrow W Sz)) (v : nat) : list nat := lvs (S v) n L v.

Section Leaves.
  Context {W Sz : Type}.
  Implicit Types L M : list (lrow W Sz).

  Lemma down_app n L M : down n (L ++ M) -> down n L.
  Proof.
    intros H i r Hi. apply (H i r). rewrite nth_error_app1; auto.
    apply nth_error_Some. congruence.
  Qed.

  Lemma lvs_enough n L : down n L -> forall f g v, v < f -> v < g -> lvs f n L v = lvs g n L v.
  Proof.
    intro HD. induction f as [|f IH]; intros g v Hf Hg; [lia|].
    destruct g as [|g]; [lia|]. simpl. destruct (v <? n) eqn:E; auto.
    apply Nat.ltb_ge in E. destruct (nth_error L (v - n)) as [r|] eqn:Er; auto.
    destruct (HD _ _ Er). f_equal; apply IH; lia.
  Qed.

  Lemma lv_sample n L v : v < n -> lv n L v = [v].
  Proof. intro H. unfold lv. simpl. now rewrite (proj2 (Nat.ltb_lt v n) H). Qed.

  Lemma lv_node n L i r : down n L -> nth_error L i = Some r ->
    lv n L (n + i) = lv n L (l_a r) ++ lv n L (l_b r).
  Proof.
    intros HD Hi. unfold lv at 1. simpl.
    rewrite (proj2 (Nat.ltb_ge (n + i) n)) by lia.
    replace (n + i - n) with i by lia. rewrite Hi. destruct (HD _ _ Hi).
    unfold lv. f_equal; apply lvs_enough; auto; lia.
  Qed.

  Lemma lvs_app n L M : down n L -> forall f v, v < n + length L -> lvs f n (L ++ M) v = lvs f n L v.
  Proof.
    intro HD. induction f as [|f IH]; intros v Hv; simpl; auto.
    destruct (v <? n) eqn:E; auto. apply Nat.ltb_ge in E.
    rewrite nth_error_app1 by lia.
    destruct (nth_error L (v - n)) as [r|] eqn:Er; auto.
    destruct (HD _ _ Er). f_equal; apply IH; lia.
  Qed.

  Lemma lv_app n L M v : down n L -> v < n + length L -> lv n (L ++ M) v = lv n L v.
  Proof. intros. now apply lvs_app. Qed.

  Lemma under_lv n L v x : down n L -> (under n L v x <-> In x (lv n L v)).
  Proof.
    intro HD. split.
    - induction 1 as [x Hx|i r x Hi H IH|i r x Hi H IH].
      + rewrite lv_sample; simpl; auto.
      + rewrite (lv_node _ _ _ _ HD Hi). apply in_or_app. auto.
      + rewrite (lv_node _ _ _ _ HD Hi). apply in_or_app. auto.
    - revert x. induction v as [v IH] using lt_wf_ind. intros x Hx.
      destruct (Nat.lt_ge_cases v n) as [Hv|Hv].
      + rewrite lv_sample in Hx by auto. destruct Hx as [<-|[]]. now constructor.
      + destruct (nth_error L (v - n)) as [r|] eqn:Er.
        * replace v with (n + (v - n)) in Hx |- * by lia.
          rewrite (lv_node _ _ _ _ HD Er) in Hx. destruct (HD _ _ Er).
          apply in_app_iff in Hx as [Hx|Hx];
            [apply (under_a n L _ r)|apply (under_b n L _ r)]; auto; apply IH; auto; lia.
        * unfold lv in Hx. simpl in Hx. rewrite (proj2 (Nat.ltb_ge v n)), Er in Hx by lia. destruct Hx.
  Qed.

  Lemma lv_range n L v x : In x (lv n L v) -> x < n.
  Proof.
    unfold lv. generalize (S v) as f. intro f. revert v.
    induction f as [|f IH]; simpl; intros v H; [tauto|].
    destruct (Nat.ltb_spec v n).
    - destruct H as [<-|[]]; auto.
    - destruct (nth_error L (v - n)); [|destruct H].
      apply in_app_iff in H as [H|H]; eapply IH; eauto.
  Qed.

  Lemma lv_nonempty n L v : down n L -> v < n + length L -> lv n L v <> [].
  Proof.
    intro HD. induction v as [v IH] using lt_wf_ind. intros Hv.
    destruct (Nat.lt_ge_cases v n) as [H|H].
    - rewrite lv_sample by auto. discriminate.
    - destruct (nth_error L (v - n)) as [r|] eqn:Er.
      + replace v with (n + (v - n)) by lia. rewrite (lv_node _ _ _ _ HD Er).
        destruct (HD _ _ Er). intro E. apply app_eq_nil in E as [E _].
        revert E. apply IH; lia.
      + apply nth_error_None in Er. lia.
  Qed.

  Lemma child_list_app L M : child_list (L ++ M) = child_list L ++ child_list M.
  Proof. apply flat_map_app. Qed.
  Lemma child_list_length L : length (child_list L) = 2 * length L.
  Proof. induction L; simpl in *; lia. Qed.

  (** The samples below the nodes that have no parent yet are all samples. *)
  Lemma tops_partition n L : forall T, down n L ->
    Permutation (child_list L ++ T) (seq 0 (n + length L)) ->
    Permutation (flat_map (lv n L) T) (seq 0 n).
  Proof.
    induction L as [|r L IH] using rev_ind; intros T HD HP.
    - simpl in HP. rewrite Nat.add_0_r in HP.
      rewrite (Permutation_flat_map (lv n []) HP).
      assert (E : forall l, (forall x, In x l -> x < n) -> flat_map (lv n (@nil (lrow W Sz))) l = l).
      { induction l as [|x l IHl]; intro Hl; simpl; auto.
        rewrite lv_sample by (apply Hl; simpl; auto). simpl. f_equal. apply IHl. intros; apply Hl; simpl; auto. }
      rewrite E; auto. intros x Hx. apply in_seq in Hx. lia.
    - assert (HD' : down n L) by (eapply down_app; eauto).
      assert (Hr : nth_error (L ++ [r]) (length L) = Some r).
      { rewrite nth_error_app2, Nat.sub_diag; auto. }
      destruct (HD _ _ Hr) as [Ha Hb].
      rewrite child_list_app in HP. simpl in HP. rewrite app_length in HP. simpl in HP.
      replace (n + (length L + 1)) with (S (n + length L)) in HP by lia.
      rewrite seq_S in HP. simpl in HP.
      (* the new node is in T *)
      assert (HT : In (n + length L) T).
      { assert (H : In (n + length L) ((child_list L ++ [l_a r; l_b r]) ++ T)).
        { eapply Permutation_in; [apply Permutation_sym, HP|]. apply in_or_app. simpl. auto. }
        rewrite <- app_assoc in H. simpl in H. rewrite !in_app_iff in H. simpl in H.
        destruct H as [H|[H|[H|H]]]; try lia; auto.
        exfalso. unfold child_list in H. apply in_flat_map in H as (q & Hq & Hin).
        apply In_nth_error in Hq as [j Hj].
        assert (j < length L) by (apply nth_error_Some; congruence).
        destruct (HD' _ _ Hj). simpl in Hin. lia. }
      apply in_split in HT as (T1 & T2 & ->).
      assert (HP' : Permutation (child_list L ++ (l_a r :: l_b r :: T1 ++ T2)) (seq 0 (n + length L))).
      { apply (Permutation_app_inv_r [n + length L]). etransitivity; [|apply HP].
        rewrite <- !app_assoc. apply Permutation_app_head. simpl.
        do 2 constructor. rewrite <- app_assoc. apply Permutation_app_head.
        symmetry. apply Permutation_cons_append. }
      specialize (IH _ HD' HP'). simpl in IH. rewrite flat_map_app in IH.
      rewrite flat_map_app. simpl. rewrite (lv_node _ _ _ _ HD Hr).
      assert (E : forall l, (forall x, In x l -> x < n + length L) ->
                  flat_map (lv n (L ++ [r])) l = flat_map (lv n L) l).
      { induction l as [|x l IHl]; intro Hl; simpl; auto.
        rewrite lv_app by (auto; apply Hl; simpl; auto). f_equal. apply IHl. intros; apply Hl; simpl; auto. }
      assert (B : forall x, In x (l_a r :: l_b r :: T1 ++ T2) -> x < n + length L).
      { intros x Hx. assert (H : In x (seq 0 (n + length L))).
        { eapply Permutation_in; [apply HP'|]. apply in_or_app. auto. }
        apply in_seq in H. lia. }
      rewrite !E by (intros x Hx; apply B; simpl; rewrite in_app_iff; auto).
      rewrite !lv_app by (auto; apply B; simpl; auto).
      rewrite <- IH. rewrite !app_assoc. apply Permutation_app_tail.
      rewrite <- app_assoc. apply Permutation_app_comm.
  Qed.

  Lemma dendro_leaves n L : dendrogram n L -> Permutation (lv n L (2 * n - 2)) (seq 0 n).
  Proof.
    intros [H1 H2 H3]. rewrite <- (app_nil_r (lv _ _ _)).
    apply (tops_partition n L [2 * n - 2] H2).
    replace (n + length L) with (S (2 * n - 2)) by lia.
    rewrite seq_S. now apply Permutation_app_tail.
  Qed.
End Leaves.
