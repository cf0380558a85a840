(** The cluster tree of a condensed tree is a forest in the sense of Forest.v. *)
From Coq Require Import List Arith Lia Bool Permutation.
From Verif Require Import Prelude Order Size Forest M_Linkage S_Linkage M_Condense S_Condense P_Bfs M_Select.
Import ListNotations.

Section CTree.
  Context {V : WOrd} {Sz : SOrd}.
  Variables (n : nat) (wt : nat -> Sz) (mcs : Sz) (T : list (crow V Sz)).
  Hypothesis HT : condensed n wt mcs T.

  Notation CT := (cluster_rows n T).
  Notation ch := (children_of CT).
  Definition top_id : nat := n + 1 + length CT.

  Lemma mask_ok : slt sone mcs = true -> cluster_tree_from_condensed_tree T = CT.
  Proof.
    intro Hm. unfold cluster_tree_from_condensed_tree, cluster_rows.
    apply filter_ext_in. intros r Hr. destruct (Nat.leb_spec n (c_child r)) as [H|H].
    - destruct (ct_sizes _ _ _ _ HT r Hr H) as [H1 _]. apply slt_true in Hm. apply slt_true.
      destruct (sle (c_size r) sone) eqn:E; auto. rewrite (sle_trans _ _ _ _ H1 E) in Hm. discriminate.
    - rewrite (ct_sample_size _ _ _ _ HT r Hr H). unfold slt. now rewrite sle_refl.
  Qed.

  Lemma ids : map c_child CT = seq (n + 1) (length CT).
  Proof.
    destruct (ct_ids _ _ _ _ HT) as (s & E). rewrite E. f_equal.
    rewrite <- (seq_length (2 * s) (n + 1)), <- E. apply map_length.
  Qed.

  Lemma even_length : exists s, length CT = 2 * s.
  Proof.
    destruct (ct_ids _ _ _ _ HT) as (s & E). exists s.
    now rewrite <- (map_length c_child), E, seq_length.
  Qed.

  Lemma ct_child_in r : In r CT -> n < c_child r < top_id.
  Proof.
    intro H. assert (Hi : In (c_child r) (map c_child CT)) by now apply in_map.
    rewrite ids in Hi. apply in_seq in Hi. unfold top_id. lia.
  Qed.

  Lemma ct_in r : In r CT -> In r T.
  Proof. intro H. now apply filter_In in H. Qed.
  Lemma in_ct r : In r T -> n <= c_child r -> In r CT.
  Proof. intros. apply filter_In. split; auto. now apply Nat.leb_le. Qed.

  Lemma row_up T1 r T2 : T = T1 ++ r :: T2 -> n <= c_parent r < n + 1 + length (cluster_rows n T1).
  Proof.
    intro E. destruct (ct_order _ _ _ _ HT _ _ _ E) as [->|(Hp & q & Hq & Hc)]; [lia|].
    split; [lia|]. pose proof ids as Hids. rewrite E in Hids. unfold cluster_rows in Hids.
    rewrite filter_app, map_app, app_length, seq_app in Hids. fold (cluster_rows n T1) in Hids.
    assert (Hl : map c_child (cluster_rows n T1) = seq (n + 1) (length (cluster_rows n T1))).
    { apply (f_equal (firstn (length (cluster_rows n T1)))) in Hids.
      rewrite firstn_app, firstn_all2, map_length, Nat.sub_diag, firstn_O, app_nil_r in Hids by now rewrite map_length.
      rewrite Hids, firstn_app, firstn_all2, seq_length, Nat.sub_diag, firstn_O, app_nil_r; auto.
      now rewrite seq_length. }
    assert (Hi : In (c_child q) (map c_child (cluster_rows n T1))).
    { apply in_map, filter_In. split; auto. apply Nat.leb_le. lia. }
    rewrite Hl in Hi. apply in_seq in Hi. lia.
  Qed.

  Lemma row_child T1 r T2 : T = T1 ++ r :: T2 -> n <= c_child r -> c_child r = n + 1 + length (cluster_rows n T1).
  Proof.
    intros E Hr. pose proof ids as Hids. rewrite E in Hids. unfold cluster_rows in Hids.
    rewrite filter_app in Hids. cbn [filter] in Hids. rewrite (proj2 (Nat.leb_le n (c_child r))) in Hids by auto.
    fold (cluster_rows n T1) in Hids.
    apply (f_equal (fun l => nth (length (cluster_rows n T1)) l 0)) in Hids.
    rewrite map_app, app_nth2, map_length, Nat.sub_diag in Hids by (rewrite map_length; lia).
    simpl in Hids. rewrite seq_nth in Hids by (rewrite app_length; simpl; lia). lia.
  Qed.

  Lemma parent_lt_child r : In r CT -> n <= c_parent r < c_child r.
  Proof.
    intro H. pose proof (ct_in _ H) as Hr. pose proof (ct_child_in _ H) as Hc.
    apply in_split in Hr as (T1 & T2 & E).
    pose proof (row_up _ _ _ E). pose proof (row_child _ _ _ E ltac:(lia)). lia.
  Qed.

  Lemma parent_ge r : In r T -> n <= c_parent r < top_id.
  Proof.
    intro Hr. apply in_split in Hr as (T1 & T2 & E). pose proof (row_up _ _ _ E).
    unfold top_id. rewrite E. unfold cluster_rows. rewrite filter_app, app_length.
    unfold cluster_rows in H. lia.
  Qed.

  Lemma ch_in v w : In w (ch v) <-> exists r, In r CT /\ c_parent r = v /\ c_child r = w.
  Proof.
    unfold children_of. rewrite in_map_iff. split.
    - intros (r & E & Hr). apply filter_In in Hr as [Hr Hp]. apply Nat.eqb_eq in Hp. eauto.
    - intros (r & Hr & Hp & Hc). exists r. split; auto. apply filter_In. split; auto. now apply Nat.eqb_eq.
  Qed.

  Lemma ct_up v w : In w (ch v) -> v < w.
  Proof. intro H. apply ch_in in H as (r & Hr & <- & <-). now apply parent_lt_child. Qed.
  Lemma ct_bound v w : In w (ch v) -> w < top_id.
  Proof. intro H. apply ch_in in H as (r & Hr & <- & <-). now apply ct_child_in. Qed.

  Lemma ct_child_NoDup : NoDup (map c_child CT).
  Proof. rewrite ids. apply seq_NoDup. Qed.

  Lemma NoDup_map_eq {A B} (f : A -> B) l x y : NoDup (map f l) -> In x l -> In y l -> f x = f y -> x = y.
  Proof.
    induction l as [|a l IH]; simpl; intros HN Hx Hy E; [tauto|]. inversion_clear HN as [|? ? Hn HN'].
    destruct Hx as [->|Hx], Hy as [->|Hy]; auto.
    - exfalso. apply Hn. rewrite E. now apply in_map.
    - exfalso. apply Hn. rewrite <- E. now apply in_map.
  Qed.

  Lemma ct_row_eq r q : In r CT -> In q CT -> c_child r = c_child q -> r = q.
  Proof. apply NoDup_map_eq, ct_child_NoDup. Qed.

  Lemma ct_one v v' w : In w (ch v) -> In w (ch v') -> v = v'.
  Proof.
    intros H1 H2. apply ch_in in H1 as (r & Hr & <- & E1). apply ch_in in H2 as (q & Hq & <- & E2).
    now rewrite (ct_row_eq r q) by congruence.
  Qed.

  Lemma ct_nodup v : NoDup (ch v).
  Proof.
    unfold children_of. pose proof ct_child_NoDup as H. revert H. generalize CT as l. clear.
    induction l as [|r l IH]; simpl; intro H; [constructor|]. inversion_clear H as [|? ? Hn HN].
    destruct (c_parent r =? v); simpl; auto. constructor; auto.
    intro Hi. apply Hn. apply in_map_iff in Hi as (q & E & Hq). apply filter_In in Hq as [Hq _].
    rewrite <- E. now apply in_map.
  Qed.

  Notation sb := (sub ch top_id).

  Lemma is_cluster_iff c : is_cluster n T c <-> n <= c < top_id.
  Proof.
    split.
    - intros [->|(H & r & Hr & <-)].
      + unfold top_id. lia.
      + pose proof (ct_child_in r (in_ct r Hr H)). lia.
    - intro H. destruct (Nat.eq_dec c n) as [->|Hne]; [left; auto|]. right. split; [lia|].
      assert (Hi : In c (map c_child CT)) by (rewrite ids; apply in_seq; unfold top_id in H; lia).
      apply in_map_iff in Hi as (r & E & Hr). exists r. split; auto. now apply ct_in.
  Qed.

  (** Every cluster lies in the subtree of the root. *)
  Lemma sub_root c : n <= c < top_id -> In c (sb n).
  Proof.
    induction c as [c IH] using lt_wf_ind. intro Hc. destruct (Nat.eq_dec c n) as [->|Hne].
    - apply (sub_self ch top_id ct_up ct_bound).
    - assert (Hi : In c (map c_child CT)) by (rewrite ids; apply in_seq; unfold top_id in Hc; lia).
      apply in_map_iff in Hi as (r & E & Hr). pose proof (parent_lt_child r Hr) as Hp.
      apply (sub_trans ch top_id ct_up ct_bound n (c_parent r)); [apply IH; lia|].
      apply (sub_child ch top_id ct_up ct_bound _ c).
      + apply ch_in. exists r. auto.
      + apply (sub_self ch top_id ct_up ct_bound).
  Qed.

  Lemma sub_range v w : In w (sb v) -> w = v \/ (n < w < top_id).
  Proof.
    intro H. destruct (Nat.eq_dec w v) as [|Hne]; auto. right.
    destruct (sub_up ch top_id ct_up ct_bound v w H Hne) as (p & Hp & _).
    apply ch_in in Hp as (r & Hr & _ & <-). now apply ct_child_in.
  Qed.

  Lemma descends_sub c d : descends n T c d <-> (In d (sb c) /\ d <> c).
  Proof.
    split.
    - induction 1 as [r Hr Hc|c d e H1 [IH1 N1] H2 [IH2 N2]].
      + assert (Hi : In (c_child r) (ch (c_parent r))).
        { apply ch_in. exists r. split; auto. now apply in_ct. }
        split.
        * apply (sub_child ch top_id ct_up ct_bound _ _ Hi). apply (sub_self ch top_id ct_up ct_bound).
        * pose proof (ct_up _ _ Hi). lia.
      + split.
        * eapply (sub_trans ch top_id ct_up ct_bound); eauto.
        * apply (sub_ge ch top_id ct_up ct_bound) in IH1, IH2. lia.
    - intros [H Hne]. revert d H Hne. induction c as [c IH] using (sub_ind ch top_id ct_up ct_bound).
      intros d H Hne. apply (sub_inv ch top_id ct_up ct_bound) in H as [E|(u & Hu & Hd)]; [congruence|].
      pose proof Hu as Hu'. apply ch_in in Hu' as (r & Hr & E1 & E2). pose proof (parent_lt_child r Hr).
      assert (Hcu : descends n T c u).
      { rewrite <- E1, <- E2. apply desc_child; [now apply ct_in|lia]. }
      destruct (Nat.eq_dec d u) as [->|Hdu]; auto.
      eapply desc_trans; [exact Hcu|]. apply IH; auto.
  Qed.

  (** The smallest parent in the cluster tree is the root. *)
  Lemma fold_min_spec l : forall x, (fold_left Nat.min l x = x \/ In (fold_left Nat.min l x) l) /\
    fold_left Nat.min l x <= x /\ (forall y, In y l -> fold_left Nat.min l x <= y).
  Proof.
    induction l as [|a l IH]; intro x; simpl.
    - split; auto. split; auto. intros y [].
    - destruct (IH (Nat.min x a)) as (H1 & H2 & H3). split; [|split].
      + destruct H1 as [H1|H1]; auto. rewrite H1. destruct (Nat.min_dec x a) as [E|E]; rewrite E; auto.
      + lia.
      + intros y [<-|Hy]; auto. lia.
  Qed.
  Lemma fold_max_spec l : forall x, (fold_left Nat.max l x = x \/ In (fold_left Nat.max l x) l) /\
    x <= fold_left Nat.max l x /\ (forall y, In y l -> y <= fold_left Nat.max l x).
  Proof.
    induction l as [|a l IH]; intro x; simpl.
    - split; auto. split; auto. intros y [].
    - destruct (IH (Nat.max x a)) as (H1 & H2 & H3). split; [|split].
      + destruct H1 as [H1|H1]; auto. rewrite H1. destruct (Nat.max_dec x a) as [E|E]; rewrite E; auto.
      + lia.
      + intros y [<-|Hy]; auto. lia.
  Qed.
  Lemma array_min_ok l m : In m l -> (forall y, In y l -> m <= y) -> array_min l = Ok m.
  Proof.
    destruct l as [|x l]; [intros []|]. intros Hm Hall. simpl. f_equal.
    destruct (fold_min_spec l x) as (H1 & H2 & H3). apply Nat.le_antisymm.
    - destruct Hm as [->|Hm]; auto.
    - apply Hall. destruct H1 as [->|H1]; simpl; auto.
  Qed.
  Lemma array_max_ok l m : In m l -> (forall y, In y l -> y <= m) -> array_max l = Ok m.
  Proof.
    destruct l as [|x l]; [intros []|]. intros Hm Hall. simpl. f_equal.
    destruct (fold_max_spec l x) as (H1 & H2 & H3). apply Nat.le_antisymm.
    - apply Hall. destruct H1 as [->|H1]; simpl; auto.
    - destruct Hm as [->|Hm]; auto.
  Qed.

  Lemma root_children : CT <> [] -> exists r, In r CT /\ c_parent r = n.
  Proof.
    intro Hne. destruct CT as [|r l] eqn:E; [congruence|].
    assert (Hr : In r CT) by (rewrite E; simpl; auto). exists r. split; [simpl; auto|].
    pose proof (parent_lt_child r Hr). assert (c_child r = n + 1).
    { pose proof ids as H0. rewrite E in H0. simpl in H0. congruence. }
    lia.
  Qed.

  Lemma ct_min : CT <> [] -> array_min (map c_parent CT) = Ok n.
  Proof.
    intro Hne. destruct (root_children Hne) as (r & Hr & E). apply array_min_ok.
    - apply in_map_iff. eauto.
    - intros y Hy. apply in_map_iff in Hy as (q & <- & Hq). apply parent_lt_child in Hq. lia.
  Qed.

  Lemma rows_nonempty : 0 < n -> T <> [].
  Proof.
    intros H E. pose proof (ct_samples _ _ _ _ HT) as HP. rewrite E in HP. simpl in HP.
    apply Permutation_nil in HP. destruct n; [lia|discriminate].
  Qed.

  Lemma first_parent r l : T = r :: l -> c_parent r = n.
  Proof. intro E. pose proof (row_up [] r l E) as H. simpl in H. lia. Qed.

  Lemma t_min : 0 < n -> array_min (map c_parent T) = Ok n.
  Proof.
    intro Hn. assert (exists r l, T = r :: l) as (r & l & E).
    { pose proof (rows_nonempty Hn). destruct T as [|r l]; [congruence|eauto]. }
    apply array_min_ok.
    - apply in_map_iff. exists r. split; [now apply (first_parent r l)|rewrite E; simpl; auto].
    - intros y Hy. apply in_map_iff in Hy as (q & <- & Hq). apply parent_ge in Hq. lia.
  Qed.
End CTree.
