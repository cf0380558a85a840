(** The labelled samples of each cluster. *)
From Coq Require Import List Arith Lia Bool ZArith Permutation.
From Verif Require Import Prelude Order Size Num M_Linkage M_Condense S_Condense M_Select S_Select S_BCubed M_BCubed P_CTree P_Below P_Sort P_Eom P_EomTop P_SelectTop.
Import ListNotations.
Local Open Scope nat_scope.

Lemma fold_res_app {A B} (f : B -> A -> res A) l1 : forall l2 a, fold_res f (l1 ++ l2) a = let* b := fold_res f l1 a in fold_res f l2 b.
Proof. induction l1 as [|x l1 IH]; intros l2 a; cbn [app fold_res bind]; auto. destruct (f x a); cbn [bind]; auto. Qed.

Lemma member_iff x l : member x l = true <-> In x l.
Proof.
  unfold member. rewrite existsb_exists. split.
  - intros (y & Hy & E). apply Nat.eqb_eq in E. now subst.
  - intro H. exists x. split; auto. apply Nat.eqb_refl.
Qed.
Lemma member_not x l : member x l = false <-> ~ In x l.
Proof. rewrite <- member_iff. destruct (member x l); split; congruence. Qed.

(** ** The dictionary of labels *)
Section Labels.
  Variable labels : list Z.
  Notation LI := (label_indices_of labels).

  Lemma combine_seq (ls : list Z) : forall a, combine (seq a (length ls)) ls = map (fun i => (i, nth (i - a) ls (-1)%Z)) (seq a (length ls)).
  Proof.
    induction ls as [|y ls IH]; intro a; cbn [length seq combine map]; auto. rewrite Nat.sub_diag. cbn [nth]. f_equal.
    rewrite IH. apply map_ext_in. intros i Hi. apply in_seq in Hi. replace (i - a) with (S (i - S a)) by lia. auto.
  Qed.
  Lemma li_eq : LI = map (fun x => (x, Z.to_nat (label labels x))) (labelled_samples labels).
  Proof.
    unfold label_indices_of, labelled_samples. rewrite combine_seq.
    induction (seq 0 (length labels)) as [|i l IH]; cbn [map filter]; auto. cbn [snd]. rewrite Nat.sub_0_r. fold (label labels i).
    replace (-1 <? label labels i)%Z with (0 <=? label labels i)%Z; [|destruct (Z.leb_spec 0 (label labels i)), (Z.ltb_spec (-1) (label labels i)); lia].
    destruct (0 <=? label labels i)%Z; auto. cbn [map fst snd]. f_equal; auto.
  Qed.
  Lemma li_keys : map fst LI = labelled_samples labels.
  Proof. rewrite li_eq, map_map. cbn [fst]. apply map_id. Qed.
  Lemma labelled_iff x : In x (labelled_samples labels) <-> labelled labels x.
  Proof.
    unfold labelled_samples, labelled. rewrite filter_In, in_seq, Z.leb_le. split; [tauto|]. intro H. split; auto.
    split; [lia|]. destruct (Nat.lt_ge_cases x (length labels)); auto. unfold label in H. rewrite nth_overflow in H by auto. lia.
  Qed.
  Lemma labelled_NoDup : NoDup (labelled_samples labels).
  Proof. apply NoDup_filter, seq_NoDup. Qed.
  Lemma has_label x : has_key LI x = true <-> labelled labels x.
  Proof. unfold has_key. rewrite li_keys, member_iff. apply labelled_iff. Qed.
  Lemma label_get x : labelled labels x -> dict_get LI x = Ok (Z.to_nat (label labels x)).
  Proof.
    intro H. apply dict_get_unique; [rewrite li_keys; apply labelled_NoDup|]. rewrite li_eq. apply in_map_iff. exists x.
    split; auto. now apply labelled_iff.
  Qed.
  Lemma labelled_lt x : labelled labels x -> x < length labels.
  Proof. intro H. apply labelled_iff in H. apply filter_In in H as [H _]. apply in_seq in H. lia. Qed.
End Labels.

Section Elements.
  Context {V : WOrd} {Sz : SOrd}.
  Variables (n : nat) (wt : nat -> Sz) (mcs : Sz) (T : list (crow V Sz)) (labels : list Z) (listed : list nat -> list nat).
  Hypothesis HT : condensed n wt mcs T.
  Hypothesis Hlisted : forall l, Permutation (listed l) l.
  Notation CT := (cluster_rows n T).
  Notation LI := (label_indices_of labels).
  Notation part := (part n T).
  Notation bl := (bl n T).
  Hypothesis HP : forall r, In r T -> n <= c_child r -> exists q, In q T /\ c_parent q = c_child r.

  Lemma prefix_parent_g T1 T2 q : T = T1 ++ T2 -> In q T1 -> c_parent q < n + 1 + length (cluster_rows n T1).
  Proof.
    intros E Hq. apply in_split in Hq as (l1 & l2 & ->). rewrite <- app_assoc in E. simpl in E.
    pose proof (row_up _ _ _ _ HT _ _ _ E) as H. unfold cluster_rows in *. rewrite filter_app, app_length. lia.
  Qed.
  Lemma rows_after T1 r T2 q : T = T1 ++ r :: T2 -> n <= c_child r -> In q T -> c_parent q = c_child r -> In q T2.
  Proof.
    intros E Hr Hq Ep. pose proof (row_child _ _ _ _ HT _ _ _ E Hr) as Hc. pose proof (row_up _ _ _ _ HT _ _ _ E) as Hu.
    rewrite E in Hq. apply in_app_or in Hq as [Hq|[<-|Hq]]; auto.
    - pose proof (prefix_parent_g _ _ _ E Hq). lia.
    - lia.
  Qed.

  Lemma child_parent r : In r T -> (In (c_child r) (map c_parent T) <-> n <= c_child r).
  Proof.
    intro Hr. rewrite in_map_iff. split.
    - intros (q & E & Hq). pose proof (parent_ge _ _ _ _ HT q Hq). lia.
    - intro H. destruct (HP r Hr H) as (q & Hq & E). eauto.
  Qed.

  (** The entry of a cluster after the rows [T2]. *)
  Definition entry (T2 : list (crow V Sz)) (c : nat) (l : list nat) : Prop :=
    NoDup l /\ forall x, In x l <-> labelled labels x /\ exists r, In r T2 /\ c_parent r = c /\ In x (part r).

  Lemma entry_other T2 r c l : c_parent r <> c -> entry T2 c l -> entry (r :: T2) c l.
  Proof.
    intros Hne [HN Hl]. split; auto. intro x. rewrite Hl. split; intros (Hx & q & Hq & Ep & Hp); split; auto.
    - exists q. simpl; auto.
    - destruct Hq as [<-|Hq]; [congruence|]. eauto.
  Qed.
  Lemma entry_add T1 r T2 l own : T = T1 ++ r :: T2 -> NoDup own -> (forall x, In x own <-> labelled labels x /\ In x (part r)) ->
    entry T2 (c_parent r) l -> entry (r :: T2) (c_parent r) (l ++ own).
  Proof.
    intros E HNo Ho [HN Hl]. split.
    - apply NoDup_app_intro'; auto. intros x H1 H2. apply Hl in H1 as (_ & q & Hq & Ep & Hp). apply Ho in H2 as [_ H2].
      assert (r = q).
      { apply (part_unique n wt mcs T HT r q x); auto; rewrite E; apply in_or_app; right; simpl; auto. }
      subst q. pose proof (T_NoDup n wt mcs T HT) as HNT. rewrite E in HNT. apply NoDup_remove_2 in HNT. apply HNT. apply in_or_app. auto.
    - intro x. rewrite in_app_iff, Hl, Ho. split.
      + intros [(Hx & q & Hq & Ep & Hp)|[Hx Hp]]; split; auto; [exists q|exists r]; simpl; auto.
      + intros (Hx & q & [<-|Hq] & Ep & Hp); [right|left]; eauto.
  Qed.
  Lemma entry_none T2 c : ~ In c (map c_parent T2) -> entry T2 c [].
  Proof.
    intro H. split; [constructor|]. intro x. split; [intros []|]. intros (_ & r & Hr & Ep & _). apply H. rewrite <- Ep. now apply in_map.
  Qed.

  Lemma elements_loop T2 : forall T1, T = T1 ++ T2 ->
    exists d, fold_res (elements_step listed LI (map c_parent T)) (rev T2) [] = Ok d /\ NoDup (map fst d) /\
      (forall c, In c (map fst d) <-> In c (map c_parent T2)) /\ (forall c l, dict_get d c = Ok l -> entry T2 c l).
  Proof.
    induction T2 as [|r T2 IH]; intros T1 E.
    - exists []. cbn [rev fold_res map]. split; auto. split; [constructor|]. split; [tauto|]. intros c l H. discriminate.
    - destruct (IH (T1 ++ [r])) as (d & Ed & HN & Hk & Hv); [rewrite <- app_assoc; auto|].
      cbn [rev]. rewrite fold_res_app, Ed. cbn [bind fold_res].
      assert (HrT : In r T) by (rewrite E; apply in_or_app; right; simpl; auto).
      assert (Hmain : exists l, elements_step listed LI (map c_parent T) r d = Ok (dict_set d (c_parent r) l) /\ entry (r :: T2) (c_parent r) l).
      { unfold elements_step, has_key.
        destruct (member (c_child r) (map c_parent T)) eqn:Em.
        - apply member_iff, child_parent in Em; auto.
          destruct (HP r HrT Em) as (q & Hq & Eq). assert (Hq2 := rows_after _ _ _ _ E Em Hq Eq).
          assert (Hin : In (c_child r) (map fst d)) by (apply Hk; rewrite <- Eq; now apply in_map).
          destruct (dict_get_in d _ Hin) as (lc & Elc). rewrite Elc. cbn [bind].
          destruct (Hv _ _ Elc) as [HNc Hlc].
          assert (Hown : forall x, In x lc <-> labelled labels x /\ In x (part r)).
          { intro x. rewrite Hlc. unfold P_Below.part at 2. rewrite (proj2 (Nat.leb_le _ _) Em).
            rewrite (Permutation_in' eq_refl (bl_parts n wt mcs T HT (c_child r))), in_flat_map. split.
            - intros (Hx & q' & Hq' & Ep & Hp). split; auto. exists q'. split; auto. apply rows_of_in. split; auto.
              rewrite E. apply in_or_app. right; simpl; auto.
            - intros (Hx & q' & Hq' & Hp). split; auto. apply rows_of_in in Hq' as [Hq' Ep]. exists q'. split; auto.
              apply (rows_after _ _ _ _ E Em Hq' Ep). }
          destruct (member (c_parent r) (map fst d)) eqn:Ep.
          + apply member_iff in Ep. destruct (dict_get_in d _ Ep) as (old & Eo). rewrite Eo. cbn [bind].
            eexists. split; [reflexivity|]. apply (entry_add T1); auto.
          + apply member_not in Ep. eexists. split; [reflexivity|].
            assert (Hp : Permutation lc (listed (filter (has_key LI) (unique lc)))).
            { rewrite Hlisted. apply NoDup_Permutation; auto; [apply NoDup_filter, unique_NoDup|].
              intro x. rewrite filter_In, unique_in, has_label. split; [|tauto]. intro H. split; auto. now apply Hown in H. }
            apply (entry_add T1 r T2 [] (listed (filter (has_key LI) (unique lc)))); auto.
            * apply (Permutation_NoDup Hp HNc).
            * intro x. rewrite <- (Permutation_in' eq_refl Hp). auto.
            * apply entry_none. rewrite <- Hk. auto.
        - assert (Hlt : c_child r < n).
          { apply member_not in Em. destruct (Nat.lt_ge_cases (c_child r) n); auto. exfalso. apply Em, child_parent; auto. }
          set (own := if member (c_child r) (map fst LI) then [c_child r] else []).
          assert (Hown : NoDup own /\ forall x, In x own <-> labelled labels x /\ In x (part r)).
          { unfold P_Below.part. rewrite (proj2 (Nat.leb_gt _ _) Hlt). unfold own. pose proof (has_label labels (c_child r)) as Hh.
            unfold has_key in Hh. destruct (member (c_child r) (map fst LI)).
            - split; [repeat constructor; simpl; tauto|]. intro x. simpl. split; [|tauto]. intros [<-|[]]. split; auto. now apply Hh.
            - split; [constructor|]. intro x. simpl. split; [tauto|]. intros [Hx [<-|[]]]. apply Hh in Hx. discriminate. }
          destruct Hown as [HNo Ho].
          destruct (member (c_parent r) (map fst d)) eqn:Ep.
          + apply member_iff in Ep. destruct (dict_get_in d _ Ep) as (old & Eo). rewrite Eo. cbn [bind].
            eexists. split; [reflexivity|]. apply (entry_add T1); auto.
          + apply member_not in Ep. eexists. split; [reflexivity|]. apply (entry_add T1 r T2 [] own); auto.
            apply entry_none. rewrite <- Hk. auto. }
      destruct Hmain as (l & -> & Hl). cbn [bind]. eexists. split; [reflexivity|]. split; [|split].
      + destruct (in_dec Nat.eq_dec (c_parent r) (map fst d)) as [Hi|Hi].
        * rewrite dict_set_keys; auto.
        * rewrite dict_set_new by auto. rewrite map_app. apply NoDup_app_intro'; auto; [repeat constructor; simpl; tauto|].
          intros x Hx [<-|[]]. contradiction.
      + intro c. cbn [map]. destruct (in_dec Nat.eq_dec (c_parent r) (map fst d)) as [Hi|Hi].
        * rewrite dict_set_keys by auto. rewrite Hk. simpl. split; auto. intros [<-|H]; auto. now apply Hk.
        * rewrite dict_set_new by auto. rewrite map_app, in_app_iff, Hk. simpl. tauto.
      + intros c l' H. rewrite dict_get_set in H. destruct (Nat.eqb_spec c (c_parent r)) as [->|Hne].
        * injection H as <-. auto.
        * apply entry_other; auto.
  Qed.

  Lemma elements_ok : 0 < n -> exists d, condensed_tree_elements listed T LI = Ok d /\ NoDup (map fst d) /\
    (forall c, In c (map fst d) <-> is_cluster n T c) /\
    (forall c l, dict_get d c = Ok l -> NoDup l /\ forall x, In x l <-> labelled labels x /\ below n T c x).
  Proof.
    intro Hn. destruct (elements_loop T [] eq_refl) as (d & Ed & HN & Hk & Hv). exists d. split; auto. split; auto. split.
    - intro c. rewrite Hk. split.
      + intro H. apply in_map_iff in H as (r & <- & Hr). apply (is_cluster_iff _ _ _ _ HT). apply (parent_ge _ _ _ _ HT r Hr).
      + intros [->|(Hc & r & Hr & <-)].
        * destruct T as [|r l] eqn:ET; [exfalso; apply (rows_nonempty _ _ _ _ HT Hn eq_refl)|].
          left. apply (first_parent _ _ _ _ HT r l eq_refl).
        * apply child_parent; auto.
    - intros c l H. destruct (Hv c l H) as [HNl Hl]. split; auto. intro x. rewrite Hl.
      rewrite <- (bl_in n wt mcs T HT), (Permutation_in' eq_refl (bl_parts n wt mcs T HT c)), in_flat_map.
      split; intros (Hx & r & H1 & H2); split; auto; exists r.
      + rewrite rows_of_in. tauto.
      + rewrite rows_of_in in H1. tauto.
  Qed.
End Elements.
