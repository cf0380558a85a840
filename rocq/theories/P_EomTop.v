(** Scores of a condensed tree, and the selection on top of them. *)
From Coq Require Import List Arith Lia Bool Permutation QArith Qcanon Sorted.
From Verif Require Import Prelude Order Size Num Forest M_Linkage M_Condense S_Condense M_Select S_Select P_CTree P_Eom.
Import ListNotations.
Local Open Scope nat_scope.

Lemma app_inj_len {A} (a b c d : list A) : length a = length c -> a ++ b = c ++ d -> a = c /\ b = d.
Proof.
  revert c. induction a as [|x a IH]; intros [|y c] Hl E; simpl in *; try discriminate; auto.
  injection E as -> E. destruct (IH c) as [-> ->]; auto.
Qed.

Section Scores.
  Context {V : WOrd} {Sz : SOrd} (n : nat) (wt : nat -> Sz) (mcs : Sz) (T : list (crow V Sz)).
  Hypothesis HT : condensed n wt mcs T.
  Hypothesis Hmcs : slt sone mcs = true.
  Notation CT := (cluster_rows n T).

  Lemma row_kind r : In r T -> slt sone (c_size r) = (n <=? c_child r).
  Proof.
    intro Hr. destruct (Nat.leb_spec n (c_child r)) as [H|H].
    - destruct (ct_sizes _ _ _ _ HT r Hr H) as [Hs _]. apply slt_true. apply slt_true in Hmcs.
      destruct (sle (c_size r) sone) eqn:E; auto. rewrite (sle_trans Sz _ _ _ Hs E) in Hmcs. discriminate.
    - rewrite (ct_sample_size _ _ _ _ HT r Hr H). apply slt_false, sle_refl.
  Qed.

  Lemma cluster_rows_app (l1 l2 : list (crow V Sz)) : cluster_rows n (l1 ++ l2) = cluster_rows n l1 ++ cluster_rows n l2.
  Proof. apply filter_app. Qed.

  Lemma prefix_ids T1 T2 : T = T1 ++ T2 -> map c_child (cluster_rows n T1) = seq (n + 1) (length (cluster_rows n T1)).
  Proof.
    intro E. pose proof (ids n wt mcs T HT) as H. rewrite E, cluster_rows_app, map_app, app_length, seq_app in H.
    apply app_inj_len in H; [tauto|]. rewrite map_length, seq_length. auto.
  Qed.

  Lemma score_keys (A : Arith V Sz) : forall T2 T1 d, T = T1 ++ T2 ->
    map fst d = n :: map c_child (cluster_rows n T1) ->
    exists d', fold_res (score_step A) T2 d = Ok d' /\ map fst d' = n :: map c_child (cluster_rows n T).
  Proof.
    induction T2 as [|r T2 IH]; intros T1 d E Hd; cbn [fold_res].
    - exists d. split; auto. rewrite E, app_nil_r. auto.
    - assert (Hr : In r T) by (rewrite E; apply in_elt).
      pose proof (row_up _ _ _ _ HT _ _ _ E) as Hp. pose proof (prefix_ids _ _ E) as Hids.
      assert (E' : T = (T1 ++ [r]) ++ T2) by (rewrite <- app_assoc; auto).
      assert (Hpin : In (c_parent r) (n :: map c_child (cluster_rows n T1))).
      { rewrite Hids. destruct (Nat.eq_dec (c_parent r) n) as [->|]; [left; auto|right; apply in_seq; lia]. }
      unfold score_step at 1. rewrite (row_kind r Hr).
      destruct (Nat.leb_spec n (c_child r)) as [H|H].
      + pose proof (row_child _ _ _ _ HT _ _ _ E H) as Hc.
        assert (Hnew : ~ In (c_child r) (map fst d)).
        { rewrite Hd, Hids. intros [?|Hi]; [lia|apply in_seq in Hi; lia]. }
        rewrite dict_set_new by auto.
        set (d1 := d ++ _). assert (Hd1 : map fst d1 = n :: map c_child (cluster_rows n (T1 ++ [r]))).
        { unfold d1. rewrite map_app, Hd, cluster_rows_app, map_app. unfold cluster_rows at 3. cbn [filter].
          rewrite (proj2 (Nat.leb_le _ _) H). reflexivity. }
        assert (Hpin1 : In (c_parent r) (map fst d1)).
        { unfold d1. rewrite map_app, Hd. apply in_or_app. auto. }
        destruct (dict_get_in d1 (c_parent r) Hpin1) as (old & ->). cbn [bind].
        apply (IH (T1 ++ [r])); auto. rewrite dict_set_keys; auto.
      + rewrite <- Hd in Hpin. destruct (dict_get_in d (c_parent r) Hpin) as (old & ->). cbn [bind].
        apply (IH (T1 ++ [r])); auto. rewrite dict_set_keys by auto. rewrite Hd, cluster_rows_app. unfold cluster_rows at 3.
        cbn [filter]. rewrite (proj2 (Nat.leb_gt _ _) H). now rewrite app_nil_r.
  Qed.

  Lemma score_ok (A : Arith V Sz) : 0 < n -> exists d, score_condensed_tree_nodes A T = Ok d /\
    map fst d = seq n (S (length CT)).
  Proof.
    intro Hn. assert (exists r l, T = r :: l) as (r & l & E).
    { pose proof (rows_nonempty _ _ _ _ HT Hn). destruct T as [|r l]; [congruence|eauto]. }
    unfold score_condensed_tree_nodes. rewrite E. rewrite <- E.
    rewrite (first_parent _ _ _ _ HT _ _ E).
    destruct (score_keys A T [] [(n, num_zero A)] eq_refl) as (d & -> & Hd); auto.
    exists d. split; auto. rewrite Hd, (ids _ _ _ _ HT). simpl. do 2 f_equal. lia.
  Qed.
End Scores.

(** ** Exact scores are stabilities *)
Lemma qsum_app l1 l2 : qsum (l1 ++ l2) = (qsum l1 + qsum l2)%Qc.
Proof.
  unfold qsum. induction l1 as [|x l IH]; cbn [app fold_right]; [now rewrite Qcplus_0_l|].
  rewrite IH. apply Qcplus_assoc.
Qed.

Section Exact.
  Context {Sz : SOrd} (to_q : Sz -> Qc) (n : nat) (wt : nat -> Sz) (mcs : Sz) (T : list (crow QInf Sz)).
  Hypothesis HT : condensed n wt mcs T.
  Hypothesis Hmcs : slt sone mcs = true.
  Notation CT := (cluster_rows n T).
  Notation EA := (ExactArith Sz to_q).
  Notation mass r := (lam_q r * to_q (c_size r))%Qc.

  Lemma leaving_snoc T1 (r : crow QInf Sz) k :
    leaving to_q (T1 ++ [r]) k = (leaving to_q T1 k + if c_parent r =? k then mass r else 0)%Qc.
  Proof.
    unfold leaving. rewrite filter_app, map_app, qsum_app. f_equal. cbn [filter].
    destruct (c_parent r =? k); [apply Qcplus_0_r|reflexivity].
  Qed.
  Lemma arriving_snoc T1 (r : crow QInf Sz) k :
    arriving to_q (T1 ++ [r]) k = (arriving to_q T1 k + if c_child r =? k then mass r else 0)%Qc.
  Proof.
    unfold arriving. rewrite filter_app, map_app, qsum_app. f_equal. cbn [filter].
    destruct (c_child r =? k); [apply Qcplus_0_r|reflexivity].
  Qed.

  Lemma filter_none {A} (p : A -> bool) l : (forall x, In x l -> p x = false) -> filter p l = [].
  Proof.
    induction l as [|x l IH]; intro H; simpl; auto. rewrite H by (simpl; auto). apply IH. intros; apply H; simpl; auto.
  Qed.

  Lemma prefix_parent T1 T2 q : T = T1 ++ T2 -> In q T1 -> c_parent q < n + 1 + length (cluster_rows n T1).
  Proof.
    intros E Hq. apply in_split in Hq as (l1 & l2 & ->). rewrite <- app_assoc in E. simpl in E.
    pose proof (row_up _ _ _ _ HT _ _ _ E) as H. rewrite cluster_rows_app, app_length. lia.
  Qed.
  Lemma prefix_child T1 T2 q : T = T1 ++ T2 -> In q T1 -> c_child q < n + 1 + length (cluster_rows n T1).
  Proof.
    intros E Hq. destruct (Nat.lt_ge_cases (c_child q) n) as [|Hc]; [lia|].
    assert (Hi : In (c_child q) (map c_child (cluster_rows n T1))).
    { apply in_map. apply filter_In. split; auto. now apply Nat.leb_le. }
    rewrite (prefix_ids _ _ _ _ HT _ _ E) in Hi. apply in_seq in Hi. lia.
  Qed.
  Lemma prefix_child_n T1 T2 q : T = T1 ++ T2 -> In q T1 -> c_child q <> n.
  Proof.
    intros E Hq Hc. assert (Hi : In (c_child q) (map c_child (cluster_rows n T1))).
    { apply in_map. apply filter_In. split; auto. apply Nat.leb_le; lia. }
    rewrite (prefix_ids _ _ _ _ HT _ _ E) in Hi. apply in_seq in Hi. lia.
  Qed.

  Definition prefix_keys (T1 : list (crow QInf Sz)) : list nat := n :: map c_child (cluster_rows n T1).

  Lemma score_values : all_finite T -> forall T2 T1 (d d' : list (nat * num EA)), T = T1 ++ T2 ->
    map fst d = prefix_keys T1 ->
    (forall k, In k (prefix_keys T1) -> dict_get d k = Ok (Fin (stability to_q T1 k))) ->
    fold_res (score_step EA) T2 d = Ok d' ->
    forall k, In k (prefix_keys T) -> dict_get d' k = Ok (Fin (stability to_q T k)).
  Proof.
    intro Hfin. induction T2 as [|r T2 IH]; intros T1 d d' E Hd Hv HR k Hk; cbn [fold_res] in HR.
    - injection HR as <-. rewrite E, app_nil_r in *. auto.
    - assert (Hr : In r T) by (rewrite E; apply in_elt).
      pose proof (row_up _ _ _ _ HT _ _ _ E) as Hp. pose proof (prefix_ids _ _ _ _ HT _ _ E) as Hids.
      assert (E' : T = (T1 ++ [r]) ++ T2) by (rewrite <- app_assoc; auto).
      assert (Hpin : In (c_parent r) (prefix_keys T1)).
      { unfold prefix_keys. rewrite Hids. destruct (Nat.eq_dec (c_parent r) n) as [->|]; [left; auto|right; apply in_seq; lia]. }
      assert (Hmul : num_mul EA (c_lam r) (c_size r) = Fin (mass r)).
      { change (xmul (c_lam r) (to_q (c_size r)) = Fin (mass r)). unfold lam_q. pose proof (Hfin r Hr). destruct (c_lam r) as [a|]; [reflexivity|congruence]. }
      unfold score_step at 1 in HR. rewrite Hmul, (row_kind _ _ _ _ HT Hmcs r Hr) in HR.
      destruct (Nat.leb_spec n (c_child r)) as [H|H].
      + pose proof (row_child _ _ _ _ HT _ _ _ E H) as Hc.
        assert (Hnew : ~ In (c_child r) (map fst d)).
        { rewrite Hd. unfold prefix_keys. rewrite Hids. intros [?|Hi]; [lia|apply in_seq in Hi; lia]. }
        rewrite dict_set_new in HR by auto.
        set (d1 := d ++ _) in HR.
        assert (Ek : prefix_keys (T1 ++ [r]) = prefix_keys T1 ++ [c_child r]).
        { unfold prefix_keys. rewrite cluster_rows_app, map_app. unfold cluster_rows at 2. cbn [filter].
          rewrite (proj2 (Nat.leb_le _ _) H). reflexivity. }
        assert (Hd1 : map fst d1 = prefix_keys (T1 ++ [r])).
        { unfold d1. rewrite map_app, Hd, Ek. reflexivity. }
        assert (HN1 : NoDup (map fst d1)).
        { rewrite Hd1. unfold prefix_keys. rewrite (prefix_ids _ _ _ _ HT _ _ E').
          change (n :: seq (n + 1) (length (cluster_rows n (T1 ++ [r])))) with
            ([n] ++ seq (n + 1) (length (cluster_rows n (T1 ++ [r])))).
          replace (n + 1) with (S n) by lia. apply (seq_NoDup (S _) n). }
        assert (Hv1 : forall k, In k (prefix_keys (T1 ++ [r])) ->
                   dict_get d1 k = Ok (Fin (if k =? c_child r then - mass r else stability to_q T1 k))).
        { intros k' Hk'. rewrite Ek in Hk'. apply dict_get_unique; auto. unfold d1. apply in_or_app.
          apply in_app_or in Hk' as [Hk'|[<-|[]]].
          - left. destruct (Nat.eqb_spec k' (c_child r)) as [->|_].
            + exfalso. apply Hnew. rewrite Hd. auto.
            + apply dict_get_found. auto.
          - right. rewrite Nat.eqb_refl. simpl. auto. }
        assert (Hpne : c_parent r <> c_child r) by lia.
        rewrite Hv1 in HR. 2:{ rewrite Ek. apply in_or_app. auto. }
        rewrite (proj2 (Nat.eqb_neq _ _) Hpne) in HR. cbn [bind] in HR.
        apply (IH (T1 ++ [r]) _ d' E') with (k := k) in HR; auto.
        * rewrite dict_set_keys; auto. rewrite Hd1, Ek. apply in_or_app. auto.
        * intros k' Hk'. rewrite dict_get_set. destruct (Nat.eqb_spec k' (c_parent r)) as [->|Hne].
          -- cbn [num_add ExactArith xadd]. do 2 f_equal. unfold stability. rewrite leaving_snoc, arriving_snoc, Nat.eqb_refl.
             rewrite (proj2 (Nat.eqb_neq _ _)) by auto.
 ring.
          -- rewrite Hv1 by auto. do 2 f_equal. unfold stability. rewrite leaving_snoc, arriving_snoc.
             rewrite (proj2 (Nat.eqb_neq (c_parent r) k')) by auto.
             destruct (Nat.eqb_spec k' (c_child r)) as [->|Hne'].
             ++ rewrite Nat.eqb_refl.
                assert (E1 : leaving to_q T1 (c_child r) = 0%Qc).
                { unfold leaving. rewrite filter_none; auto. intros q Hq. apply Nat.eqb_neq.
                  pose proof (prefix_parent _ _ _ E Hq). lia. }
                assert (E2 : arriving to_q T1 (c_child r) = 0%Qc).
                { unfold arriving. rewrite filter_none; auto. intros q Hq. apply Nat.eqb_neq.
                  pose proof (prefix_child _ _ _ E Hq). lia. }
                rewrite E1, E2. ring.
             ++ rewrite (proj2 (Nat.eqb_neq (c_child r) k')) by auto. ring.
      + rewrite (Hv _ Hpin) in HR. cbn [bind] in HR.
        assert (Ek : prefix_keys (T1 ++ [r]) = prefix_keys T1).
        { unfold prefix_keys. rewrite cluster_rows_app, map_app. unfold cluster_rows at 2. cbn [filter].
          rewrite (proj2 (Nat.leb_gt _ _) H). cbn [map]. now rewrite app_nil_r. }
        apply (IH (T1 ++ [r]) _ d' E') with (k := k) in HR; auto.
        * rewrite dict_set_keys by (rewrite Hd; auto). now rewrite Ek.
        * intros k' Hk'. rewrite Ek in Hk'. rewrite dict_get_set. unfold stability.
          rewrite leaving_snoc, arriving_snoc.
          assert (Hkn : n <= k').
          { destruct Hk' as [<-|Hk']; auto. rewrite Hids in Hk'. apply in_seq in Hk'. lia. }
          rewrite (proj2 (Nat.eqb_neq (c_child r) k')) by lia.
          destruct (Nat.eqb_spec k' (c_parent r)) as [->|Hne].
          -- cbn [num_add ExactArith xadd]. do 2 f_equal. rewrite Nat.eqb_refl. unfold stability. ring.
          -- rewrite Hv by auto. do 2 f_equal. rewrite (proj2 (Nat.eqb_neq _ _)) by auto. unfold stability. ring.
  Qed.

  Lemma score_exact d : all_finite T -> 0 < n -> score_condensed_tree_nodes EA T = Ok d ->
    forall k, n <= k < top_id n T -> dict_get d k = Ok (Fin (stability to_q T k)).
  Proof.
    intros Hfin Hn HR k Hk.
    assert (exists r l, T = r :: l) as (r & l & E).
    { pose proof (rows_nonempty _ _ _ _ HT Hn). destruct T as [|r l]; [congruence|eauto]. }
    unfold score_condensed_tree_nodes in HR. rewrite E in HR. rewrite <- E in HR.
    rewrite (first_parent _ _ _ _ HT _ _ E) in HR.
    apply (score_values Hfin T [] [(n, num_zero EA)] d eq_refl) with (k := k) in HR; auto.
    - intros k' [<-|[]]. simpl. rewrite Nat.eqb_refl. do 2 f_equal.
    - unfold prefix_keys. rewrite (ids _ _ _ _ HT). unfold top_id in Hk.
      destruct (Nat.eq_dec k n) as [->|]; [left; auto|right; apply in_seq; lia].
  Qed.
End Exact.

(** ** The whole selection *)
Section Top.
  Context {V : WOrd} {Sz : SOrd} (A : Arith V Sz) (n : nat) (wt : nat -> Sz) (mcs : Sz) (T : list (crow V Sz)).
  Hypothesis HT : condensed n wt mcs T.
  Hypothesis Hmcs : slt sone mcs = true.
  Hypothesis Hn : 0 < n.
  Hypothesis Hlt0 : num_lt A (num_zero A) (num_zero A) = false.
  Variables (mx : option Sz) (single : bool).
  Notation CT := (cluster_rows n T).
  Notation ch := (children_of CT).
  Notation top := (top_id n T).
  Notation sb := (sub ch top).
  Let K := seq n (S (length CT)).

  Definition size_dict : list (nat * Sz) :=
    dict_set (fold_left (fun d r => dict_set d (c_child r) (c_size r)) CT []) n (size_of_nat (n - 1)).

  Lemma size_fold (l : list (crow V Sz)) : forall d, NoDup (map c_child l) ->
    (forall r, In r l -> dict_get (fold_left (fun d r => dict_set d (c_child r) (c_size r)) l d) (c_child r) = Ok (c_size r)) /\
    (forall k, ~ In k (map c_child l) ->
       dict_get (fold_left (fun d r => dict_set d (c_child r) (c_size r)) l d) k = dict_get d k).
  Proof.
    induction l as [|q l IH]; intros d HN; simpl; [split; [intros r []|auto]|].
    inversion_clear HN as [|? ? Hq HN']. destruct (IH (dict_set d (c_child q) (c_size q)) HN') as [H1 H2]. split.
    - intros r [<-|Hr]; auto. rewrite H2 by auto. now rewrite dict_get_set, Nat.eqb_refl.
    - intros k Hk. rewrite H2 by tauto. rewrite dict_get_set. destruct (Nat.eqb_spec k (c_child q)); [subst; tauto|auto].
  Qed.

  Lemma size_dict_row r : In r CT -> dict_get size_dict (c_child r) = Ok (c_size r).
  Proof.
    intro Hr. unfold size_dict. rewrite dict_get_set.
    destruct (Nat.eqb_spec (c_child r) n) as [E|_].
    - pose proof (ct_child_in _ _ _ _ HT _ Hr). lia.
    - apply size_fold; auto. apply (ct_child_NoDup _ _ _ _ HT).
  Qed.
  Lemma size_dict_root : dict_get size_dict n = Ok (size_of_nat (n - 1)).
  Proof. unfold size_dict. now rewrite dict_get_set, Nat.eqb_refl. Qed.

  Lemma K_in k : In k K <-> n <= k < top.
  Proof. unfold K, top_id. rewrite in_seq. lia. Qed.
  Lemma K_sub : incl (sb n) K.
  Proof.
    intros k Hk. apply K_in. destruct (sub_range _ _ _ _ HT _ _ Hk) as [->|]; unfold top_id in *; lia.
  Qed.

  Lemma row_of k : n < k < top -> exists r, In r CT /\ c_child r = k.
  Proof.
    intro Hk. assert (Hi : In k (map c_child CT)).
    { rewrite (ids _ _ _ _ HT). apply in_seq. unfold top_id in Hk. lia. }
    apply in_map_iff in Hi as (r & E & Hr). eauto.
  Qed.

  Lemma size_dict_all k : In k (sb n) -> exists s, dict_get size_dict k = Ok s.
  Proof.
    intro Hk. destruct (sub_range _ _ _ _ HT _ _ Hk) as [->|Hk'].
    - rewrite size_dict_root; eauto.
    - destruct (row_of k Hk') as (r & Hr & <-). rewrite size_dict_row; eauto.
  Qed.

  Lemma fits_iff k : n <= k < top ->
    (fits size_dict mx k <-> (forall m s, mx = Some m -> recorded_size n T k s -> sle s m = true)).
  Proof.
    intro Hk. unfold fits, over_max. split.
    - intros H m s Em Hs. assert (Hd : dict_get size_dict k = Ok s).
      { destruct Hs as [[-> ->]|(r & Hr & Hlt & <- & <-)].
        - apply size_dict_root.
        - apply size_dict_row. apply (in_ct); auto. lia. }
      specialize (H s Hd). rewrite Em in H. now apply slt_false.
    - intros H s Hd. destruct mx as [m|] eqn:Em; auto. apply slt_false. apply (H m); auto.
      destruct (Nat.eq_dec k n) as [->|Hne].
      + left. rewrite size_dict_root in Hd. injection Hd as <-. auto.
      + right. destruct (row_of k ltac:(lia)) as (r & Hr & <-). rewrite size_dict_row in Hd by auto. injection Hd as <-.
        exists r. split; [now apply (ct_in _ _ _ Hr)|]. split; [lia|auto].
  Qed.

  (** What the recursion leaves behind, for any exact reading of the scores. *)
  Lemma eom_core (Sc : SOrd) (emb : Sc -> num A) (sc : nat -> Sc) d :
    score_condensed_tree_nodes A T = Ok d -> map fst d = K -> CT <> [] ->
    exists sel, map fst sel = K /\
      extract_eom_clusters A T CT mx single = Ok (map fst (filter snd sel)) /\
      (if single then good A CT top d size_dict mx K Sc emb sc sel n
       else good_below A CT top d size_dict mx K Sc emb sc sel n).
  Proof.
    intros Ed Hd Hne. unfold extract_eom_clusters. rewrite Ed. cbn [bind].
    assert (exists r l, CT = r :: l) as (r0 & l0 & E0).
    { destruct CT as [|r l]; [congruence|eauto]. }
    rewrite E0. rewrite <- E0. rewrite (ct_min _ _ _ _ HT Hne). cbn [bind].
    fold size_dict. set (sel0 := map (fun kv => (fst kv, false)) d).
    assert (HK0 : map fst sel0 = K).
    { unfold sel0. rewrite map_map. simpl. exact Hd. }
    assert (Hoff : forall k, selb sel0 k = false).
    { intro k. unfold selb. destruct (dict_get sel0 k) as [b|] eqn:E; auto. apply dict_get_found in E.
      unfold sel0 in E. apply in_map_iff in E as (kv & E & _). now injection E. }
    assert (HKN : NoDup K) by apply seq_NoDup.
    assert (HKs : forall k, In k K -> exists s, dict_get d k = Ok s).
    { intros k Hk. apply dict_get_in. now rewrite Hd. }
    assert (Htop : top - n < S (S (length CT))) by (unfold top_id; lia).
    assert (Hnt : n < top) by (unfold top_id; lia).
    destruct single.
    - destruct (eom_ok A CT top (ct_up _ _ _ _ HT) (ct_bound _ _ _ _ HT) (ct_one _ _ _ _ HT) (ct_nodup _ _ _ _ HT)
                  d size_dict mx K Hlt0 HKs Sc emb sc (S (S (length CT))) n sel0 Htop Hnt HK0 K_sub size_dict_all)
        as (v & sel & E & HK & _ & Hg & _); auto.
      rewrite E. cbn [bind]. exists sel. auto.
    - assert (Hlen : (1 <? length d) = true).
      { apply Nat.ltb_lt. rewrite <- (map_length fst), Hd. unfold K. rewrite seq_length, E0. simpl. lia. }
      rewrite Hlen.
      destruct (eom_children_ok A CT top (ct_up _ _ _ _ HT) (ct_bound _ _ _ _ HT) (ct_one _ _ _ _ HT) (ct_nodup _ _ _ _ HT)
                  d size_dict mx K Hlt0 HKs Sc emb sc n (S (S (length CT))) ltac:(lia) Hnt K_sub size_dict_all
                  (ch n) sel0 (incl_refl _) (ct_nodup _ _ _ _ HT n) HK0)
        as (sel & E & HK & Ho & Hg); auto.
      rewrite E. cbn [bind]. exists sel. split; auto. split; auto.
      apply (good_children A CT top (ct_up _ _ _ _ HT) (ct_bound _ _ _ _ HT) (ct_one _ _ _ _ HT) (ct_nodup _ _ _ _ HT)); auto.
      rewrite Ho; auto. intros c Hc H. apply (sub_ge ch top (ct_up _ _ _ _ HT) (ct_bound _ _ _ _ HT)) in H.
      apply (ct_up _ _ _ _ HT) in Hc. lia.
  Qed.
End Top.

Lemma sorted_keys {B} (p : nat * B -> bool) (l : list (nat * B)) :
  StronglySorted lt (map fst l) -> StronglySorted lt (map fst (filter p l)).
Proof.
  induction l as [|x l IH]; simpl; intro H; auto. inversion_clear H as [|? ? H1 H2].
  destruct (p x); simpl; auto. constructor; auto. apply Forall_forall. intros y Hy.
  apply in_map_iff in Hy as (z & <- & Hz). apply filter_In in Hz as [Hz _].
  rewrite Forall_forall in H2. apply H2. now apply in_map.
Qed.

Lemma seq_sorted a k : StronglySorted lt (seq a k).
Proof.
  revert a. induction k as [|k IH]; intro a; simpl; constructor; auto.
  apply Forall_forall. intros x Hx. apply in_seq in Hx. lia.
Qed.

Section Final.
  Context {V : WOrd} {Sz : SOrd} (A : Arith V Sz) (n : nat) (wt : nat -> Sz) (mcs : Sz) (T : list (crow V Sz)).
  Hypothesis HT : condensed n wt mcs T.
  Hypothesis Hmcs : slt sone mcs = true.
  Hypothesis Hn : 0 < n.
  Hypothesis Hlt0 : num_lt A (num_zero A) (num_zero A) = false.
  Variables (mx : option Sz) (single : bool).
  Notation CT := (cluster_rows n T).
  Notation ch := (children_of CT).
  Notation top := (top_id n T).
  Notation sb := (sub ch top).
  Notation K := (seq n (S (length CT))).

  Lemma sub_clusters c : In c (sb n) <-> n <= c < top.
  Proof.
    split.
    - intro H. destruct (sub_range _ _ _ _ HT _ _ H) as [->|]; unfold top_id in *; lia.
    - apply (sub_root _ _ _ _ HT).
  Qed.

  Lemma leaf_children c : leaf_cluster n T c -> ch c = [].
  Proof.
    intros [_ H]. destruct (ch c) as [|w l] eqn:E; auto. exfalso.
    assert (Hw : In w (ch c)) by (rewrite E; simpl; auto).
    apply ch_in in Hw as (r & Hr & Hp & _). apply (H r); auto.
    - now apply (ct_in n T).
    - apply filter_In in Hr as [_ Hr]. now apply Nat.leb_le.
  Qed.

  Lemma no_clusters_leaf : CT = [] -> leaf_cluster n T n.
  Proof.
    intro E. split; [left; auto|]. intros r Hr Hc _. assert (H : In r CT) by now apply in_ct.
    rewrite E in H. destruct H.
  Qed.

  (** Everything at once, relative to a reading [sc] of the scores. *)
  Lemma eom_all (Sc : SOrd) (emb : Sc -> num A) (sc : nat -> Sc) :
    CT <> [] ->
    exists S d, extract_eom_clusters A T (cluster_tree_from_condensed_tree T) mx single = Ok S /\
      score_condensed_tree_nodes A T = Ok d /\
      StronglySorted lt S /\
      (forall c, In c S -> admissible n T mx single c) /\
      disjoint_clusters n T S /\
      (forall c, leaf_cluster n T c -> (forall m s, mx = Some m -> recorded_size n T c s -> sle s m = true) -> exists s, In s S /\ (s = c \/ descends n T s c)) /\
      (exact A d K Sc emb sc ->
         (forall Y, NoDup Y -> (forall c, In c Y -> admissible n T mx single c) -> disjoint_clusters n T Y ->
            sle (value Sc sc Y) (value Sc sc S) = true) /\
         (forall c s, admissible n T mx single c -> In s S -> descends n T c s ->
            exists D, NoDup D /\ (forall x, In x D <-> In x S /\ (x = c \/ descends n T c x)) /\
              slt (clip Sc sc c) (value Sc sc D) = true)).
  Proof.
    intro Hne. destruct (score_ok n wt mcs T HT Hmcs A Hn) as (d & Ed & Hd).
    destruct (eom_core A n wt mcs T HT Hn Hlt0 mx single Sc emb sc d Ed Hd Hne) as (sel & HK & E & Hg).
    exists (map fst (filter snd sel)), d. rewrite (mask_ok _ _ _ _ HT Hmcs). split; auto. split; auto.
    pose proof (ct_up _ _ _ _ HT) as Hup. pose proof (ct_bound _ _ _ _ HT) as Hbd. pose proof (ct_one _ _ _ _ HT) as Hone.
    pose proof (ct_nodup _ _ _ _ HT) as Hnd.
    assert (HN : NoDup (map fst sel)) by (rewrite HK; apply seq_NoDup).
    assert (Hsel : forall k, In k (map fst (filter snd sel)) <-> selb sel k = true) by (intro; now apply selb_result).
    assert (HselK : forall k, selb sel k = true -> n <= k < top).
    { intros k Hk. unfold selb in Hk. destruct (dict_get sel k) as [b|] eqn:Eg; [|discriminate]. apply dict_get_found in Eg.
      assert (Hi : In k (map fst sel)) by (apply in_map_iff; exists (k, b); auto).
      rewrite HK in Hi. apply in_seq in Hi. unfold top_id. lia. }
    assert (Hch : forall k, In k (chosen CT top sel n) <-> In k (map fst (filter snd sel))).
    { intro k. unfold chosen. rewrite filter_In, Hsel. split; [tauto|]. intro H. split; auto. apply sub_clusters; auto. }
    assert (Hsort : StronglySorted lt (map fst (filter snd sel))).
    { apply sorted_keys. rewrite HK. apply seq_sorted. }
    split; auto.
    assert (HNS : NoDup (map fst (filter snd sel))).
    { clear -Hsort. induction Hsort as [|x l H1 IH H2]; constructor; auto. intro Hx.
      rewrite Forall_forall in H2. specialize (H2 x Hx). lia. }
    assert (HPerm : Permutation (chosen CT top sel n) (map fst (filter snd sel))).
    { apply NoDup_Permutation; auto. unfold chosen. apply NoDup_filter. now apply sub_NoDup. }
    (* the facts shared by both modes *)
    assert (Hanti : antichain ch top (chosen CT top sel n)) by (destruct single; apply Hg).
    assert (Hfits : forall k, In k (chosen CT top sel n) -> fits (size_dict n T) mx k) by (destruct single; apply Hg).
    assert (Hoff : single = false -> selb sel n = false) by (intros ->; apply Hg).
    assert (Hcov : forall l, In l (sb n) -> l <> n -> ch l = [] -> fits (size_dict n T) mx l ->
              exists k, In k (chosen CT top sel n) /\ In l (sb k)).
    { intros l H1 H2 H3 H4. destruct single; [apply (g_cover _ _ _ _ _ _ _ _ _ _ _ _ Hg)|apply (b_cover _ _ _ _ _ _ _ _ _ _ _ _ Hg)]; auto. }
    assert (Hopt : exact A d K Sc emb sc -> forall Y, NoDup Y -> incl Y (sb n) -> (single = false -> ~ In n Y) ->
              antichain ch top Y -> (forall k, In k Y -> fits (size_dict n T) mx k) ->
              sle (value Sc sc Y) (value Sc sc (chosen CT top sel n)) = true).
    { intros HE Y H1 H2 H3 H4 H5. destruct single;
        [apply (g_opt _ _ _ _ _ _ _ _ _ _ _ _ Hg)|apply (b_opt _ _ _ _ _ _ _ _ _ _ _ _ Hg)]; auto. }
    assert (Htie : exact A d K Sc emb sc -> forall k x, In k (sb n) -> (single = false -> k <> n) -> fits (size_dict n T) mx k ->
              In x (chosen CT top sel k) -> x <> k -> slt (clip Sc sc k) (value Sc sc (chosen CT top sel k)) = true).
    { intros HE k x H1 H2 H3 H4 H5. destruct single;
        [eapply (g_tie _ _ _ _ _ _ _ _ _ _ _ _ Hg)|eapply (b_tie _ _ _ _ _ _ _ _ _ _ _ _ Hg)]; eauto. }
    clear Hg.
    assert (Hadm : forall c, admissible n T mx single c <->
              n <= c < top /\ (single = false -> c <> n) /\ fits (size_dict n T) mx c).
    { intro c. unfold admissible. rewrite (is_cluster_iff _ _ _ _ HT). split; intros (H1 & H2 & H3); split; auto; split; auto.
      - now apply (fits_iff n wt mcs T HT).
      - now apply (fits_iff n wt mcs T HT). }
    assert (Hdis : forall Y, (forall y, In y Y -> n <= y < top) -> (disjoint_clusters n T Y <-> antichain ch top Y)).
    { intros Y HY. split.
      - intros H s t Hs Ht Hst. destruct (Nat.eq_dec s t) as [|Hst']; auto. exfalso.
        apply (H s t Hs Ht). apply (descends_sub _ _ _ _ HT). auto.
      - intros H c e Hc He Hde. apply (descends_sub _ _ _ _ HT) in Hde as [Hde Hne']. apply Hne'. symmetry. now apply H. }
    split; [|split; [|split]].
    - intros c Hc. apply Hadm. split; [apply HselK; now apply Hsel|]. split.
      + intros Hs ->. apply Hsel in Hc. rewrite Hoff in Hc by auto. discriminate.
      + apply Hfits. now apply Hch.
    - apply Hdis; [intros y Hy; apply HselK; now apply Hsel|].
      intros s t Hs Ht. apply Hanti; now apply Hch.
    - intros c Hc Hfc. pose proof (leaf_children c Hc) as Hlc. destruct Hc as [Hc Hcl].
      apply (is_cluster_iff _ _ _ _ HT) in Hc.
      destruct (Nat.eq_dec c n) as [->|Hcn].
      + exfalso. destruct (root_children _ _ _ _ HT Hne) as (r & Hr & Hp). apply (Hcl r); auto.
        * now apply (ct_in n T).
        * apply filter_In in Hr as [_ Hr]. now apply Nat.leb_le.
      + destruct (Hcov c) as (k & Hk & Hck); auto. { now apply sub_clusters. } { now apply (fits_iff n wt mcs T HT). }
        exists k. split; [now apply Hch|]. destruct (Nat.eq_dec k c) as [|Hkc]; auto.
        right. apply (descends_sub _ _ _ _ HT). auto.
    - intro HE. split.
      + intros Y HNY HYa HYd.
        assert (HYr : forall y, In y Y -> n <= y < top) by (intros y Hy; now apply Hadm, HYa).
        rewrite <- (value_perm Sc sc _ _ HPerm). apply Hopt; auto.
        * intros y Hy. apply sub_clusters. auto.
        * intros Hs Hy. apply HYa, Hadm in Hy. tauto.
        * now apply Hdis.
        * intros k Hk. apply HYa, Hadm in Hk. tauto.
      + intros c s Hc Hs Hcs. apply Hadm in Hc as (Hc1 & Hc2 & Hc3).
        apply (descends_sub _ _ _ _ HT) in Hcs as [Hcs Hne'].
        exists (chosen CT top sel c). split; [unfold chosen; apply NoDup_filter; now apply sub_NoDup|]. split.
        * intro x. unfold chosen. rewrite filter_In, Hsel, (descends_sub _ _ _ _ HT).
          destruct (Nat.eq_dec x c) as [->|Hxc]; [|tauto].
          split; [tauto|]. intros [H _]. split; auto. now apply sub_self.
        * apply (Htie HE c s); auto.
          -- now apply sub_clusters.
          -- apply filter_In. split; auto. now apply Hsel.
  Qed.

  Lemma eom_empty : CT = [] -> extract_eom_clusters A T (cluster_tree_from_condensed_tree T) mx single = Ok [].
  Proof.
    intro Hne. destruct (score_ok n wt mcs T HT Hmcs A Hn) as (d & Ed & Hd).
    unfold extract_eom_clusters. rewrite Ed, (mask_ok _ _ _ _ HT Hmcs). cbn [bind]. now rewrite Hne.
  Qed.
End Final.
