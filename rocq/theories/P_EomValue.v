(** What makes eom_recursion select a cluster, for any arithmetic of scores. *)
From Coq Require Import List Arith Lia Bool Permutation Sorted QArith Qcanon.
From Verif Require Import Prelude Order Size Num Forest M_Linkage M_Condense S_Condense M_Select S_Select S_Pipeline P_CTree P_Below P_Eom P_EomTop.
Import ListNotations.
Local Open Scope nat_scope.

(** ** Scores as left folds *)
Section Score.
  Context {V : WOrd} {Sz : SOrd} (A : Arith V Sz) (n : nat) (wt : nat -> Sz) (mcs : Sz) (T : list (crow V Sz)).
  Hypothesis HT : condensed n wt mcs T.
  Hypothesis Hmcs : slt sone mcs = true.
  Notation mass r := (num_mul A (c_lam r) (c_size r)).
  Notation keys T1 := (n :: map c_child (cluster_rows n T1)).

  Definition start (k : nat) : num A :=
    match find (fun r => c_child r =? k) T with Some r => num_opp A (mass r) | None => num_zero A end.
  Definition add_row (k : nat) (x : num A) (r : crow V Sz) : num A := if c_parent r =? k then num_add A x (mass r) else x.
  Definition score (k : nat) : num A := fold_left (add_row k) T (start k).

  Lemma add_none k l : forall x, (forall r : crow V Sz, In r l -> c_parent r <> k) -> fold_left (add_row k) l x = x.
  Proof.
    induction l as [|r l IH]; intros x H; auto. cbn [fold_left]. unfold add_row at 2.
    destruct (Nat.eqb_spec (c_parent r) k) as [E|_]; [exfalso; apply (H r); simpl; auto|]. apply IH. intros q Hq. apply H. simpl; auto.
  Qed.

  Lemma add_snoc k l r x : fold_left (add_row k) (l ++ [r]) x =
    if c_parent r =? k then num_add A (fold_left (add_row k) l x) (mass r) else fold_left (add_row k) l x.
  Proof. rewrite fold_left_app. reflexivity. Qed.

  Lemma start_row r : In r T -> start (c_child r) = num_opp A (mass r).
  Proof.
    intro Hr. unfold start. destruct (find (fun q => c_child q =? c_child r) T) as [q|] eqn:E.
    - apply find_some in E as [Hq E]. apply Nat.eqb_eq in E. assert (q = r) as -> by (eapply row_eq; eauto). auto.
    - exfalso. pose proof (find_none _ _ E r Hr) as H. cbv beta in H. rewrite Nat.eqb_refl in H. discriminate.
  Qed.
  Lemma start_root : start n = num_zero A.
  Proof.
    unfold start. destruct (find (fun q => c_child q =? n) T) as [q|] eqn:E; auto. apply find_some in E as [Hq E]. apply Nat.eqb_eq in E.
    assert (Hc : In q (cluster_rows n T)) by (apply filter_In; split; auto; apply Nat.leb_le; lia).
    pose proof (ct_child_in _ _ _ _ HT q Hc). lia.
  Qed.

  Lemma score_folds : forall T2 T1 d d', T = T1 ++ T2 ->
    map fst d = keys T1 ->
    (forall k, In k (keys T1) -> dict_get d k = Ok (fold_left (add_row k) T1 (start k))) ->
    fold_res (score_step A) T2 d = Ok d' ->
    forall k, In k (keys T) -> dict_get d' k = Ok (score k).
  Proof.
    induction T2 as [|r T2 IH]; intros T1 d d' E Hd Hv HR k Hk; cbn [fold_res] in HR.
    - injection HR as <-. rewrite app_nil_r in E. unfold score. rewrite E in *. auto.
    - assert (Hr : In r T) by (rewrite E; apply in_elt).
      pose proof (row_up _ _ _ _ HT _ _ _ E) as Hp. pose proof (prefix_ids n wt mcs T HT _ _ E) as Hids.
      assert (E' : T = (T1 ++ [r]) ++ T2) by (rewrite <- app_assoc; auto).
      assert (Hpin : In (c_parent r) (keys T1)).
      { rewrite Hids. destruct (Nat.eq_dec (c_parent r) n) as [->|]; [left; auto|right; apply in_seq; lia]. }
      assert (Hpar : forall q, In q T1 -> c_parent q < n + 1 + length (cluster_rows n T1)).
      { intros q Hq. apply in_split in Hq as (l1 & l2 & Eq). rewrite Eq in E. rewrite <- app_assoc in E. simpl in E.
        pose proof (row_up _ _ _ _ HT _ _ _ E) as H. rewrite Eq, cluster_rows_app, app_length. lia. }
      assert (Hpar' : c_parent r < n + 1 + length (cluster_rows n T1)) by (destruct Hpin as [<-|Hi]; [lia|rewrite Hids in Hi; apply in_seq in Hi; lia]).
      unfold score_step at 1 in HR. rewrite (row_kind n wt mcs T HT Hmcs r Hr) in HR.
      destruct (Nat.leb_spec n (c_child r)) as [H|H].
      + pose proof (row_child _ _ _ _ HT _ _ _ E H) as Hc.
        assert (Hnew : ~ In (c_child r) (map fst d)).
        { rewrite Hd, Hids. intros [?|Hi]; [lia|apply in_seq in Hi; lia]. }
        rewrite dict_set_new in HR by auto. set (d1 := d ++ _) in HR.
        assert (Ek : keys (T1 ++ [r]) = keys T1 ++ [c_child r]).
        { rewrite cluster_rows_app, map_app. unfold cluster_rows at 2. cbn [filter]. rewrite (proj2 (Nat.leb_le _ _) H). reflexivity. }
        assert (Hd1 : map fst d1 = keys (T1 ++ [r])) by (unfold d1; rewrite map_app, Hd, Ek; reflexivity).
        assert (HN1 : NoDup (map fst d1)).
        { rewrite Hd1, (prefix_ids n wt mcs T HT _ _ E').
          change (n :: seq (n + 1) (length (cluster_rows n (T1 ++ [r])))) with ([n] ++ seq (n + 1) (length (cluster_rows n (T1 ++ [r])))).
          replace (n + 1) with (S n) by lia. apply (seq_NoDup (S _) n). }
        assert (Hv1 : forall k, In k (keys (T1 ++ [r])) -> dict_get d1 k = Ok (fold_left (add_row k) T1 (start k))).
        { intros k' Hk'. rewrite Ek in Hk'. apply dict_get_unique; auto. unfold d1. apply in_or_app.
          apply in_app_or in Hk' as [Hk'|[<-|[]]].
          - left. apply dict_get_found. auto.
          - right. rewrite (start_row r Hr), add_none; [simpl; auto|]. intros q Hq. pose proof (Hpar q Hq). lia. }
        rewrite Hv1 in HR. 2:{ rewrite Ek. apply in_or_app. auto. }
        cbn [bind] in HR. apply (IH (T1 ++ [r]) _ d' E') with (k := k) in HR; auto.
        * rewrite dict_set_keys; auto. rewrite Hd1, Ek. apply in_or_app. auto.
        * intros k' Hk'. rewrite dict_get_set, add_snoc.
          destruct (Nat.eqb_spec k' (c_parent r)) as [->|Hne]; [now rewrite Nat.eqb_refl|].
          rewrite (proj2 (Nat.eqb_neq (c_parent r) k')) by auto. auto.
      + rewrite (Hv _ Hpin) in HR. cbn [bind] in HR.
        assert (Ek : keys (T1 ++ [r]) = keys T1).
        { rewrite cluster_rows_app, map_app. unfold cluster_rows at 2. cbn [filter]. rewrite (proj2 (Nat.leb_gt _ _) H). cbn [map]. now rewrite app_nil_r. }
        apply (IH (T1 ++ [r]) _ d' E') with (k := k) in HR; auto.
        * rewrite dict_set_keys by (rewrite Hd; auto). now rewrite Ek.
        * intros k' Hk'. rewrite Ek in Hk'. rewrite dict_get_set, add_snoc.
          destruct (Nat.eqb_spec k' (c_parent r)) as [->|Hne]; [now rewrite Nat.eqb_refl|].
          rewrite (proj2 (Nat.eqb_neq (c_parent r) k')) by auto. auto.
  Qed.

  Lemma score_fold d : 0 < n -> score_condensed_tree_nodes A T = Ok d ->
    forall k, n <= k < top_id n T -> dict_get d k = Ok (score k).
  Proof.
    intros Hn HR k Hk.
    assert (exists r l, T = r :: l) as (r & l & E).
    { pose proof (rows_nonempty _ _ _ _ HT Hn). destruct T as [|r l]; [congruence|eauto]. }
    unfold score_condensed_tree_nodes in HR. rewrite E in HR. rewrite <- E in HR.
    rewrite (first_parent _ _ _ _ HT _ _ E) in HR.
    apply (score_folds T [] [(n, num_zero A)] d eq_refl) with (k := k) in HR; auto.
    - intros k' [<-|[]]. simpl. now rewrite Nat.eqb_refl, start_root.
    - rewrite (ids _ _ _ _ HT). unfold top_id in Hk.
      destruct (Nat.eq_dec k n) as [->|]; [left; auto|right; apply in_seq; lia].
  Qed.
End Score.

(** ** Values *)
Section Value.
  Context {V : Type} {Sz : SOrd} (A : Arith V Sz).
  Variables (ct : list (crow V Sz)) (scores : list (nat * num A)) (sizes : list (nat * Sz)) (sc : nat -> num A).
  Notation ch := (children_of ct).
  Hypothesis Hsc : forall k s, dict_get scores k = Ok s -> s = sc k.

  Definition cur (v : nat) : num A := if num_lt A (sc v) (num_zero A) then num_zero A else sc v.
  Fixpoint ev (fuel v : nat) : num A :=
    match fuel with
    | 0 => num_zero A
    | S f => let total := fold_left (fun t c => num_add A t (ev f c)) (ch v) (num_zero A) in
             if num_lt A (cur v) total then total else cur v
    end.
  Definition children_value (f v : nat) : num A := fold_left (fun t c => num_add A t (ev f c)) (ch v) (num_zero A).
  (** [v] beats everything below it. *)
  Definition wins (fuel v : nat) : Prop := num_lt A (cur v) (children_value fuel v) = false.

  Lemma unselect_sel : forall fuel node sel sel', unselect_below_node ct fuel node sel = Ok sel' ->
    forall k, selb sel' k = true -> selb sel k = true.
  Proof.
    induction fuel as [|f IH]; intros node sel sel' E k Hk; cbn [unselect_below_node] in E; [discriminate|].
    revert sel E. induction (ch node) as [|c cs IHc]; intros sel E; cbn [fold_res] in E; [now injection E as <-|].
    destruct (unselect_below_node ct f c sel) as [s1|] eqn:E1; cbn [bind] in E; [|discriminate].
    apply IHc in E. rewrite selb_set in E. destruct (k =? c); [discriminate|]. eapply IH; eauto.
  Qed.

  Lemma set_keys {B} (d : list (nat * B)) k v : NoDup (map fst d) -> NoDup (map fst (dict_set d k v)).
  Proof.
    intro H. destruct (in_dec Nat.eq_dec k (map fst d)) as [Hi|Hi]; [now rewrite dict_set_keys|].
    rewrite dict_set_new by auto. rewrite map_app. apply NoDup_app_intro'; auto; [repeat constructor; auto|].
    intros x Hx [<-|[]]. auto.
  Qed.
  Lemma unselect_keys : forall fuel node sel sel', unselect_below_node ct fuel node sel = Ok sel' -> NoDup (map fst sel) -> NoDup (map fst sel').
  Proof.
    induction fuel as [|f IH]; intros node sel sel' E HN; cbn [unselect_below_node] in E; [discriminate|].
    revert sel E HN. induction (ch node) as [|c cs IHc]; intros sel E HN; cbn [fold_res] in E; [now injection E as <-|].
    destruct (unselect_below_node ct f c sel) as [s1|] eqn:E1; cbn [bind] in E; [|discriminate].
    apply IHc in E; auto. apply set_keys. eapply IH; eauto.
  Qed.
  Lemma eom_keys : forall fuel node sel v sel', eom_recursion A ct scores sizes None fuel node sel = Ok (v, sel') ->
    NoDup (map fst sel) -> NoDup (map fst sel').
  Proof.
    induction fuel as [|f IH]; intros node sel v sel' E HN; cbn [eom_recursion] in E; [discriminate|].
    destruct (dict_get scores node) as [s|]; [|discriminate]. cbn [bind] in E.
    destruct (dict_get sizes node) as [sz|]; [|discriminate]. cbn [bind] in E.
    match type of E with bind (fold_res ?g ?l ?a) _ = _ =>
      assert (HF : forall cs t0 sel0 t1 sel1, fold_res g cs (t0, sel0) = Ok (t1, sel1) -> NoDup (map fst sel0) -> NoDup (map fst sel1)) end.
    { induction cs as [|c cs IHc]; intros t0 sel0 t1 sel1 E1 HN0; cbn [fold_res] in E1; [injection E1 as <- <-; auto|].
      cbn [fst snd] in E1. destruct (eom_recursion A ct scores sizes None f c sel0) as [[v2 sel2]|] eqn:E2; cbn [bind] in E1; [|discriminate].
      apply IHc in E1; auto. eapply IH; eauto. }
    destruct (fold_res _ (ch node) _) as [[t1 sel1]|] eqn:E1; cbn [bind] in E; [|discriminate]. apply HF in E1; auto.
    destruct (_ || _); [injection E as <- <-; auto|].
    destruct (unselect_below_node ct f node (dict_set sel1 node true)) as [s2|] eqn:E2; cbn [bind] in E; [|discriminate].
    injection E as <- <-. apply (unselect_keys _ _ _ _ E2). now apply set_keys.
  Qed.
  Lemma eom_children_keys fuel : forall cs sel sel', eom_children A ct scores sizes None fuel cs sel = Ok sel' ->
    NoDup (map fst sel) -> NoDup (map fst sel').
  Proof.
    unfold eom_children. induction cs as [|c cs IH]; intros sel sel' E HN; cbn [fold_res] in E; [injection E as <-; auto|].
    destruct (eom_recursion A ct scores sizes None fuel c sel) as [[v s1]|] eqn:E1; cbn [bind] in E; [|discriminate].
    apply IH in E; auto. eapply eom_keys; eauto.
  Qed.

  Variable M : nat.
  Hypothesis ch_up : forall v w, In w (ch v) -> v < w.
  Hypothesis ch_bound : forall v w, In w (ch v) -> w < M.

  Lemma eom_value : forall fuel node sel v sel', M - node < fuel -> node < M ->
    eom_recursion A ct scores sizes None fuel node sel = Ok (v, sel') ->
    v = ev fuel node /\ (forall k, selb sel' k = true -> selb sel k = true \/ exists f, M - k <= f /\ k < M /\ wins f k).
  Proof.
    induction fuel as [|f IH]; intros node sel v sel' Hf Hn E; [lia|]. cbn [eom_recursion] in E.
    destruct (dict_get scores node) as [s|] eqn:Es; [|discriminate]. cbn [bind] in E. apply Hsc in Es. subst s. fold (cur node) in E.
    destruct (dict_get sizes node) as [sz|]; [|discriminate]. cbn [bind] in E.
    match type of E with bind (fold_res ?g ?l ?a) _ = _ =>
      assert (HF : forall cs t0 sel0 t1 sel1, incl cs (ch node) -> fold_res g cs (t0, sel0) = Ok (t1, sel1) ->
        t1 = fold_left (fun t c => num_add A t (ev f c)) cs t0 /\
        (forall k, selb sel1 k = true -> selb sel0 k = true \/ exists f, M - k <= f /\ k < M /\ wins f k)) end.
    { induction cs as [|c cs IHc]; intros t0 sel0 t1 sel1 Hi E1; cbn [fold_res] in E1; [injection E1 as <- <-; auto|].
      cbn [fst snd] in E1. destruct (eom_recursion A ct scores sizes None f c sel0) as [[v2 sel2]|] eqn:E2; cbn [bind] in E1; [|discriminate].
      assert (Hc : In c (ch node)) by (apply Hi; simpl; auto). pose proof (ch_up _ _ Hc). pose proof (ch_bound _ _ Hc).
      apply IH in E2 as [-> Hs2]; [|lia|auto]. apply IHc in E1 as [-> Hs1]; [|intros x Hx; apply Hi; simpl; auto].
      split; auto. intros k Hk. destruct (Hs1 k Hk) as [Hk2|]; auto. }
    destruct (fold_res _ (ch node) _) as [[t1 sel1]|] eqn:E1; cbn [bind] in E; [|discriminate].
    apply HF in E1 as [-> Hs1]; [|apply incl_refl]. fold (children_value f node) in E. cbn [over_max] in E. rewrite orb_false_r in E.
    cbn [ev]. fold (children_value f node). cbn zeta. destruct (num_lt A (cur node) (children_value f node)) eqn:El.
    - injection E as <- <-. auto.
    - destruct (unselect_below_node ct f node (dict_set sel1 node true)) as [s2|] eqn:E2; cbn [bind] in E; [|discriminate].
      injection E as <- <-. split; auto. intros k Hk. apply (unselect_sel _ _ _ _ E2) in Hk. rewrite selb_set in Hk.
      destruct (Nat.eqb_spec k node) as [Ek|Ek]; [right; rewrite Ek; exists f; split; [lia|auto]|auto].
  Qed.

  Lemma eom_children_value fuel : forall cs sel sel', (forall c, In c cs -> M - c < fuel /\ c < M) ->
    eom_children A ct scores sizes None fuel cs sel = Ok sel' ->
    forall k, selb sel' k = true -> selb sel k = true \/ exists f, M - k <= f /\ k < M /\ wins f k.
  Proof.
    unfold eom_children. induction cs as [|c cs IH]; intros sel sel' Hc E k Hk; cbn [fold_res] in E; [injection E as <-; auto|].
    destruct (eom_recursion A ct scores sizes None fuel c sel) as [[v s1]|] eqn:E1; cbn [bind] in E; [|discriminate].
    destruct (Hc c) as [H1 H2]; [simpl; auto|]. apply eom_value in E1 as [_ Hs]; auto.
    destruct (IH s1 sel' ltac:(intros x Hx; apply Hc; simpl; auto) E k Hk) as [Hk1|]; auto.
  Qed.
End Value.

Section Wins.
  Context {V : WOrd} {Sz : SOrd} (A : Arith V Sz) (n : nat) (wt : nat -> Sz) (mcs : Sz) (T : list (crow V Sz)).
  Hypothesis HT : condensed n wt mcs T.
  Hypothesis Hmcs : slt sone mcs = true.
  Hypothesis Hn : 0 < n.
  Notation CT := (cluster_rows n T).
  Notation top := (top_id n T).
  Notation sc := (score A T).

  Lemma selected_wins single S : extract_eom_clusters A T (cluster_tree_from_condensed_tree T) None single = Ok S ->
    forall s, In s S -> exists f, top - s <= f /\ s < top /\ wins A CT sc f s.
  Proof.
    intros E s Hs. rewrite (mask_ok n wt mcs T HT Hmcs) in E. unfold extract_eom_clusters in E.
    destruct (score_ok n wt mcs T HT Hmcs A Hn) as (d & Ed & Hd). rewrite Ed in E. cbn [bind] in E.
    assert (HNd : NoDup (map fst d)) by (rewrite Hd; apply seq_NoDup).
    assert (Hsc : forall k v, dict_get d k = Ok v -> v = sc k).
    { intros k v Ek. assert (Hk : In k (map fst d)) by (apply dict_get_found in Ek; apply in_map_iff; exists (k, v); auto).
      rewrite Hd in Hk. apply in_seq in Hk. rewrite (score_fold A n wt mcs T HT Hmcs d Hn Ed k) in Ek by (unfold top_id; lia). congruence. }
    destruct CT as [|r0 l0] eqn:EC; [injection E as <-; destruct Hs|]. rewrite <- EC in *.
    assert (Hne : CT <> []) by (rewrite EC; discriminate). rewrite (ct_min _ _ _ _ HT Hne) in E. cbn [bind] in E.
    set (sel0 := map (fun kv => (fst kv, false)) d) in E.
    assert (Hoff : forall k, selb sel0 k = false).
    { intro k. unfold selb. destruct (dict_get sel0 k) as [b|] eqn:Eg; auto. apply dict_get_found in Eg.
      unfold sel0 in Eg. apply in_map_iff in Eg as (kv & Eg & _). now injection Eg. }
    set (sizes := dict_set _ n _) in E.
    pose proof (ct_up _ _ _ _ HT) as Hup. pose proof (ct_bound _ _ _ _ HT) as Hbd.
    assert (HN0 : NoDup (map fst sel0)) by (unfold sel0; rewrite map_map; exact HNd).
    assert (Hall : forall sel, (forall k, selb sel k = true -> selb sel0 k = true \/ exists f, top - k <= f /\ k < top /\ wins A CT sc f k) ->
      In s (map fst (filter snd sel)) -> NoDup (map fst sel) -> exists f, top - s <= f /\ s < top /\ wins A CT sc f s).
    { intros sel H Hi HN. apply selb_result in Hi; auto. destruct (H s Hi) as [H0|]; auto. rewrite Hoff in H0. discriminate. }
    destruct single.
    - destruct (eom_recursion A CT d sizes None _ n sel0) as [[v sel]|] eqn:Er; cbn [bind] in E; [|discriminate].
      injection E as <-. pose proof (eom_keys _ _ _ _ _ _ _ _ _ Er HN0) as HN.
      apply (eom_value A CT d sizes sc Hsc top Hup Hbd) in Er as [_ H]; [|unfold top_id; lia|unfold top_id; lia].
      apply (Hall sel); auto.
    - destruct (1 <? length d).
      + destruct (eom_children A CT d sizes None _ _ sel0) as [sel|] eqn:Er; cbn [bind] in E; [|discriminate].
        injection E as <-. pose proof (eom_children_keys _ _ _ _ _ _ _ _ Er HN0) as HN.
        apply (Hall sel); auto. eapply (eom_children_value A CT d sizes sc Hsc top Hup Hbd); [|exact Er].
        intros c Hc. pose proof (Hup _ _ Hc). pose proof (Hbd _ _ Hc). split; auto. unfold top_id in *. lia.
      + cbn [bind] in E. injection E as <-. exfalso. apply selb_result in Hs; auto. rewrite Hoff in Hs. discriminate.
  Qed.
End Wins.


(** ** Scores that respect zero and the sign *)
Section Zero.
  Context {W V : WOrd} {Sz : SOrd} (lam : W -> V) (A : Arith V Sz) (n : nat) (wt : nat -> Sz) (mcs : Sz) (T : list (crow V Sz)).
  Variables (zero : V) (Z N P : num A -> Prop).
  Hypothesis HL : ScoreLaws lam A zero Z N P.
  Hypothesis HT : condensed n wt mcs T.
  Hypothesis Hrow : forall r, In r T -> exists d, c_lam r = lam d.
  Hypothesis Hmcs : slt sone mcs = true.
  Hypothesis Hn : 0 < n.
  Hypothesis Hpos : forall r, In r T -> wle zero (c_lam r) = true.
  (** Everything else leaves a cluster before it splits at density zero. *)
  Hypothesis Hsplit : forall q q0, In q T -> In q0 T -> n <= c_child q0 -> c_parent q = c_parent q0 ->
    wle (c_lam q0) zero = true -> wle (c_lam q) zero = true.
  Notation CT := (cluster_rows n T).
  Notation ch := (children_of CT).
  Notation top := (top_id n T).
  Notation sc := (score A T).
  Notation mass r := (num_mul A (c_lam r) (c_size r)).
  Notation ev := (ev A CT sc).
  Notation cur := (cur A sc).

  Lemma row_size r : In r T -> sle sone (c_size r) = true.
  Proof.
    intro Hr. destruct (Nat.lt_ge_cases (c_child r) n) as [Hc|Hc]; [rewrite (ct_sample_size _ _ _ _ HT r Hr Hc); apply sle_refl|].
    destruct (ct_sizes _ _ _ _ HT r Hr Hc) as [Hs _]. apply (sle_trans Sz _ mcs); auto.
    destruct (sle_total Sz sone mcs) as [|H]; auto. apply slt_true in Hmcs. congruence.
  Qed.
  Definition at0 (r : crow V Sz) : Prop := wle (c_lam r) zero = true.
  Lemma massZ r : In r T -> at0 r -> Z (mass r).
  Proof. intros Hr H0. apply (sl_mul0 _ _ _ _ _ _ HL); auto. now apply row_size. Qed.
  Lemma massP r : In r T -> ~ at0 r -> P (mass r).
  Proof.
    intros Hr H0. pose proof (row_size r Hr) as Hs. unfold at0 in H0. destruct (Hrow r Hr) as (d & Ed). rewrite Ed in *.
    apply (sl_mulP _ _ _ _ _ _ HL); auto. unfold wlt. destruct (wle (lam d) zero); auto.
  Qed.
  Lemma massN r : In r T -> N (mass r).
  Proof.
    intro Hr. destruct (wle (c_lam r) zero) eqn:E; [apply (sl_ZN _ _ _ _ _ _ HL), massZ; auto|].
    apply (sl_PN _ _ _ _ _ _ HL), massP; auto. unfold at0. congruence.
  Qed.

  (** Clusters born at density zero (or the root). *)
  Definition zero_born (d : nat) : Prop := d = n \/ exists q, In q T /\ n <= c_child q /\ c_child q = d /\ at0 q.

  Lemma zero_start d : zero_born d -> Z (start A T d).
  Proof.
    intros [->|(q & Hq & Hc & <- & H0)].
    - rewrite (start_root A n wt mcs T HT). apply (sl_zero _ _ _ _ _ _ HL).
    - rewrite (start_row A n wt mcs T HT q Hq). apply (sl_opp _ _ _ _ _ _ HL), massZ; auto.
  Qed.
  Lemma foldN d : forall l x, incl l T -> N x -> N (fold_left (add_row A d) l x).
  Proof.
    induction l as [|r l IH]; intros x Hl Hx; auto. cbn [fold_left]. apply IH; [intros y Hy; apply Hl; simpl; auto|].
    unfold add_row. destruct (c_parent r =? d); auto. apply (sl_addN _ _ _ _ _ _ HL); auto. apply massN, Hl. simpl; auto.
  Qed.
  Lemma foldP' d : forall l x, incl l T -> P x -> P (fold_left (add_row A d) l x).
  Proof.
    induction l as [|r l IH]; intros x Hl Hx; auto. cbn [fold_left]. apply IH; [intros y Hy; apply Hl; simpl; auto|].
    unfold add_row. destruct (c_parent r =? d); auto. apply (sl_addP1 _ _ _ _ _ _ HL); auto. apply massN, Hl. simpl; auto.
  Qed.
  Lemma foldP d r : ~ at0 r -> c_parent r = d -> forall l x, incl l T -> In r l -> N x -> P (fold_left (add_row A d) l x).
  Proof.
    intros H0 Ep. induction l as [|q l IH]; intros x Hl Hi Hx; [destruct Hi|]. cbn [fold_left].
    assert (Hl' : incl l T) by (intros y Hy; apply Hl; simpl; auto). assert (Hq : In q T) by (apply Hl; simpl; auto).
    destruct Hi as [->|Hi].
    - apply foldP'; auto. unfold add_row. rewrite (proj2 (Nat.eqb_eq _ _) Ep). apply (sl_addP2 _ _ _ _ _ _ HL); auto. now apply massP.
    - apply IH; auto. unfold add_row. destruct (c_parent q =? d); auto. apply (sl_addN _ _ _ _ _ _ HL); auto. now apply massN.
  Qed.
  Lemma foldZ d : (forall r, In r T -> c_parent r = d -> at0 r) -> forall l x, incl l T -> Z x -> Z (fold_left (add_row A d) l x).
  Proof.
    intro H0. induction l as [|r l IH]; intros x Hl Hx; auto. cbn [fold_left]. apply IH; [intros y Hy; apply Hl; simpl; auto|].
    unfold add_row. destruct (Nat.eqb_spec (c_parent r) d); auto. apply (sl_addZ _ _ _ _ _ _ HL); auto. apply massZ; [|apply H0]; auto; apply Hl; simpl; auto.
  Qed.

  Lemma scoreN d : zero_born d -> N (sc d).
  Proof. intro H. apply foldN; [apply incl_refl|]. now apply (sl_ZN _ _ _ _ _ _ HL), zero_start. Qed.
  Lemma curN d : zero_born d -> cur d = sc d.
  Proof. intro H. unfold P_EomValue.cur. now rewrite (sl_N0 _ _ _ _ _ _ HL) by now apply scoreN. Qed.

  Lemma evN f d : zero_born d -> N (ev f d).
  Proof.
    intro H. destruct f as [|f]; cbn [P_EomValue.ev]; [apply (sl_ZN _ _ _ _ _ _ HL), (sl_zero _ _ _ _ _ _ HL)|].
    rewrite (curN d H). destruct (num_lt A (sc d) _) eqn:E; [|now apply scoreN].
    apply (sl_PN _ _ _ _ _ _ HL). apply (sl_ltP _ _ _ _ _ _ HL _ _ (scoreN d H) E).
  Qed.

  Lemma sumP (g : nat -> num A) c cs : In c cs -> (forall x, In x cs -> N (g x)) -> P (g c) -> forall t, N t ->
    P (fold_left (fun t x => num_add A t (g x)) cs t).
  Proof.
    assert (Hp : forall cs t, (forall x, In x cs -> N (g x)) -> P t -> P (fold_left (fun t x => num_add A t (g x)) cs t)).
    { clear cs. induction cs as [|x cs IH]; intros t HN HP; auto. cbn [fold_left]. apply IH; [intros y Hy; apply HN; simpl; auto|].
      apply (sl_addP1 _ _ _ _ _ _ HL); auto. apply HN. simpl; auto. }
    intros Hc HN HP. induction cs as [|x cs IH]; intros t Ht; [destruct Hc|]. cbn [fold_left].
    assert (HN' : forall y, In y cs -> N (g y)) by (intros y Hy; apply HN; simpl; auto).
    destruct Hc as [->|Hc]; [apply Hp; auto; apply (sl_addP2 _ _ _ _ _ _ HL); auto|].
    apply IH; auto. apply (sl_addN _ _ _ _ _ _ HL); auto. apply HN. simpl; auto.
  Qed.

  (** Two clusters born from one parent are born together. *)
  Lemma born_together q q' : In q T -> In q' T -> n <= c_child q -> n <= c_child q' -> c_parent q = c_parent q' -> at0 q -> at0 q'.
  Proof. intros Hq Hq' Hc Hc' Ep H0. unfold at0 in *. apply (Hsplit q' q); auto. Qed.

  Lemma sumP_children f d q r : In q T -> n <= c_child q -> c_parent q = d -> at0 q -> P (ev f (c_child q)) -> r = d ->
    P (children_value A CT sc f r).
  Proof.
    intros Hq Hc Ep H0 HP ->. unfold children_value.
    apply (sumP (fun c => ev f c) (c_child q)); auto.
    - unfold children_of. apply in_map. apply filter_In. rewrite Ep, Nat.eqb_refl. split; auto. apply filter_In. split; auto. now apply Nat.leb_le.
    - intros x Hx. apply (ch_in n T) in Hx as (q' & Hq' & Ep' & <-). apply filter_In in Hq' as [Hq' Hc']. apply Nat.leb_le in Hc'.
      apply evN. right. exists q'. split; auto. split; auto. split; auto. apply (born_together q); auto. congruence.
    - apply (sl_ZN _ _ _ _ _ _ HL), (sl_zero _ _ _ _ _ _ HL).
  Qed.

  Lemma evP d x : below n T d x -> forall f, zero_born d -> d < top -> top - d < f ->
    (forall r, In r T -> c_child r = x -> ~ at0 r) -> P (ev f d).
  Proof.
    induction 1 as [r x Hr Ex Hx|r x Hr Hc Hb IH]; intros f Hz Hd Hf H0; (destruct f as [|f]; [lia|]); cbn [P_EomValue.ev]; rewrite (curN _ Hz).
    - assert (HP : P (sc (c_parent r))).
      { unfold score. apply (foldP _ r); auto; [apply incl_refl|]. now apply (sl_ZN _ _ _ _ _ _ HL), zero_start. }
      destruct (num_lt A _ _) eqn:E; auto. apply (sl_ltP _ _ _ _ _ _ HL) in E; auto. now apply scoreN.
    - destruct (wle (c_lam r) zero) eqn:E0.
      + assert (Hcr : In r CT) by (apply filter_In; split; auto; now apply Nat.leb_le).
        pose proof (ct_child_in _ _ _ _ HT r Hcr) as Hr1.
        assert (Hin : In (c_child r) (ch (c_parent r))) by (apply in_map, filter_In; split; auto; apply Nat.eqb_refl).
        pose proof (ct_up _ _ _ _ HT _ _ Hin) as Hr2. pose proof (ct_bound _ _ _ _ HT _ _ Hin) as Hr3.
        assert (HPc : P (ev f (c_child r))).
        { apply IH; auto; [|lia]. right. exists r. auto. }
        fold (children_value A CT sc f (c_parent r)).
        pose proof (sumP_children f _ r (c_parent r) Hr Hc eq_refl E0 HPc eq_refl) as HPt.
        destruct (num_lt A _ _) eqn:E; auto. apply (sl_geP _ _ _ _ _ _ HL) in E; auto. now apply scoreN.
      + assert (HP : P (sc (c_parent r))).
        { unfold score. apply (foldP _ r); auto; [unfold at0; congruence|apply incl_refl|]. now apply (sl_ZN _ _ _ _ _ _ HL), zero_start. }
        destruct (num_lt A _ _) eqn:E; auto. apply (sl_ltP _ _ _ _ _ _ HL) in E; auto. now apply scoreN.
  Qed.

  (** A selected cluster does not contain clusters born at density zero, unless
      all its samples have density zero. *)
  Lemma selected_not_zero single S : extract_eom_clusters A T (cluster_tree_from_condensed_tree T) None single = Ok S ->
    forall s q, In s S -> is_cluster n T s -> In q T -> n <= c_child q -> descends n T s (c_child q) -> at0 q ->
    forall r, In r T -> c_child r < n -> below n T s (c_child r) -> at0 r.
  Proof.
    intros ES s q Hs Hcl Hq Hcq Hd H0 r Hr Hx Hb.
    destruct (wle (c_lam r) zero) eqn:Er; [auto|]. exfalso.
    destruct (selected_wins A n wt mcs T HT Hmcs Hn single S ES s Hs) as (f & Hf & Hst & Hw).
    (* the split of s *)
    assert (Hsp : exists q1, In q1 T /\ n <= c_child q1 /\ c_parent q1 = s /\ at0 q1).
    { assert (Hgen : forall c d, descends n T c d -> forall q, In q T -> c_child q = d -> n <= d -> at0 q ->
        exists q1, In q1 T /\ n <= c_child q1 /\ c_parent q1 = c /\ at0 q1).
      { clear - HT. induction 1 as [q1 Hq1 Hc1|c d e H1 IH1 H2 IH2]; intros q Hq Ec Hge H0.
        - assert (q = q1) as -> by (eapply row_eq; eauto). eauto.
        - destruct (IH2 q Hq Ec Hge H0) as (q1 & Hq1 & Hc1 & Ep1 & H01).
          assert (Hd : exists q2, In q2 T /\ n <= c_child q2 /\ c_child q2 = d).
          { clear - H1. induction H1; eauto. }
          destruct Hd as (q2 & Hq2 & Hc2 & Ed). apply (IH1 q2); auto; [lia|].
          unfold at0 in *. apply (wle_trans V _ (c_lam q1)); auto. apply (ct_lambda _ _ _ _ HT); auto. congruence. }
      apply (Hgen s (c_child q) Hd q); auto. }
    destruct Hsp as (q1 & Hq1 & Hc1 & Ep1 & H01).
    assert (Hall : forall r', In r' T -> c_parent r' = s -> at0 r').
    { intros r' Hr' Ep. unfold at0 in *. apply (Hsplit r' q1); auto. congruence. }
    assert (Hzb : zero_born s).
    { destruct Hcl as [->|[Hge (q2 & Hq2 & <-)]]; [left; auto|]. right. exists q2. split; auto. split; auto. split; auto.
      unfold at0. apply (wle_trans V _ (c_lam q1)); auto. apply (ct_lambda _ _ _ _ HT); auto. }
    assert (HZ : Z (cur s)).
    { rewrite (curN s Hzb). unfold score. apply foldZ; auto; [apply incl_refl|now apply zero_start]. }
    unfold wins in Hw.
    (* the child that contains the sample *)
    inversion Hb as [r' x Hr' Ex Hx' Ep|r' x Hr' Hc' Hb' Ep]; subst.
    - assert (r' = r) as -> by (eapply row_eq; eauto). pose proof (Hall r Hr Ep) as H. unfold at0 in H. congruence.
    - assert (H0' : at0 r') by (apply Hall; auto).
      assert (Hcr : In r' CT) by (apply filter_In; split; auto; now apply Nat.leb_le).
      assert (Hin : In (c_child r') (ch (c_parent r'))) by (apply in_map, filter_In; split; auto; apply Nat.eqb_refl).
      pose proof (ct_up _ _ _ _ HT _ _ Hin) as Hr2. pose proof (ct_bound _ _ _ _ HT _ _ Hin) as Hr3.
      assert (HPc : P (ev f (c_child r'))).
      { apply (evP _ (c_child r)); auto; [right; exists r'; auto|lia|]. intros r2 Hr'2 Ec. assert (r2 = r) as -> by (eapply row_eq; eauto).
        unfold at0. congruence. }
      rewrite (sl_ZP _ _ _ _ _ _ HL) in Hw; [discriminate|auto|]. rewrite <- Ep in *.
      apply (sumP_children f (c_parent r') r'); auto.
  Qed.
End Zero.

(** Exact scores, with infinities. *)
Definition xzero (x : xq) : Prop := x = Fin 0.
Definition xnonneg (x : xq) : Prop := match x with Fin q => (0 <= q)%Qc | PInf => True | _ => False end.
Definition xpos (x : xq) : Prop := match x with Fin q => (0 < q)%Qc | PInf => True | _ => False end.

Lemma exact_laws {W : WOrd} (lam : W -> QInf) (Sz : SOrd) (to_q : Sz -> Qc) : (forall s, sle sone s = true -> (0 < to_q s)%Qc) ->
  ScoreLaws lam (ExactArith Sz to_q) (Some 0%Qc : QInf) xzero xnonneg xpos.
Proof.
  intro Hq. constructor; cbn [num_zero num_add num_opp num_mul num_lt ExactArith].
  - reflexivity.
  - intros l s H1 H2 _. destruct l as [l|]; [|discriminate]. cbn in H1, H2. apply Qcleb_le in H1. apply Qcleb_le in H2.
    unfold xzero, xmul. f_equal. rewrite (Qcle_antisym _ _ H1 H2). apply Qcmult_0_l.
  - intros d s H1 H2. apply Hq in H2. destruct (lam d) as [l|]; cbn.
    + unfold wlt in H1. apply negb_true_iff in H1. cbn in H1. apply Qcleb_gt in H1. rewrite <- (Qcmult_0_l (to_q s)).
      apply Qcmult_lt_compat_r; auto.
    + destruct (Qcleb (to_q s) 0) eqn:E; [|exact I]. apply Qcleb_le in E. exfalso. apply (Qclt_not_le _ _ H2 E).
  - intros x ->. reflexivity.
  - intros x y -> ->. reflexivity.
  - intros [a| | |] [b| | |]; cbn; auto; try tauto. intros Ha Hb. rewrite <- (Qcplus_0_l 0). apply Qcplus_le_compat; auto.
  - intros [a| | |] [b| | |]; cbn; auto; try tauto. intros Ha Hb. apply (Qclt_le_trans _ a); auto. rewrite <- (Qcplus_0_r a) at 1. apply Qcplus_le_compat; auto. apply Qcle_refl.
  - intros [a| | |] [b| | |]; cbn; auto; try tauto. intros Ha Hb. apply (Qclt_le_trans _ b); auto. rewrite <- (Qcplus_0_l b) at 1. apply Qcplus_le_compat; auto. apply Qcle_refl.
  - intros x ->. apply Qcle_refl.
  - intros [a| | |]; cbn; auto. apply Qclt_le_weak.
  - intros [a| | |]; cbn; auto; try tauto. intro H. apply negb_false_iff. now apply Qcleb_le.
  - intros [a| | |] [b| | |]; cbn; auto; try tauto; try discriminate. intros Ha H. apply negb_true_iff, Qcleb_gt in H. eapply Qcle_lt_trans; eauto.
  - intros [a| | |] [b| | |]; cbn; auto; try tauto; try discriminate. intros Ha Hb H. apply negb_false_iff, Qcleb_le in H. eapply Qclt_le_trans; eauto.
  - intros x [b| | |] ->; cbn; auto; try tauto. intro H. apply negb_true_iff, Qcleb_gt. auto.
Qed.
