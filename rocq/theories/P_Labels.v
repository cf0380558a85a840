(** Labels: representatives are the nearest selected clusters. *)
From Coq Require Import List Arith Lia Bool ZArith Permutation Sorted.
From Verif Require Import Prelude Order Graph UF Size M_DisjointSet P_DisjointSet M_Kruskal P_Sort M_Linkage P_Cut
  M_Condense S_Condense M_Select P_Eom M_Labels S_Labels.
Import ListNotations.
Local Open Scope nat_scope.

Lemma in_set_true S c : in_set S c = true <-> In c S.
Proof.
  unfold in_set. rewrite existsb_exists. split.
  - intros (x & Hx & E). apply Nat.eqb_eq in E. now subst.
  - intro H. exists c. split; auto. apply Nat.eqb_refl.
Qed.
Lemma in_set_false S c : in_set S c = false <-> ~ In c S.
Proof. rewrite <- in_set_true. destruct (in_set S c); split; congruence. Qed.

(** Union with a fresh singleton of rank 0 as second argument. *)
Lemma union_fresh N d x y t : ds_inv N d -> x < N -> y < N -> Root (ds_parent d) x t ->
  ds_parent d y = y -> ds_aux d y = 0 -> t <> y ->
  exists d', ds_union_by_rank d x y = Ok d' /\ ds_inv N d' /\
    (forall j, ds_parent d' j = upd (ds_parent d) y t j) /\
    (forall j, j <> t -> ds_aux d' j = ds_aux d j).
Proof.
  intros Hi Hx Hy HR Hp Ha Hne.
  destruct (ds_find_ok N d x Hi Hx) as (d1 & r & E1 & Hs1 & HR1 & Hr).
  assert (r = t) as -> by (eapply Root_det; eauto).
  assert (Hi1 : ds_inv N d1) by (eapply ds_same_inv; eauto).
  destruct (ds_find_ok N d1 y Hi1 Hy) as (d2 & ry & E2 & Hs2 & HR2 & _).
  assert (Hs : ds_same d d2) by (eapply ds_same_trans; eauto).
  assert (ry = y) as ->.
  { destruct Hs1 as (_ & _ & Hpj). eapply Root_fix; eauto. now rewrite Hpj. }
  unfold ds_union_by_rank. rewrite E1. cbn [bind]. rewrite E2. cbn [bind].
  rewrite (proj2 (Nat.eqb_neq t y) Hne).
  destruct Hs as (Hn & Haux & Hpar). rewrite Haux, Ha.
  destruct (Nat.ltb_spec (ds_aux d t) 0) as [H|_]; [lia|].
  assert (Hwf : uf_wf N (upd (ds_parent d2) y t)).
  { apply link_wf; auto; try (rewrite Hpar; auto).
    - apply (ds_same_inv N d1 d2 Hs2 Hi1).
    - eapply Root_root; eauto. }
  eexists. split; [reflexivity|].
  cbn [set_parent ds_aux]. rewrite Haux, Ha.
  destruct (ds_aux d t =? 0) eqn:E; cbn [set_aux set_parent ds_parent ds_aux ds_n].
  - split; [split; [destruct Hi; cbn; congruence|cbn; auto]|]. split.
    + intro j. cbn. unfold upd. destruct (j =? y); auto.
    + intros j Hj. cbn. rewrite upd_neq by auto. now rewrite Haux.
  - split; [split; [destruct Hi; cbn; congruence|cbn; auto]|]. split.
    + intro j. cbn. unfold upd. destruct (j =? y); auto.
    + intros j Hj. cbn. now rewrite Haux.
Qed.

Section Tree.
  Context {V : WOrd} {Sz : SOrd} (LA : LamArith V).
  Variables (n : nat) (T : list (crow V Sz)) (S : list nat).
  Hypothesis HT : ordered_tree n T.
  Hypothesis HS : forall s, In s S -> n <= s.
  Notation zero_row r := ((c_child r <? n) && veq (c_lam r) (la_zero LA)).

  Lemma children_NoDup : NoDup (map c_child T).
  Proof.
    assert (H1 : NoDup (map c_child (sample_rows n T))).
    { apply (Permutation_NoDup (Permutation_sym (ot_samples _ _ HT))). apply seq_NoDup. }
    apply (Permutation_NoDup (l := map c_child (sample_rows n T) ++ map c_child (cluster_rows n T))).
    - rewrite <- map_app. apply Permutation_map. apply Permutation_sym.
      eapply Permutation_trans; [apply (filter_split (fun r => c_child r <? n))|].
      apply Permutation_app_head, Permutation_refl'. apply filter_ext. intro r.
      rewrite Nat.ltb_antisym. now rewrite negb_involutive.
    - apply NoDup_app_iff. split; [auto|split; [apply (ot_clusters _ _ HT)|]].
      intros c Hc Hc'. apply in_map_iff in Hc as (r & <- & Hr). apply in_map_iff in Hc' as (q & E & Hq).
      apply filter_In in Hr as [_ Hr]. apply filter_In in Hq as [_ Hq]. apply Nat.ltb_lt in Hr. apply Nat.leb_le in Hq. lia.
  Qed.

  Lemma child_row_eq r q : In r T -> In q T -> c_child r = c_child q -> r = q.
  Proof.
    pose proof children_NoDup as HN. revert HN. generalize T as l. clear.
    induction l as [|a l IH]; simpl; intros HN Hr Hq E; [tauto|]. inversion_clear HN as [|? ? Hn HN'].
    destruct Hr as [->|Hr], Hq as [->|Hq]; auto.
    - exfalso. apply Hn. rewrite E. now apply in_map.
    - exfalso. apply Hn. rewrite <- E. now apply in_map.
  Qed.

  Lemma ordered_parent_ge r : In r T -> n <= c_parent r.
  Proof.
    intro Hr. apply in_split in Hr as (T1 & T2 & E). destruct (ot_order _ _ HT _ _ _ E) as [->|[H _]]; lia.
  Qed.

  Lemma ordered_sample_row x : x < n -> exists r, In r T /\ c_child r = x.
  Proof.
    intro Hx. assert (Hi : In x (map c_child (sample_rows n T))).
    { apply (Permutation_in _ (Permutation_sym (ot_samples _ _ HT))). apply in_seq. lia. }
    apply in_map_iff in Hi as (r & E & Hr). apply filter_In in Hr as [Hr _]. eauto.
  Qed.

  Lemma home_det v t : home n S T v t -> forall t', home n S T v t' -> t = t'.
  Proof.
    induction 1 as [|v Hv|r t Hr Hns Hnn Hh IH]; intros t' H'.
    - inversion H' as [|? ?|r t0 Hr Hns Hnn Hh E]; subst; auto. congruence.
    - inversion H' as [|? ?|r t0 Hr Hns Hnn Hh E]; subst; auto; try contradiction.
    - inversion H' as [E|v Hv E|q t0 Hq Hns' Hnn' Hh' E]; subst; try contradiction; try congruence.
      assert (q = r) as -> by (apply child_row_eq; auto). auto.
  Qed.

  Lemma home_range v t : home n S T v t -> t = n \/ In t S.
  Proof. induction 1; auto. Qed.

  (** The state after a prefix of the rows. *)
  Definition seen (T1 : list (crow V Sz)) (v : nat) : Prop := v = n \/ In v (map c_child T1).

  Record linv (N : nat) (T1 : list (crow V Sz)) (d : disjoint_set) : Prop := {
    li_ds : ds_inv N d;
    li_cluster : forall v, seen T1 v -> n <= v -> exists t, home n S T v t /\ Root (ds_parent d) v t /\ seen T1 t;
    li_sample : forall r, In r T1 -> c_child r < n ->
      if zero_row r then ds_parent d (c_child r) = c_child r
      else exists t, home n S T (c_parent r) t /\ Root (ds_parent d) (c_child r) t;
    li_fresh : forall v, ~ seen T1 v -> ds_parent d v = v /\ ds_aux d v = 0
  }.

  Lemma label_unions_ok N : (forall r, In r T -> c_parent r < N /\ c_child r < N) -> forall T2 T1 d, T = T1 ++ T2 -> linv N T1 d ->
    exists d', fold_res (label_union LA S n) T2 d = Ok d' /\ linv N T d'.
  Proof.
    intro HN. induction T2 as [|r T2 IH]; intros T1 d E HI; cbn [fold_res].
    - exists d. split; auto. rewrite app_nil_r in E. now rewrite E.
    - assert (Hr : In r T) by (rewrite E; apply in_elt).
      assert (E' : T = (T1 ++ [r]) ++ T2) by (rewrite <- app_assoc; auto).
      assert (Hseen : forall v, seen (T1 ++ [r]) v <-> seen T1 v \/ v = c_child r).
      { intro v. unfold seen. rewrite map_app, in_app_iff. simpl. intuition. }
      assert (Hcn : c_child r <> n).
      { intro H. apply (ot_root _ _ HT). rewrite <- H. now apply in_map. }
      assert (Hnew : ~ seen T1 (c_child r)).
      { intros [H|H]; [contradiction|]. pose proof children_NoDup as HND. rewrite E, map_app in HND.
        apply NoDup_app_iff in HND as (_ & _ & HND). apply (HND (c_child r)); auto. simpl; auto. }
      assert (Hps : seen T1 (c_parent r)).
      { destruct (ot_order _ _ HT _ _ _ E) as [H|(_ & q & Hq & <-)]; [left; auto|right; now apply in_map]. }
      pose proof (ordered_parent_ge r Hr) as Hpn. destruct (HN r Hr) as [HpN HcN].
      assert (Hother : forall q, In q T1 -> c_child q <> c_child r).
      { intros q Hq H. apply Hnew. right. rewrite <- H. now apply in_map. }
      unfold label_union at 1.
      destruct (in_set S (c_child r)) eqn:ES; [|destruct (zero_row r) eqn:Ez].
      + (* a selected cluster keeps its own set *)
        cbn [bind]. apply in_set_true in ES. apply (IH (T1 ++ [r])); auto. destruct HI as [H1 H2 H3 H4]. constructor; auto.
        * intros v Hv Hnv. apply Hseen in Hv as [Hv| ->].
          -- destruct (H2 v Hv Hnv) as (t & Ht1 & Ht2 & Ht3). exists t. split; auto. split; auto. apply Hseen. auto.
          -- exists (c_child r). split; [now apply home_here|]. split; [|apply Hseen; auto].
             apply Root_here. now apply H4.
        * intros q Hq Hlt. apply in_app_iff in Hq as [Hq|[<-|[]]]; [now apply H3|]. specialize (HS _ ES). lia.
        * intros v Hv. apply H4. intro H. apply Hv. apply Hseen. auto.
      + (* a sample at density zero *)
        cbn [bind]. apply (IH (T1 ++ [r])); auto. destruct HI as [H1 H2 H3 H4]. constructor; auto.
        * intros v Hv Hnv. apply Hseen in Hv as [Hv| ->].
          -- destruct (H2 v Hv Hnv) as (t & Ht1 & Ht2 & Ht3). exists t. split; auto. split; auto. apply Hseen. auto.
          -- apply andb_true_iff in Ez as [Ez _]. apply Nat.ltb_lt in Ez. lia.
        * intros q Hq Hlt. apply in_app_iff in Hq as [Hq|[<-|[]]]; [now apply H3|]. rewrite Ez. now apply H4.
        * intros v Hv. apply H4. intro H. apply Hv. apply Hseen. auto.
      + (* the child joins its parent's set *)
        destruct HI as [H1 H2 H3 H4]. destruct (H2 _ Hps Hpn) as (t & Ht1 & Ht2 & Ht3).
        destruct (H4 _ Hnew) as [Hp Ha].
        assert (Hty : t <> c_child r) by (intros ->; contradiction).
        destruct (union_fresh N d (c_parent r) (c_child r) t H1 HpN HcN Ht2 Hp Ha Hty) as (d' & Ed & Hi' & Hpar & Haux).
        rewrite Ed. cbn [bind].
        assert (Ht_root : ds_parent d t = t) by (eapply Root_root; eauto).
        assert (Hkeep : forall v s, s <> c_child r -> Root (ds_parent d) v s -> Root (ds_parent d') v s).
        { intros v s Hs HR. apply (Root_ext (upd (ds_parent d) (c_child r) t)); [intro j; now rewrite Hpar|].
          pose proof (Root_link (ds_parent d) (c_child r) t v s Hp Ht_root (not_eq_sym Hty) HR) as HL.
          now rewrite (proj2 (Nat.eqb_neq _ _) Hs) in HL. }
        assert (Hjoin : Root (ds_parent d') (c_child r) t).
        { apply (Root_ext (upd (ds_parent d) (c_child r) t)); [intro j; now rewrite Hpar|].
          pose proof (Root_link (ds_parent d) (c_child r) t (c_child r) (c_child r) Hp Ht_root (not_eq_sym Hty) (Root_here _ _ Hp)) as HL.
          now rewrite Nat.eqb_refl in HL. }
        assert (ES' : ~ In (c_child r) S) by now apply in_set_false.
        apply (IH (T1 ++ [r])); auto. constructor; auto.
        * intros v Hv Hnv. apply Hseen in Hv as [Hv| ->].
          -- destruct (H2 v Hv Hnv) as (s & Hs1 & Hs2 & Hs3). exists s. split; auto. split; [|apply Hseen; auto].
             apply Hkeep; auto. intros ->. contradiction.
          -- exists t. split; [now apply home_up|]. split; auto. apply Hseen; auto.
        * intros q Hq Hlt. apply in_app_iff in Hq as [Hq|[<-|[]]].
          -- specialize (H3 q Hq Hlt). destruct (zero_row q) eqn:Ezq.
             ++ rewrite Hpar, upd_neq; auto.
             ++ destruct H3 as (s & Hs1 & Hs2). exists s. split; auto. apply Hkeep; auto.
                destruct (home_range _ _ Hs1) as [->|Hin]; auto. intros ->. contradiction.
          -- rewrite Ez. eauto.
        * intros v Hv. assert (Hv1 : ~ seen T1 v) by (intro H; apply Hv; apply Hseen; auto).
          assert (Hv2 : v <> c_child r) by (intro H; apply Hv; apply Hseen; auto).
          rewrite Hpar, upd_neq by auto. rewrite Haux; [now apply H4|]. intros ->. contradiction.
  Qed.

  Lemma linv_init N : n < N -> linv N [] (ds_rank_create N).
  Proof.
    intro HnN. constructor.
    - split; auto. apply id_wf.
    - intros v [->|[]] _. exists n. split; [constructor|]. split; [now apply Root_here|left; auto].
    - intros r [].
    - intros v _. auto.
  Qed.
End Tree.
