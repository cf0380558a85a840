(** The epsilon search. *)
From Coq Require Import List Arith Lia Bool Permutation Sorted.
From Verif Require Import Prelude Order Size Forest P_Sort M_Linkage M_Condense S_Condense M_Select S_Select P_CTree P_Below
  M_Labels P_Labels M_Epsilon.
Import ListNotations.

(** ** Lists made of adjacent pairs *)
Lemma pairs_filter {V Sz : Type} : forall k (l : list (crow V Sz)), length l = 2 * k ->
  (forall j r q, nth_error l (2 * j) = Some r -> nth_error l (2 * j + 1) = Some q -> c_parent r = c_parent q) ->
  (forall i j r q, nth_error l (2 * i) = Some r -> nth_error l (2 * j) = Some q -> c_parent r = c_parent q -> i = j) ->
  forall v, filter (fun r => c_parent r =? v) l = [] \/
    exists j r q, nth_error l (2 * j) = Some r /\ nth_error l (2 * j + 1) = Some q /\ c_parent r = v /\
      filter (fun r => c_parent r =? v) l = [r; q].
Proof.
  induction k as [|k IH]; intros l Hl Hp Ho v.
  - destruct l; [left; auto|discriminate].
  - destruct l as [|a [|b l]]; try (simpl in Hl; lia).
    assert (Hl' : length l = 2 * k) by (simpl in Hl; lia).
    assert (Hsh : forall j, nth_error (a :: b :: l) (2 * S j) = nth_error l (2 * j)).
    { intro j. replace (2 * S j) with (S (S (2 * j))) by lia. reflexivity. }
    assert (Hsh' : forall j, nth_error (a :: b :: l) (2 * S j + 1) = nth_error l (2 * j + 1)).
    { intro j. replace (2 * S j + 1) with (S (S (2 * j + 1))) by lia. reflexivity. }
    assert (Hp' : forall j r q, nth_error l (2 * j) = Some r -> nth_error l (2 * j + 1) = Some q -> c_parent r = c_parent q).
    { intros j r q H1 H2. apply (Hp (S j)); [now rewrite Hsh|now rewrite Hsh']. }
    assert (Ho' : forall i j r q, nth_error l (2 * i) = Some r -> nth_error l (2 * j) = Some q -> c_parent r = c_parent q -> i = j).
    { intros i j r q H1 H2 E. assert (S i = S j); [|lia]. apply (Ho (S i) (S j) r q); auto; now rewrite Hsh. }
    assert (Hab : c_parent a = c_parent b) by (apply (Hp 0); reflexivity).
    cbn [filter]. destruct (Nat.eqb_spec (c_parent a) v) as [Ea|Ea].
    + right. rewrite <- Hab, Ea, Nat.eqb_refl. exists 0, a, b. split; auto. split; auto. split; auto.
      destruct (IH l Hl' Hp' Ho' v) as [->|(j & r & q & H1 & _ & Ev & _)]; auto.
      exfalso. assert (0 = S j); [|lia]. apply (Ho 0 (S j) a r); auto; [now rewrite Hsh|congruence].
    + rewrite <- Hab. destruct (Nat.eqb_spec (c_parent a) v) as [|_]; [contradiction|].
      destruct (IH l Hl' Hp' Ho' v) as [->|(j & r & q & H1 & H2 & Ev & H3)]; auto.
      right. exists (S j), r, q. rewrite Hsh, Hsh'. auto.
Qed.

Lemma set_add_in x y s : In y (set_add x s) <-> y = x \/ In y s.
Proof.
  unfold set_add. destruct (in_set s x) eqn:E.
  - apply in_set_true in E. split; auto. intros [->|]; auto.
  - rewrite in_app_iff. simpl. intuition.
Qed.
Lemma set_union_in l : forall s y, In y (fold_left (fun s x => set_add x s) l s) <-> In y l \/ In y s.
Proof.
  induction l as [|a l IH]; intros s y; simpl; [tauto|]. rewrite IH, set_add_in. intuition.
Qed.

Section Eps.
  Context {V : WOrd} {Sz : SOrd}.
  Variables (n : nat) (wt : nat -> Sz) (mcs : Sz) (T : list (crow V Sz)).
  Hypothesis HT : condensed n wt mcs T.
  Hypothesis HO : splits_once n T.
  Notation CT := (cluster_rows n T).
  Notation ch := (children_of CT).
  Notation top := (top_id n T).
  Notation sb := (sub ch top).
  Notation up := (ct_up n wt mcs T HT).
  Notation bound := (ct_bound n wt mcs T HT).
  Notation cone := (ct_one n wt mcs T HT).

  Lemma rows_of_parent v : filter (fun r => c_parent r =? v) CT = [] \/
    exists r q, filter (fun r => c_parent r =? v) CT = [r; q] /\ In r CT /\ In q CT /\ c_parent r = v /\ c_parent q = v /\
      c_child q = c_child r + 1 /\ c_lam r = c_lam q.
  Proof.
    destruct (even_length n wt mcs T HT) as (s & Hs).
    assert (Hpar : forall j r q, nth_error CT (2 * j) = Some r -> nth_error CT (2 * j + 1) = Some q -> c_parent r = c_parent q).
    { intros j r q H1 H2. now apply (ct_pairs _ _ _ _ HT j). }
    destruct (pairs_filter s CT Hs Hpar HO v) as [H|(j & r & q & H1 & H2 & Ev & E)]; auto.
    right. exists r, q. split; auto. split; [eapply nth_error_In; eauto|]. split; [eapply nth_error_In; eauto|].
      split; auto. destruct (ct_pairs _ _ _ _ HT j r q H1 H2) as [Ep El]. split; [congruence|]. split; auto.
      assert (Hc : forall i x, nth_error CT i = Some x -> c_child x = n + 1 + i).
      { intros i x Hx. assert (Hl : i < length CT) by (apply nth_error_Some; congruence).
        assert (Hm : nth_error (map c_child CT) i = Some (c_child x)) by now apply map_nth_error.
        rewrite (ids n wt mcs T HT) in Hm. rewrite nth_error_nth' with (d := 0) in Hm by now rewrite seq_length.
        rewrite seq_nth in Hm by auto. congruence. }
      rewrite (Hc _ _ H1), (Hc _ _ H2). lia.
  Qed.

  Lemma ch_cases v : ch v = [] \/ exists a, ch v = [a; a + 1] /\ v < a.
  Proof.
    unfold children_of. destruct (rows_of_parent v) as [->|(r & q & -> & Hr & _ & Ep & _ & Ec & _)]; auto.
    right. exists (c_child r). simpl. rewrite Ec. split; auto. apply (parent_lt_child n wt mcs T HT) in Hr. lia.
  Qed.

  Section Search.
    Variable B : list (crow V Sz).
    Hypothesis HP : Permutation B CT.
    Hypothesis HB : nsorted c_parent B.

    (** The node whose children are read for [v]. *)
    Definition next (v p : nat) : Prop := v <= p /\ ch p <> [] /\ forall p', v <= p' < p -> ch p' = [].

    Lemma ss_split (l : list (crow V Sz)) v : nsorted c_parent l ->
      exists l1 l2, l = l1 ++ l2 /\ searchsorted (map c_parent l) v = length l1 /\
        (forall r, In r l1 -> c_parent r < v) /\ (forall r, In r l2 -> v <= c_parent r).
    Proof.
      induction 1 as [|r l Hs (l1 & l2 & -> & E & H1 & H2) Hf]; cbn [map searchsorted].
      - exists [], []. simpl. split; auto. split; auto. split; intros ? [].
      - destruct (Nat.ltb_spec (c_parent r) v) as [H|H].
        + exists (r :: l1), l2. split; auto. rewrite E. split; auto. split; auto. intros q [<-|Hq]; auto.
        + exists [], (r :: l1 ++ l2). split; auto. split; auto. split; [intros ? []|].
          rewrite Forall_forall in Hf. intros q [<-|Hq]; auto. specialize (Hf q Hq). lia.
    Qed.

    Lemma ch_ne p r : In r CT -> c_parent r = p -> ch p <> [].
    Proof.
      intros Hr Ep H0. assert (Hi : In (c_child r) (ch p)) by (apply (ch_in n T); eauto). rewrite H0 in Hi. destruct Hi.
    Qed.

    Lemma filter_perm_len (f : crow V Sz -> bool) : length (filter f B) = length (filter f CT).
    Proof.
      apply Permutation_length. clear HB HT HO. revert HP. generalize CT as l. intro l. generalize B as b. intros b H. induction H; simpl; auto.
      - destruct (f x); auto.
      - destruct (f x), (f y); auto. apply perm_swap.
      - eapply Permutation_trans; eauto.
    Qed.

    Lemma step_read v : (searchsorted (map c_parent B) v = length B /\ forall p, v <= p -> ch p = []) \/
      exists p r q, next v p /\ searchsorted (map c_parent B) v < length B /\
        nth_error B (searchsorted (map c_parent B) v) = Some r /\
        nth_error B (searchsorted (map c_parent B) v + 1) = Some q /\
        (forall w, In w (ch p) <-> w = c_child r \/ w = c_child q).
    Proof.
      destruct (ss_split B v HB) as (B1 & B2 & EB & Es & H1 & H2). rewrite Es.
      destruct B2 as [|r B3].
      - left. rewrite app_nil_r in EB. split; [congruence|]. intros p Hp.
        destruct (ch p) as [|w l] eqn:E; auto. exfalso.
        assert (Hi : In w (ch p)) by (rewrite E; simpl; auto). apply (ch_in n T) in Hi as (x & Hx & Ep & _).
        apply (Permutation_in _ (Permutation_sym HP)) in Hx. rewrite EB in Hx. specialize (H1 x Hx). lia.
      - right. set (p := c_parent r).
        assert (Hr : In r B) by (rewrite EB; apply in_elt).
        assert (HrC : In r CT) by (apply (Permutation_in _ HP); auto).
        assert (Hsorted2 : nsorted c_parent (r :: B3)).
        { clear - HB EB. rewrite EB in HB. clear EB. revert HB. generalize (r :: B3). induction B1 as [|x l1 IHl]; intros l H; [exact H|].
          apply StronglySorted_inv in H as [H _]. now apply IHl. }
        apply StronglySorted_inv in Hsorted2 as [Hs3 Hf3]. rewrite Forall_forall in Hf3.
        assert (HpN : next v p).
        { split; [apply H2; simpl; auto|]. split; [now apply (ch_ne p r)|]. intros p' Hp'.
          destruct (ch p') as [|w l] eqn:E; auto. exfalso.
          assert (Hi : In w (ch p')) by (rewrite E; simpl; auto). apply (ch_in n T) in Hi as (x & Hx & Ep & _).
          apply (Permutation_in _ (Permutation_sym HP)) in Hx. rewrite EB in Hx.
          apply in_app_iff in Hx as [Hx|[<-|Hx]].
          - specialize (H1 x Hx). lia.
          - fold p in Ep. lia.
          - specialize (Hf3 x Hx). fold p in Hf3. lia. }
        destruct (rows_of_parent p) as [E0|(a & b & E0 & Ha & Hb & Ea & Eb & _)].
        { exfalso. assert (Hi : In r (filter (fun r => c_parent r =? p) CT)) by (apply filter_In; split; auto; apply Nat.eqb_refl).
          rewrite E0 in Hi. destruct Hi. }
        assert (Hlen : length (filter (fun r => c_parent r =? p) B) = 2) by (rewrite filter_perm_len, E0; auto).
        assert (HB1 : filter (fun r => c_parent r =? p) B1 = []).
        { clear - H1 HpN. destruct HpN as [Hv _]. induction B1 as [|x l IH]; simpl; auto.
          destruct (Nat.eqb_spec (c_parent x) p) as [E|_].
          - specialize (H1 x (or_introl eq_refl)). lia.
          - apply IH. intros; apply H1; simpl; auto. }
        rewrite EB, filter_app, HB1 in Hlen. cbn [app filter] in Hlen. unfold p in Hlen at 1. rewrite Nat.eqb_refl in Hlen.
        cbn [length] in Hlen. destruct B3 as [|q B4]; [simpl in Hlen; lia|].
        assert (Hq : c_parent q = p).
        { assert (Hge := Hf3 q (or_introl eq_refl)). fold p in Hge.
          destruct (Nat.eq_dec (c_parent q) p) as [|Hne]; auto. exfalso.
          assert (Hnone : filter (fun r => c_parent r =? p) (q :: B4) = []).
          { apply StronglySorted_inv in Hs3 as [_ Hf4]. rewrite Forall_forall in Hf4.
            assert (Hall : forall x, In x (q :: B4) -> c_parent x <> p).
            { intros x [<-|Hx]; auto. specialize (Hf4 x Hx). lia. }
            clear - Hall. induction (q :: B4) as [|x l IH]; simpl; auto.
            destruct (Nat.eqb_spec (c_parent x) p) as [E|_]; [exfalso; apply (Hall x); simpl; auto|].
            apply IH. intros; apply Hall; simpl; auto. }
          rewrite Hnone in Hlen. discriminate. }
        assert (HqC : In q CT) by (apply (Permutation_in _ HP); rewrite EB; apply in_app_iff; simpl; auto).
        exists p, r, q. split; auto. split; [rewrite EB, app_length; simpl; lia|].
        split; [rewrite EB, nth_error_app2, Nat.sub_diag by lia; auto|].
        split; [rewrite EB, nth_error_app2 by lia; replace (length B1 + 1 - length B1) with 1 by lia; auto|].
        intro w. split.
        + intro Hw. unfold children_of in Hw. rewrite E0 in Hw. simpl in Hw.
          assert (Hri : In r [a; b]) by (rewrite <- E0; apply filter_In; split; auto; now apply Nat.eqb_eq).
          assert (Hqi : In q [a; b]) by (rewrite <- E0; apply filter_In; split; auto; now apply Nat.eqb_eq).
          assert (Hrq : r <> q).
          { intros ->. assert (HND : NoDup B).
            { apply (Permutation_NoDup (Permutation_sym HP)). apply (NoDup_map_inv c_child), (ct_child_NoDup n wt mcs T HT). }
            rewrite EB in HND. apply NoDup_remove_2 in HND. apply HND. apply in_app_iff. simpl; auto. }
          simpl in Hri, Hqi. destruct Hri as [<-|[<-|[]]], Hqi as [<-|[<-|[]]]; try congruence; intuition.
        + intros [->| ->]; apply (ch_in n T); eauto.
    Qed.

    (** What [segments_in_branch] visits from [e]. *)
    Inductive vis (e : nat) : nat -> Prop :=
    | vis_here : vis e e
    | vis_next v p w : vis e v -> next v p -> In w (ch p) -> vis e w.

    Lemma branch_step_ok v cs : exists cs', branch_step (map c_parent B) (map c_child B) v cs = Ok cs' /\
      forall w, In w cs' <-> In w cs \/ exists p, next v p /\ In w (ch p).
    Proof.
      unfold branch_step. destruct (step_read v) as [[E H0]|(p & r & q & HN & Hlt & Er & Eq & Hw)].
      - rewrite E, map_length, Nat.leb_refl. exists cs. split; auto. intro w. split; auto.
        intros [|(p & (Hp & Hne & _) & _)]; auto. exfalso. apply Hne. auto.
      - rewrite map_length. rewrite (proj2 (Nat.leb_gt _ _) Hlt).
        unfold array_get. rewrite (map_nth_error c_child _ _ Er). cbn [bind]. rewrite (map_nth_error c_child _ _ Eq). cbn [bind].
        eexists. split; [reflexivity|]. intro w. rewrite !set_add_in. split.
        + intros [->|[->|H]]; auto; right; exists p; (split; [auto|]); apply Hw; auto.
        + intros [H|(p' & HN' & Hi)]; auto.
          assert (p' = p) as ->.
          { destruct HN as (A1 & A2 & A3), HN' as (B1 & B2 & B3).
            destruct (Nat.lt_trichotomy p p') as [H|[H|H]]; auto.
            - exfalso. apply A2. apply B3. lia.
            - exfalso. apply B2. apply A3. lia. }
          apply Hw in Hi. tauto.
    Qed.

    Lemma branch_fold l : forall cs, exists cs', fold_res (branch_step (map c_parent B) (map c_child B)) l cs = Ok cs' /\
      forall w, In w cs' <-> In w cs \/ exists v p, In v l /\ next v p /\ In w (ch p).
    Proof.
      induction l as [|v l IH]; intro cs; cbn [fold_res].
      - exists cs. split; auto. intro w. split; auto. intros [|(? & ? & [] & _)]; auto.
      - destruct (branch_step_ok v cs) as (cs1 & -> & H1). cbn [bind].
        destruct (IH cs1) as (cs2 & -> & H2). exists cs2. split; auto. intro w. rewrite H2, H1. split.
        + intros [[H|(p & HN & Hw)]|(u & p & Hu & HN & Hw)]; auto; right; [exists v, p|exists u, p]; simpl; auto.
        + intros [H|(u & p & [<-|Hu] & HN & Hw)]; eauto. right. exists u, p. auto.
    Qed.

    Lemma branch_loop_ok e : forall fuel k tp R,
      (forall w, In w tp -> vis e w) -> (forall w, In w R -> vis e w) ->
      (forall v p w, In v R -> next v p -> In w (ch p) -> In w R \/ In w tp) ->
      (In e R \/ In e tp) ->
      (forall w, In w tp -> k <= w < top) -> top - k <= fuel ->
      exists R', branch_loop (map c_parent B) (map c_child B) fuel tp R = Ok R' /\ forall w, In w R' <-> vis e w.
    Proof.
      induction fuel as [|fuel IH]; intros k tp R Htp HR Hcl He Hk Hf.
      - destruct tp as [|t tp]; cbn [branch_loop].
        + exists R. split; auto. intro w. split; auto. induction 1 as [|v p w Hv IHv HN Hw].
          * destruct He as [|[]]; auto.
          * destruct (Hcl v p w IHv HN Hw) as [|[]]; auto.
        + exfalso. specialize (Hk t (or_introl eq_refl)). lia.
      - destruct tp as [|t tp].
        + cbn [branch_loop]. exists R. split; auto. intro w. split; auto. induction 1 as [|v p w Hv IHv HN Hw].
          * destruct He as [|[]]; auto.
          * destruct (Hcl v p w IHv HN Hw) as [|[]]; auto.
        + cbn [branch_loop]. destruct (branch_fold (t :: tp) []) as (cs & Ecs & Hcs).
          rewrite Ecs. cbn [bind].
          apply (IH (k + 1)).
          * intros w Hw. apply Hcs in Hw as [[]|(v & p & Hv & HN & Hw)]. eapply vis_next; eauto.
          * intros w Hw. apply set_union_in in Hw as [Hw|Hw]; auto.
          * intros v p w Hv HN Hw. apply set_union_in in Hv as [Hv|Hv].
            -- right. apply Hcs. right. eauto.
            -- destruct (Hcl v p w Hv HN Hw) as [H|H]; left; apply set_union_in; auto.
          * left. apply set_union_in. tauto.
          * intros w Hw. apply Hcs in Hw as [[]|(v & p & Hv & (HN & _) & Hw)].
            specialize (Hk v Hv). pose proof (up _ _ Hw). pose proof (bound _ _ Hw). lia.
          * lia.
    Qed.

    Lemma segments_ok e : n <= e < top ->
      exists R, segments_in_branch (map c_parent B) (map c_child B) e = Ok R /\ forall w, In w R <-> vis e w.
    Proof.
      intro He. unfold segments_in_branch. apply (branch_loop_ok e _ e).
      - intros w [<-|[]]. constructor.
      - intros w [].
      - intros v p w [].
      - right. simpl; auto.
      - intros w [<-|[]]. lia.
      - rewrite map_length, (Permutation_length HP). unfold top_id. lia.
    Qed.

    Lemma next_self v : ch v <> [] -> next v v.
    Proof. intro H. split; [lia|]. split; auto. intros; lia. Qed.

    Lemma vis_sub e v : vis e v -> forall w, In w (sb v) -> vis e w.
    Proof.
      revert v. apply (sub_ind ch top up bound (fun v => vis e v -> forall w, In w (sb v) -> vis e w)).
      intros v IH Hv w Hw. apply (sub_inv ch top up bound) in Hw as [->|(u & Hu & Hw)]; auto.
      apply (IH u Hu); auto. eapply vis_next; eauto. apply next_self. intro E. rewrite E in Hu. destruct Hu.
    Qed.

    Lemma vis_ge e w : vis e w -> e <= w.
    Proof.
      induction 1 as [|v p w Hv IH (H & _) Hw]; auto. pose proof (up _ _ Hw). lia.
    Qed.

    (** Some leaf of the other side is never visited. *)
    Lemma unvisited_leaf e Q : ~ In e (sb Q) -> forall v, In v (sb Q) -> ~ vis e v ->
      (forall w, vis e w -> ~ next w v) -> exists l, In l (sb v) /\ ch l = [] /\ ~ vis e l.
    Proof.
      intros HeQ. apply (sub_ind ch top up bound (fun v => In v (sb Q) -> ~ vis e v ->
        (forall w, vis e w -> ~ next w v) -> exists l, In l (sb v) /\ ch l = [] /\ ~ vis e l)).
      intros v IH HvQ Hv Hnext. destruct (ch_cases v) as [E|(a & E & Hva)].
      - exists v. split; [apply (sub_self ch top up bound)|]. auto.
      - assert (Hch : forall u, In u (ch v) -> In u (sb Q) /\ ~ vis e u /\ incl (sb u) (sb v)).
        { intros u Hu. assert (HuQ : In u (sb Q)).
          { eapply (sub_trans ch top up bound); [exact HvQ|]. apply (sub_child ch top up bound v u Hu). apply (sub_self ch top up bound). }
          split; auto. split; [|now apply (sub_child ch top up bound)].
          intro Hvis. inversion Hvis as [E1|w p u' Hw HN Hu' E1]; [subst u; contradiction|]. subst u'.
          rewrite (cone _ _ _ Hu' Hu) in HN. now apply (Hnext w). }
        assert (Ha : In a (ch v)) by (rewrite E; simpl; auto).
        assert (Hb : In (a + 1) (ch v)) by (rewrite E; simpl; auto).
        destruct (Hch a Ha) as (Ha1 & Ha2 & Ha3). destruct (Hch (a + 1) Hb) as (Hb1 & Hb2 & Hb3).
        destruct (ch a) as [|x xs] eqn:Eca.
        + exists a. split; [apply Ha3, (sub_self ch top up bound)|]. auto.
        + destruct (IH (a + 1) Hb Hb1 Hb2) as (l & Hl & Hl2).
          { intros w Hw (N1 & N2 & N3). destruct (Nat.eq_dec w (a + 1)) as [->|Hne]; [contradiction|].
            assert (H : ch a = []) by (apply N3; lia). congruence. }
          exists l. split; auto.
    Qed.

    Lemma other_side_leaf e Q p : In e (ch p) -> In Q (ch p) -> e <> Q -> ch e <> [] ->
      exists l, In l (sb Q) /\ ch l = [] /\ ~ vis e l.
    Proof.
      intros He HQ Hne Hche. destruct (ch_cases p) as [E|(a & E & Hpa)]; [rewrite E in He; destruct He|].
      assert (HeQ : ~ In e (sb Q)).
      { intro Hi. apply Hne.
        apply (sub_siblings ch top up bound cone p e Q e He HQ (sub_self ch top up bound e) Hi). }
      assert (HvQ : ~ vis e Q).
      { intro Hvis. inversion Hvis as [E1|w p' u' Hw HN Hu' E1]; [contradiction|]. subst u'.
        rewrite (cone _ _ _ Hu' HQ) in HN. apply vis_ge in Hw. destruct HN as [HN _].
        pose proof (up _ _ He). lia. }
      apply (unvisited_leaf e Q HeQ Q); auto.
      - apply (sub_self ch top up bound).
      - intros w Hw (N1 & N2 & N3). pose proof (vis_ge e w Hw) as Hge.
        destruct (Nat.eq_dec w Q) as [->|HwQ]; [contradiction|].
        apply Hche. apply N3. rewrite E in He, HQ. simpl in He, HQ. lia.
    Qed.

    (** ** Upwards *)
    Variable lt_eps : V -> bool.
    Hypothesis Hmono : forall x y, wle x y = true -> lt_eps x = true -> lt_eps y = true.

    (** Clusters born at a distance below epsilon. *)
    Definition small (c : nat) : Prop := exists r, In r CT /\ c_child r = c /\ lt_eps (c_lam r) = true.

    Lemma small_child u w : small u -> In w (ch u) -> small w.
    Proof.
      intros (r & Hr & <- & Hs) Hw. apply (ch_in n T) in Hw as (q & Hq & Ep & <-).
      exists q. split; auto. split; auto. apply (Hmono (c_lam r)); auto.
      apply (ct_lambda _ _ _ _ HT); auto; try (now apply (ct_in n T)). pose proof (ct_child_in n wt mcs T HT r Hr). lia.
    Qed.
    Lemma small_down u : forall w, small u -> In w (sb u) -> small w.
    Proof.
      induction u as [u IH] using (sub_ind ch top up bound). intros w Hs Hw.
      apply (sub_inv ch top up bound) in Hw as [->|(x & Hx & Hw)]; auto.
      apply (IH x Hx w); auto. eapply small_child; eauto.
    Qed.
    Lemma small_sibling p u u' : In u (ch p) -> In u' (ch p) -> small u -> small u'.
    Proof.
      intros Hu Hu' (r & Hr & Er & Hs). apply (ch_in n T) in Hu as (x & Hx & Ex & Exu). apply (ch_in n T) in Hu' as (y & Hy & Ey & Eyu).
      assert (x = r) as -> by (apply (ct_row_eq n wt mcs T HT); auto; congruence).
      exists y. split; auto. split; auto.
      destruct (rows_of_parent p) as [E0|(a & b & E0 & _ & _ & _ & _ & _ & El)].
      - exfalso. assert (Hi : In r (filter (fun r => c_parent r =? p) CT)) by (apply filter_In; split; auto; now apply Nat.eqb_eq).
        rewrite E0 in Hi. destruct Hi.
      - assert (Hi : In r [a; b]) by (rewrite <- E0; apply filter_In; split; auto; now apply Nat.eqb_eq).
        assert (Hj : In y [a; b]) by (rewrite <- E0; apply filter_In; split; auto; now apply Nat.eqb_eq).
        simpl in Hi, Hj. destruct Hi as [<-|[<-|[]]], Hj as [<-|[<-|[]]]; congruence.
    Qed.
    Lemma small_desc p u : In u (ch p) -> small u -> forall w, In w (sb p) -> w <> p -> small w.
    Proof.
      intros Hu Hs w Hw Hne. apply (sub_inv ch top up bound) in Hw as [|(x & Hx & Hw)]; [contradiction|].
      apply (small_down x); auto. exact (small_sibling p u x Hu Hx Hs).
    Qed.

    Lemma row_of_child_ok r : In r CT -> row_of_child CT (c_child r) = Ok r.
    Proof.
      intro Hr. unfold row_of_child. destruct (filter (fun q => c_child q =? c_child r) CT) as [|q l] eqn:E.
      - exfalso. assert (Hi : In r (filter (fun q => c_child q =? c_child r) CT)) by (apply filter_In; split; auto; apply Nat.eqb_refl).
        rewrite E in Hi. destruct Hi.
      - assert (Hi : In q (filter (fun q => c_child q =? c_child r) CT)) by (rewrite E; simpl; auto).
        apply filter_In in Hi as [Hq Hc]. apply Nat.eqb_eq in Hc. f_equal. apply (ct_row_eq n wt mcs T HT); auto.
    Qed.

    Lemma traverse_ok : forall fuel c, n < c < top -> c - n <= fuel -> small c ->
      exists P u, traverse_upwards lt_eps CT n fuel c = Ok P /\ n <= P < top /\ In u (ch P) /\ In c (sb u) /\ small u /\
        (P = n \/ (n < P /\ ~ small P)).
    Proof.
      induction fuel as [|fuel IH]; intros c Hc Hf Hs; [lia|].
      destruct Hs as (r & Hr & Ec & Hl). cbn [traverse_upwards]. rewrite <- Ec, (row_of_child_ok r Hr). cbn [bind].
      pose proof (parent_lt_child n wt mcs T HT r Hr) as Hp.
      assert (Hch : In (c_child r) (ch (c_parent r))) by (apply (ch_in n T); eauto).
      assert (Hsm : small (c_child r)) by (exists r; auto).
      pose proof (ct_child_in n wt mcs T HT r Hr) as Hcr.
      destruct (Nat.eqb_spec (c_parent r) n) as [En|Hn].
      - exists n, (c_child r). split; auto. split; [lia|]. rewrite En in Hch. split; auto.
        split; [apply (sub_self ch top up bound)|]. auto.
      - assert (Hpc : is_cluster n T (c_parent r)) by (apply (is_cluster_iff n wt mcs T HT); lia).
        destruct Hpc as [|(_ & q & Hq & Eq)]; [lia|].
        assert (HqC : In q CT) by (apply (in_ct n T); auto; lia).
        pose proof (row_of_child_ok q HqC) as Eqq. rewrite Eq in Eqq. rewrite Eqq. cbn [bind].
        destruct (lt_eps (c_lam q)) eqn:El.
        + destruct (IH (c_parent r)) as (P & u & E & HP1 & Hu & Hi & Hsu & HPc); [lia|lia|exists q; auto|].
          exists P, u. split; auto. split; auto. split; auto. split; auto.
          eapply (sub_trans ch top up bound); [exact Hi|]. apply (sub_child ch top up bound _ _ Hch). apply (sub_self ch top up bound).
        + exists (c_parent r), (c_child r). split; auto. split; [lia|]. split; auto. split; [apply (sub_self ch top up bound)|].
          split; auto. right. split; [lia|]. intros (q' & Hq' & Eq' & El').
          assert (q' = q) as -> by (apply (ct_row_eq n wt mcs T HT); auto; congruence). congruence.
    Qed.

    (** ** The main loop *)
    Variable S : list nat.
    Hypothesis HSc : forall s, In s S -> n < s < top.
    Hypothesis HSd : forall s t, In s S -> In t S -> In t (sb s) -> t = s.
    Hypothesis HSn : NoDup S.

    (** A cluster put in place of selected clusters below it. *)
    Definition merged (e : nat) : Prop :=
      n <= e < top /\ (e = n \/ ~ small e) /\ (forall w, In w (sb e) -> w <> e -> small w) /\
      exists s, In s S /\ In s (sb e) /\ s <> e.

    Lemma lookup c : n < c < top -> exists r, In r CT /\ c_child r = c /\
      array_get CT (searchsorted (map c_child CT) c) = Ok r.
    Proof.
      intro Hc. rewrite (ids n wt mcs T HT).
      assert (Hss : forall len a x, a <= x < a + len -> searchsorted (seq a len) x = x - a).
      { induction len as [|len IHl]; intros a x Hx; [lia|]. cbn [seq searchsorted].
        destruct (Nat.ltb_spec a x) as [H|H]; [|lia]. rewrite IHl by lia. lia. }
      assert (Hr : n + 1 <= c < n + 1 + length CT) by (unfold top_id in Hc; lia).
      rewrite (Hss _ _ _ Hr).
      unfold array_get. destruct (nth_error CT (c - (n + 1))) as [r|] eqn:E; [|apply nth_error_None in E; lia].
      exists r. split; [eapply nth_error_In; eauto|]. split; auto.
      assert (Hm : nth_error (map c_child CT) (c - (n + 1)) = Some (c_child r)) by now apply map_nth_error.
      rewrite (ids n wt mcs T HT) in Hm. rewrite nth_error_nth' with (d := 0) in Hm by (rewrite seq_length; lia).
      rewrite seq_nth in Hm by lia. injection Hm as <-. lia.
    Qed.

    Record einv (S1 E PR : list nat) : Prop := {
      e_kind : forall e, In e E -> (In e S1 /\ ~ small e) \/ (merged e /\ forall w, vis e w -> In w PR);
      e_nodup : NoDup E;
      e_disj : forall e e', In e E -> In e' E -> In e' (sb e) -> e' = e;
      e_pr : forall w, In w PR -> exists e, In e E /\ merged e /\ vis e w;
      e_cover : forall s, In s S1 -> In s E \/ exists e, In e E /\ merged e /\ vis e s;
      e_keep : forall s, In s S1 -> ~ small s -> In s E
    }.

    Lemma eps_loop_ok : forall S2 S1 E PR, S = S1 ++ S2 -> einv S1 E PR ->
      exists E' PR', fold_res (epsilon_step lt_eps CT B n) S2 (E, PR) = Ok (E', PR') /\ einv S E' PR'.
    Proof.
      induction S2 as [|c S2 IH]; intros S1 E PR ES HI; cbn [fold_res].
      - exists E, PR. split; auto. rewrite app_nil_r in ES. now rewrite ES.
      - assert (HcS : In c S) by (rewrite ES; apply in_elt).
        assert (ES' : S = (S1 ++ [c]) ++ S2) by (rewrite <- app_assoc; auto).
        assert (HS1 : forall s, In s S1 -> In s S) by (intros; rewrite ES; apply in_app_iff; auto).
        assert (HcS1 : ~ In c S1).
        { intro Hi. pose proof HSn as HND. rewrite ES in HND. apply NoDup_remove_2 in HND. apply HND. apply in_app_iff. auto. }
        unfold epsilon_step at 1. destruct (lookup c (HSc c HcS)) as (r & Hr & Ec & ->). cbn [bind].
        assert (Hdup : forall s, In s S1 -> ~ In s (sb c) /\ ~ In c (sb s)).
        { intros s Hs. split; intro Hi.
          - apply HSd in Hi; auto. congruence.
          - apply HSd in Hi; auto. congruence. }
        destruct (lt_eps (c_lam r)) eqn:El.
        + assert (Hsm : small c) by (exists r; auto).
          destruct (in_set PR c) eqn:Epr.
          * (* already covered, or believed to be *)
            cbn [bind]. apply (IH (S1 ++ [c])); auto. apply in_set_true in Epr. destruct HI as [K1 K2 K3 K4 K5 K6].
            constructor; auto.
            -- intros e He. destruct (K1 e He) as [[H1 H2]|H]; auto. left. split; auto. apply in_app_iff. auto.
            -- intros s Hs. apply in_app_iff in Hs as [Hs|[<-|[]]]; auto.
            -- intros s Hs Hns. apply in_app_iff in Hs as [Hs|[<-|[]]]; auto. contradiction.
          * apply in_set_false in Epr.
            destruct (traverse_ok (Datatypes.S (length CT)) c (HSc c HcS)) as (P & u & -> & HPr & Hu & Hcu & Hsu & HPc); auto.
            { pose proof (HSc c HcS) as H. unfold top_id in H. lia. }
            cbn [bind]. destruct (segments_ok P HPr) as (R & -> & HR). cbn [bind].
            apply (IH (S1 ++ [c])); auto.
            assert (HcP : In c (sb P)) by (apply (sub_child ch top up bound P u Hu); auto).
            assert (HcneP : c <> P).
            { pose proof (up _ _ Hu). apply (sub_ge ch top up bound) in Hcu. lia. }
            assert (Hmerged : merged P).
            { split; auto. split; [destruct HPc as [|[_ ?]]; auto|]. split; [now apply (small_desc P u)|].
              exists c. auto. }
            destruct HI as [K1 K2 K3 K4 K5 K6].
            (* P is unrelated to what was selected before *)
            assert (Hun : forall e, In e E -> ~ In e (sb P) /\ ~ In P (sb e)).
            { intros e He. split; intro Hi.
              - destruct (K1 e He) as [[H1 H2]|[Hm Hv]].
                + destruct (Nat.eq_dec e P) as [->|Hne].
                  * now apply (Hdup P H1).
                  * apply H2. now apply (small_desc P u Hu Hsu).
                + destruct (Nat.eq_dec e P) as [->|Hne].
                  * apply Epr. apply Hv. apply (vis_sub P P); [constructor|auto].
                  * destruct Hm as (_ & [->|Hns] & _); [|apply Hns; now apply (small_desc P u Hu Hsu)].
                    apply (sub_ge ch top up bound) in Hi. lia.
              - destruct (K1 e He) as [[H1 H2]|[Hm Hv]].
                + apply (Hdup e H1). eapply (sub_trans ch top up bound); eauto.
                + apply Epr. apply Hv. apply (vis_sub e e); [constructor|]. eapply (sub_trans ch top up bound); eauto. }
            constructor.
            -- intros e He. apply in_app_iff in He as [He|[<-|[]]].
               ++ destruct (K1 e He) as [[H1 H2]|[Hm Hv]]; [left; split; auto; apply in_app_iff; auto|].
                  right. split; auto. intros w Hw. apply set_union_in. auto.
               ++ right. split; auto. intros w Hw. apply set_union_in. left. now apply HR.
            -- apply NoDup_app_iff. split; auto. split; [constructor; [intros []|constructor]|].
               intros e He [<-|[]]. apply (proj1 (Hun _ He)). apply (sub_self ch top up bound).
            -- intros e e' He He' Hi. apply in_app_iff in He as [He|[<-|[]]], He' as [He'|[<-|[]]]; auto.
               ++ exfalso. exact (proj2 (Hun e He) Hi).
               ++ exfalso. exact (proj1 (Hun e' He') Hi).
            -- intros w Hw. apply set_union_in in Hw as [Hw|Hw].
               ++ exists P. split; [apply in_app_iff; simpl; auto|]. split; auto. now apply HR.
               ++ destruct (K4 w Hw) as (e & He & H). exists e. split; auto. apply in_app_iff. auto.
            -- intros s Hs. apply in_app_iff in Hs as [Hs|[<-|[]]].
               ++ destruct (K5 s Hs) as [H|(e & He & H)]; [left; apply in_app_iff; auto|].
                  right. exists e. split; auto. apply in_app_iff. auto.
               ++ right. exists P. split; [apply in_app_iff; simpl; auto|]. split; auto.
                  apply (vis_sub P P); [constructor|auto].
            -- intros s Hs Hns. apply in_app_iff in Hs as [Hs|[<-|[]]]; [|contradiction]. apply in_app_iff. auto.
        + assert (Hns : ~ small c).
          { intros (q & Hq & Eq & Elq). assert (q = r) as -> by (apply (ct_row_eq n wt mcs T HT); auto; congruence). congruence. }
          cbn [bind]. apply (IH (S1 ++ [c])); auto. destruct HI as [K1 K2 K3 K4 K5 K6].
          assert (Hun : forall e, In e E -> ~ In e (sb c) /\ ~ In c (sb e)).
          { intros e He. destruct (K1 e He) as [[H1 H2]|[(Hr1 & Hr2 & Hdesc & s & Hs & Hse & Hsne) Hv]]; [now apply Hdup|].
            split; intro Hi.
            - assert (Hsc : In s (sb c)) by (eapply (sub_trans ch top up bound); eauto).
              apply (HSd c s HcS Hs) in Hsc. subst s.
              apply (sub_ge ch top up bound) in Hi. apply (sub_ge ch top up bound) in Hse. lia.
            - destruct (Nat.eq_dec c e) as [->|Hne]; [|apply Hns; auto].
              apply (HSd e s HcS Hs) in Hse. congruence. }
          constructor.
          * intros e He. apply in_app_iff in He as [He|[<-|[]]].
            -- destruct (K1 e He) as [[H1 H2]|H]; auto. left. split; auto. apply in_app_iff. auto.
            -- left. split; auto. apply in_app_iff. simpl; auto.
          * apply NoDup_app_iff. split; auto. split; [constructor; [intros []|constructor]|].
            intros e He [<-|[]]. apply (proj1 (Hun _ He)). apply (sub_self ch top up bound).
          * intros e e' He He' Hi. apply in_app_iff in He as [He|[<-|[]]], He' as [He'|[<-|[]]]; auto.
            -- exfalso. exact (proj2 (Hun e He) Hi).
            -- exfalso. exact (proj1 (Hun e' He') Hi).
          * intros w Hw. destruct (K4 w Hw) as (e & He & H). exists e. split; auto. apply in_app_iff. auto.
          * intros s Hs. apply in_app_iff in Hs as [Hs|[<-|[]]].
            -- destruct (K5 s Hs) as [H|(e & He & H)]; [left; apply in_app_iff; auto|].
               right. exists e. split; auto. apply in_app_iff. auto.
            -- left. apply in_app_iff. simpl; auto.
          * intros s Hs Hns'. apply in_app_iff. apply in_app_iff in Hs as [Hs|[<-|[]]]; simpl; auto.
    Qed.

    Lemma eps_ok : CT <> [] -> exists E, cluster_epsilon_search lt_eps S CT B = Ok E /\
      (forall e, In e E -> (In e S /\ ~ small e) \/ merged e) /\ NoDup E /\
      (forall e e', In e E -> In e' E -> In e' (sb e) -> e' = e) /\
      (forall s, In s S -> In s E \/ exists e, In e E /\ merged e /\ vis e s) /\
      (forall s, In s S -> ~ small s -> In s E).
    Proof.
      intro Hne. unfold cluster_epsilon_search. rewrite (ct_min n wt mcs T HT Hne). cbn [bind].
      destruct (eps_loop_ok S [] [] []) as (E & PR & -> & [K1 K2 K3 K4 K5 K6]); auto.
      - constructor; [intros ? []|constructor|intros ? ? []|intros ? []|intros ? []|intros ? []].
      - cbn [bind]. exists E. split; auto. split; [|auto]. intros e He. destruct (K1 e He) as [|[? _]]; auto.
    Qed.

    Lemma eps_none : CT <> [] -> (forall s, In s S -> ~ small s) -> cluster_epsilon_search lt_eps S CT B = Ok S.
    Proof.
      intros Hne Hns. unfold cluster_epsilon_search. rewrite (ct_min n wt mcs T HT Hne). cbn [bind].
      assert (H : forall l E, (forall s, In s l -> n < s < top /\ ~ small s) ->
        fold_res (epsilon_step lt_eps CT B n) l (E, []) = Ok (E ++ l, [])).
      { induction l as [|c l IH]; intros E Hl; cbn [fold_res]; [now rewrite app_nil_r|].
        unfold epsilon_step at 1. destruct (Hl c (or_introl eq_refl)) as [Hc Hs].
        destruct (lookup c Hc) as (r & Hr & Ec & ->). cbn [bind].
        destruct (lt_eps (c_lam r)) eqn:El; [exfalso; apply Hs; exists r; auto|]. cbn [bind].
        rewrite IH by (intros; apply Hl; simpl; auto). now rewrite <- app_assoc. }
      rewrite H by (intros; split; auto). reflexivity.
    Qed.

    (** Never exactly one cluster other than the root. *)
    Lemma eps_not_single E : CT <> [] -> 2 <= length S ->
      (forall l, n <= l < top -> ch l = [] -> exists s, In s S /\ In l (sb s)) ->
      cluster_epsilon_search lt_eps S CT B = Ok E -> E = [n] \/ 2 <= length E.
    Proof.
      intros Hne HS2 Hcov Eq. destruct (eps_ok Hne) as (E' & Eq' & K1 & K2 & K3 & K5 & _).
      rewrite Eq in Eq'. injection Eq' as <-.
      destruct E as [|e [|e2 E2]]; [|destruct (Nat.eq_dec e n) as [->|Hen]; [auto|]|right; simpl; lia].
      - exfalso. destruct S as [|s S']; [simpl in HS2; lia|]. destruct (K5 s (or_introl eq_refl)) as [[]|(? & [] & _)].
      - exfalso.
        assert (Hm : merged e).
        { destruct (K1 e (or_introl eq_refl)) as [[HeS Hns]|]; auto.
          assert (Hex : exists s, In s S /\ s <> e).
          { pose proof HSn as HND. destruct S as [|a [|b S']]; try (simpl in HS2; lia). inversion_clear HND as [|? ? Hab _].
            destruct (Nat.eq_dec a e) as [->|]; [exists b|exists a]; simpl; split; auto. intros ->. apply Hab. simpl; auto. }
          destruct Hex as (s & Hs & Hse). destruct (K5 s Hs) as [[|[]]|(e' & [<-|[]] & Hm & _)]; [congruence|auto]. }
        assert (Hm' := Hm). destruct Hm' as (Her & [|Hns] & Hdesc & s0 & Hs0 & Hs0e & Hs0ne); [contradiction|].
        assert (Hche : ch e <> []).
        { intro E0. apply (sub_inv ch top up bound) in Hs0e as [|(u & Hu & _)]; [contradiction|]. rewrite E0 in Hu. destruct Hu. }
        (* the sibling *)
        assert (Hcl : is_cluster n T e) by (apply (is_cluster_iff n wt mcs T HT); auto).
        destruct Hcl as [|(_ & r & Hr & Er)]; [contradiction|].
        assert (HrC : In r CT) by (apply (in_ct n T); auto; lia).
        set (p := c_parent r). assert (Hep : In e (ch p)) by (apply (ch_in n T); exists r; auto).
        assert (HQ : exists Q, In Q (ch p) /\ e <> Q).
        { destruct (ch_cases p) as [E0|(a & E0 & _)]; [rewrite E0 in Hep; destruct Hep|]. rewrite E0 in *. simpl in Hep.
          destruct (Nat.eq_dec e a) as [->|]; [exists (a + 1)|exists a]; simpl; split; auto. lia. }
        destruct HQ as (Q & HQp & HeQ).
        destruct (other_side_leaf e Q p Hep HQp HeQ Hche) as (l & Hl & Hcl & Hvis).
        assert (Hlr : n <= l < top).
        { apply (sub_range n wt mcs T HT) in Hl as [->|]; [|lia]. pose proof (bound _ _ HQp). pose proof (up _ _ HQp).
          pose proof (parent_lt_child n wt mcs T HT r HrC). fold p in H1. lia. }
        destruct (Hcov l Hlr Hcl) as (s & Hs & Hls).
        assert (HsQ : In s (sb Q)).
        { destruct (sub_chain ch top up bound cone l s Q Hls Hl) as [H|H]; auto.
          destruct (Nat.eq_dec Q s) as [->|HQs]; auto. exfalso.
          destruct (sub_up ch top up bound s Q H HQs) as (p' & Hp' & Hps).
          rewrite (cone _ _ _ Hp' HQp) in Hps.
          assert (Hes : In e (sb s)).
          { eapply (sub_trans ch top up bound); [exact Hps|]. apply (sub_child ch top up bound p e Hep). apply (sub_self ch top up bound). }
          assert (H0 : In s0 (sb s)) by (eapply (sub_trans ch top up bound); eauto).
          apply (HSd s s0 Hs Hs0) in H0. subst s0.
          apply (sub_ge ch top up bound) in Hs0e. apply (sub_ge ch top up bound) in Hes. lia. }
        assert (HeQs : ~ In e (sb Q)).
        { intro Hi. apply HeQ. apply (sub_siblings ch top up bound cone p e Q e Hep HQp (sub_self ch top up bound e) Hi). }
        destruct (K5 s Hs) as [[->|[]]|(e' & [<-|[]] & _ & Hv)].
        + contradiction.
        + apply Hvis. apply (vis_sub e s Hv). auto.
    Qed.
  End Search.
End Eps.
