(** Proofs about the single linkage tree. *)
From Coq Require Import List Arith Lia Bool Permutation Sorted ZArith.
From Verif Require Import Prelude Order Graph UF Size M_DisjointSet M_Linkage S_Linkage P_DisjointSet P_Dendro P_Kruskal.
Import ListNotations.

(** The parent array with -1 read as "itself". *)
Definition pf (parent : nat -> option nat) (x : nat) : nat :=
  match parent x with None => x | Some p => p end.

Lemma pf_upd parent x v y : pf (upd parent x (Some v)) y = upd (pf parent) x v y.
Proof. unfold pf, upd. destruct (y =? x); auto. Qed.

Lemma lm_up_walk fuel parent x : lm_up fuel parent x = walk fuel (pf parent) x.
Proof.
  revert x. induction fuel as [|f IH]; intros x; simpl; unfold pf at 1; destruct (parent x) as [p|] eqn:E;
    try (rewrite Nat.eqb_refl; reflexivity).
  - destruct (p =? x); auto.
  - destruct (p =? x); auto. rewrite IH. f_equal. unfold pf. now rewrite E.
Qed.

Lemma uf_wf_ext n p q : (forall j, p j = q j) -> uf_wf n p -> uf_wf n q.
Proof.
  intros H [H1 H2]. split.
  - intros x Hx. rewrite <- H. auto.
  - intros x Hx. destruct (H2 x Hx) as [r Hr]. exists r. now apply (Root_ext p).
Qed.

Lemma lm_relabel_ok N k : forall parent x node fuel,
  uf_wf N (pf parent) -> x < N -> RootN (pf parent) x node k -> k <= S fuel ->
  parent node = Some node ->
  exists q, lm_relabel fuel parent x node = Ok q /\ uf_wf N (pf q) /\
    (forall y s, y < N -> (Root (pf q) y s <-> Root (pf parent) y s)) /\
    (forall y, parent y <> None \/ q y = parent y).
Proof.
  induction k as [|k IH]; intros parent x node fuel Hwf Hx HN Hf Hnode.
  - inversion HN; subst. exists parent. destruct fuel; simpl; rewrite Hnode, Nat.eqb_refl;
      (split; [auto|split; [auto|split; [tauto|auto]]]).
  - assert (HR : Root (pf parent) x node) by (eapply RootN_Root; eauto).
    inversion HN as [|? ? ? Hne HN']; subst.
    destruct (parent x) as [p|] eqn:Ep; [|unfold pf in Hne; rewrite Ep in Hne; congruence].
    assert (Epf : pf parent x = p) by (unfold pf; now rewrite Ep).
    destruct (Nat.eq_dec p node) as [E|E].
    + exists parent. destruct fuel; simpl; rewrite Ep, (proj2 (Nat.eqb_eq p node) E);
      (split; [auto|split; [auto|split; [tauto|auto]]]).
    + destruct fuel as [|fuel].
      { exfalso. rewrite Epf in HN'. assert (k = 0) by lia. subst k. inversion HN'; subst; auto. }
      simpl. rewrite Ep, (proj2 (Nat.eqb_neq p node) E).
      assert (Hxn : x <> node). { intros ->. apply Hne. eapply Root_root; eauto. }
      assert (Hwf' : uf_wf N (pf (upd parent x (Some node)))).
      { apply (uf_wf_ext _ (upd (pf parent) x node)); [intro; now rewrite pf_upd|].
        apply compress_wf; auto. }
      destruct (IH (upd parent x (Some node)) p node fuel) as (q & Hq & Hw & Hi & Hk); auto.
      * rewrite <- Epf. apply Hwf; auto.
      * rewrite Epf in HN'.
        apply (RootN_ext (upd (pf parent) x node)); [intro; now rewrite pf_upd|].
        eapply RootN_upd_below; eauto.
      * lia.
      * rewrite upd_neq; auto.
      * exists q. split; [auto|split; [auto|split]].
        -- intros y s Hy. rewrite Hi by auto.
           transitivity (Root (upd (pf parent) x node) y s).
           { split; apply Root_ext; intro; now rewrite pf_upd. }
           apply (Root_pres_iff N); auto. intros y' s' _ Hs. now apply Root_compress.
        -- intro y. destruct (Nat.eq_dec y x) as [->|Hy]; [left; congruence|].
           destruct (Hk y) as [H|H]; rewrite upd_neq in H by auto; auto.
Qed.

Lemma linkage_merge_find_ok {Sz} (lm : linkage_merge Sz) x :
  uf_wf (lm_len lm) (pf (lm_parent lm)) -> x < lm_len lm ->
  exists lm' r, linkage_merge_find lm x = Ok (lm', r) /\ Root (pf (lm_parent lm)) x r /\ r < lm_len lm /\
    lm_len lm' = lm_len lm /\ lm_size lm' = lm_size lm /\ lm_next lm' = lm_next lm /\
    uf_wf (lm_len lm) (pf (lm_parent lm')) /\
    (forall y s, y < lm_len lm -> (Root (pf (lm_parent lm')) y s <-> Root (pf (lm_parent lm)) y s)).
Proof.
  intros Hwf Hx. set (N := lm_len lm) in *. set (p := lm_parent lm) in *.
  destruct (walk_ok N (pf p) x N Hwf Hx (le_n _)) as (r & Hw & HR & Hr).
  destruct (Root_RootN _ _ _ HR) as [k Hk].
  assert (k < N) by (apply (RootN_lt N (pf p) x r k); auto; apply Hwf).
  assert (Hpr : pf p r = r) by (eapply Root_root; eauto).
  assert (Hext : forall j, pf (upd p r (Some r)) j = pf p j).
  { intro j. rewrite pf_upd. destruct (upd_case (pf p) r j r) as [[-> ->]|[_ ->]]; auto. }
  destruct (lm_relabel_ok N k (upd p r (Some r)) x r N) as (q & Hq & Hw' & Hi & _); auto.
  - apply (uf_wf_ext _ (pf p)); auto.
  - apply (RootN_ext (pf p)); auto.
  - lia.
  - apply upd_eq.
  - exists {| lm_len := N; lm_parent := q; lm_size := lm_size lm; lm_next := lm_next lm |}, r.
    unfold linkage_merge_find. fold N p. rewrite (proj2 (Nat.leb_gt N x)) by auto.
    rewrite lm_up_walk, Hw. cbn [bind]. rewrite Hq. cbn [bind lm_len lm_size lm_next lm_parent].
    split; [auto|split; [auto|split; [auto|split; [auto|split; [auto|split; [auto|split; [auto|]]]]]]].
    intros y s Hy. rewrite Hi by auto. split; apply Root_ext; intro; now rewrite Hext.
Qed.

Section Loop.
  Context {W : Type} {Sz : SOrd}.
  Variable n : nat.
  Variable wt : nat -> Sz.
  Implicit Types L : list (lrow W Sz).
  Implicit Types E M : list (edge W).

  Definition isroot (p : nat -> nat) (v : nat) : bool := p v =? v.

  Record linv (lm : linkage_merge Sz) L E : Prop := {
    li_len : lm_len lm = 2 * n - 1;
    li_next : lm_next lm = n + length L;
    li_wf : uf_wf (2 * n - 1) (pf (lm_parent lm));
    li_fresh : forall v, n + length L <= v < 2 * n - 1 -> pf (lm_parent lm) v = v;
    li_root : forall v r, v < n + length L -> Root (pf (lm_parent lm)) v r -> r < n + length L;
    li_down : down n L;
    li_roots : Permutation (child_list L ++ filter (isroot (pf (lm_parent lm))) (seq 0 (n + length L)))
                           (seq 0 (n + length L));
    li_lv : forall r x, r < n + length L -> pf (lm_parent lm) r = r -> x < n ->
            (In x (lv n L r) <-> Root (pf (lm_parent lm)) x r);
    li_cls : classes n (pf (lm_parent lm)) (connected E);
    li_size : forall r, r < n + length L -> pf (lm_parent lm) r = r ->
              lm_size lm r = ssum (map wt (lv n L r))
  }.

  Definition row_ok L E (e : edge W) (r : lrow W Sz) : Prop :=
    l_d r = ewt e /\ l_b r < l_a r /\
    (forall x, In x (lv n (L ++ [r]) (n + length L)) <-> x < n /\ connected (E ++ [e]) (esrc e) x) /\
    l_n r = ssum (map wt (lv n (L ++ [r]) (n + length L))).

  Lemma isroot_Root N p v : v < N -> uf_wf N p -> (isroot p v = true <-> Root p v v).
  Proof.
    intros Hv Hwf. unfold isroot. rewrite Nat.eqb_eq. split.
    - apply Root_self.
    - apply Root_root.
  Qed.

  Lemma linkage_step_ok lm L E e :
    linv lm L E -> esrc e < n -> edst e < n -> ~ connected E (esrc e) (edst e) ->
    S (length L) < n ->
    exists lm' r, linkage_step lm e = Ok (lm', r) /\ linv lm' (L ++ [r]) (E ++ [e]) /\ row_ok L E e r.
  Proof.
    intros I Hs Hd Hnc HL.
    assert (HN : lm_len lm = 2 * n - 1) by apply I.
    pose proof (li_wf _ _ _ I) as Hwf.
    set (p := pf (lm_parent lm)) in *. set (N := 2 * n - 1) in *. set (z := n + length L) in *.
    destruct (linkage_merge_find_ok lm (esrc e)) as (lm1 & a & E1 & HRa & Ha & L1 & S1 & X1 & W1 & R1);
      [rewrite HN; auto|rewrite HN; lia|].
    rewrite HN in *. fold p in HRa, R1.
    destruct (linkage_merge_find_ok lm1 (edst e)) as (lm2 & b & E2 & HRb & Hb & L2 & S2 & X2 & W2 & R2);
      [rewrite L1; auto|rewrite L1; lia|].
    rewrite L1 in *. apply R1 in HRb; [|lia].
    assert (R : forall y s, y < N -> (Root (pf (lm_parent lm2)) y s <-> Root p y s)).
    { intros y s Hy. rewrite R2, R1; tauto. }
    set (p2 := pf (lm_parent lm2)) in *.
    assert (Haz : a < z) by (eapply (li_root _ _ _ I); [|apply HRa]; lia).
    assert (Hbz : b < z) by (eapply (li_root _ _ _ I); [|apply HRb]; lia).
    assert (Hab : a <> b).
    { intros <-. apply Hnc. apply (li_cls _ _ _ I); auto. exists a. auto. }
    assert (HzN : z < N) by lia.
    assert (Hpa : p a = a) by (eapply Root_root; eauto).
    assert (Hpb : p b = b) by (eapply Root_root; eauto).
    assert (Hpz : p z = z) by (apply (li_fresh _ _ _ I); lia).
    assert (Q : forall v, v < N -> (p2 v = v <-> p v = v)).
    { intros v Hv. split; intro K.
      - apply (Root_root p v v). apply R; auto. now apply Root_self.
      - apply (Root_root p2 v v). apply R; auto. now apply Root_self. }
    set (c0 := if b <? a then a else b). set (c1 := if b <? a then b else a).
    set (r := {| l_a := c0; l_b := c1; l_d := ewt e; l_n := sadd (lm_size lm a) (lm_size lm b) |}).
    set (lm' := {| lm_len := N; lm_size := upd (lm_size lm) z (sadd (lm_size lm a) (lm_size lm b));
                   lm_parent := upd (upd (lm_parent lm2) a (Some z)) b (Some z);
                   lm_next := z + 1 |}).
    exists lm', r.
    assert (Estep : linkage_step lm e = Ok (lm', r)).
    { unfold linkage_step. rewrite E1. cbn [bind]. rewrite E2. cbn [bind].
      unfold linkage_merge_join. rewrite L2, X2, X1, (li_next _ _ _ I). fold z N.
      rewrite (proj2 (Nat.leb_gt N z)) by auto. rewrite S2, S1.
      unfold lm', r, c0, c1. destruct (b <? a); cbn [bind]; auto. }
    (* roots after the join *)
    set (p' := pf (lm_parent lm')).
    set (f := fun t => if (t =? a) || (t =? b) then z else t).
    assert (Hp' : forall j, p' j = upd (upd p2 a z) b z j).
    { intro j. unfold p', lm'. cbn [lm_parent]. rewrite pf_upd.
      unfold upd at 1. unfold upd at 2. destruct (j =? b); auto. rewrite pf_upd. auto. }
    assert (Hl1 : forall y s, y < N -> Root p y s -> Root (upd p2 a z) y (if s =? a then z else s)).
    { intros y s Hy K. apply Root_link; try apply Q; auto; try lia. apply R; auto. }
    assert (Hl2 : forall y s, y < N -> Root p y s -> Root p' y (f s)).
    { intros y s Hy K. apply (Root_ext (upd (upd p2 a z) b z)); [intro; now rewrite Hp'|].
      assert (Hs' : f s = if (if s =? a then z else s) =? b then z else (if s =? a then z else s)).
      { unfold f. destruct (Nat.eqb_spec s a); simpl.
        - destruct (Nat.eqb_spec z b); auto.
        - reflexivity. }
      rewrite Hs'. apply Root_link; try lia.
      - rewrite upd_neq by auto. apply Q; auto.
      - rewrite upd_neq by lia. apply Q; auto.
      - now apply Hl1. }
    assert (Hwf' : uf_wf N p').
    { split.
      - intros x Hx. rewrite Hp'. destruct (upd_case (upd p2 a z) b x z) as [[-> ->]|[_ ->]]; auto.
        destruct (upd_case p2 a x z) as [[-> ->]|[_ ->]]; auto. apply W2; auto.
      - intros x Hx. destruct (proj2 Hwf x Hx) as [s Hs']. exists (f s). auto. }
    assert (Hroot : forall y t, y < N -> (Root p' y t <-> exists s, Root p y s /\ t = f s)).
    { intros y t Hy. split.
      - intro K. destruct (proj2 Hwf y Hy) as [s Hs']. exists s. split; auto.
        eapply Root_det; [apply K|]. auto.
      - intros (s & K & ->). auto. }
    assert (Hr : nth_error (L ++ [r]) (length L) = Some r).
    { rewrite nth_error_app2, Nat.sub_diag; auto. }
    assert (HD : down n (L ++ [r])).
    { intros i q Hi. destruct (Nat.lt_ge_cases i (length L)) as [K|K].
      - rewrite nth_error_app1 in Hi by auto. apply (li_down _ _ _ I _ _ Hi).
      - rewrite nth_error_app2 in Hi by auto.
        destruct (i - length L) as [|m] eqn:Em; [|destruct m; discriminate].
        injection Hi as <-. unfold r, c0, c1. cbn [l_a l_b]. destruct (b <? a); lia. }
    assert (Hlvz : Permutation (lv n (L ++ [r]) z) (lv n L a ++ lv n L b)).
    { unfold z. rewrite (lv_node _ _ _ _ HD Hr).
      rewrite !lv_app; try exact (li_down _ _ _ I); try (unfold r, c0, c1; cbn [l_a l_b]; destruct (b <? a); lia).
      unfold r, c0, c1. cbn [l_a l_b]. destruct (b <? a); auto. apply Permutation_app_comm. }
    assert (Hplt : forall v, v < N -> v <> a -> v <> b -> (p' v = v <-> p v = v)).
    { intros v Hv Hva Hvb. rewrite Hp', !upd_neq by auto. apply Q; auto. }
    assert (Hpz' : p' z = z).
    { rewrite Hp', !upd_neq by lia. apply Q; auto. }
    assert (Hpa' : p' a <> a). { rewrite Hp', upd_neq, upd_eq by auto. lia. }
    assert (Hpb' : p' b <> b). { rewrite Hp', upd_eq by auto. lia. }
    split; [exact Estep|].
    assert (Hlv' : forall v x, v <= z -> p' v = v -> x < n -> (In x (lv n (L ++ [r]) v) <-> Root p' x v)).
    { intros v x Hv Hpv Hx. rewrite Hroot by lia. destruct (Nat.eq_dec v z) as [->|Hvz].
      - split.
        + intro K. apply (Permutation_in _ Hlvz) in K. apply in_app_iff in K as [K|K].
          * apply (li_lv _ _ _ I) in K; auto. exists a. split; auto. unfold f. now rewrite Nat.eqb_refl.
          * apply (li_lv _ _ _ I) in K; auto. exists b. split; auto. unfold f. now rewrite Nat.eqb_refl, orb_true_r.
        + intros (s & Hs' & Ez). apply (Permutation_in _ (Permutation_sym Hlvz)). apply in_or_app.
          assert (s < z) by (eapply (li_root _ _ _ I); [|apply Hs']; lia).
          unfold f in Ez. destruct (Nat.eqb_spec s a) as [->|]; [left; apply (li_lv _ _ _ I); auto|].
          destruct (Nat.eqb_spec s b) as [->|]; [right; apply (li_lv _ _ _ I); auto|]. simpl in Ez. lia.
      - rewrite lv_app; [|apply (li_down _ _ _ I)|lia].
        assert (v <> a) by (intros ->; auto). assert (v <> b) by (intros ->; auto).
        rewrite (li_lv _ _ _ I); try lia; [|apply Hplt; auto; lia].
        split.
        + intro K. exists v. split; auto. unfold f.
          destruct (Nat.eqb_spec v a); [lia|]. destruct (Nat.eqb_spec v b); [lia|auto].
        + intros (s & Hs' & Ez). unfold f in Ez.
          destruct (Nat.eqb_spec s a); [simpl in Ez; lia|]. destruct (Nat.eqb_spec s b); [simpl in Ez; lia|].
          simpl in Ez. subst; auto. }
    assert (Hcls : classes n p' (connected (E ++ [e]))).
    { intros x y Hx Hy. rewrite connected_snoc.
      destruct (proj2 Hwf x ltac:(lia)) as [tx Hx']. destruct (proj2 Hwf y ltac:(lia)) as [ty Hy'].
      assert (tx < z) by (eapply (li_root _ _ _ I); [|apply Hx']; lia).
      assert (ty < z) by (eapply (li_root _ _ _ I); [|apply Hy']; lia).
      assert (C : forall u v ru rv, u < n -> v < n -> Root p u ru -> Root p v rv -> (connected E u v <-> ru = rv)).
      { intros u v ru rv Hu Hv K1 K2. rewrite <- (li_cls _ _ _ I u v Hu Hv). apply same_roots; auto. }
      rewrite (same_roots p' x y (f tx) (f ty)); [|apply Hl2; auto; lia|apply Hl2; auto; lia].
      rewrite (C x y tx ty), (C x (esrc e) tx a), (C (edst e) y b ty), (C x (edst e) tx b), (C (esrc e) y a ty)
        by auto.
      unfold f. destruct (Nat.eqb_spec tx a), (Nat.eqb_spec tx b), (Nat.eqb_spec ty a), (Nat.eqb_spec ty b);
        simpl; lia. }
    assert (Hsz : sadd (lm_size lm a) (lm_size lm b) = ssum (map wt (lv n (L ++ [r]) z))).
    { rewrite (li_size _ _ _ I a), (li_size _ _ _ I b) by auto.
      rewrite <- ssum_app, <- map_app. apply ssum_perm, Permutation_map. now symmetry. }
    split.
    - split; fold p'.
      + reflexivity.
      + unfold lm'. cbn [lm_next]. rewrite app_length. simpl. lia.
      + exact Hwf'.
      + intros v Hv. rewrite app_length in Hv. simpl in Hv. apply Hplt; try lia.
        apply (li_fresh _ _ _ I). lia.
      + intros v t Hv Ht. rewrite app_length in *. simpl in *. apply Hroot in Ht; [|lia].
        destruct Ht as (s & Hs' & ->).
        assert (s <= z).
        { destruct (Nat.eq_dec v z) as [->|]; [|assert (s < z); [|lia]; eapply (li_root _ _ _ I); [|apply Hs']; lia].
          assert (s = z); [|lia]. eapply Root_fix; eauto. }
        unfold f. destruct (_ || _); lia.
      + exact HD.
      + rewrite app_length. simpl. replace (n + (length L + 1)) with (S z) by lia.
        rewrite seq_S, filter_app. simpl. unfold isroot at 2. rewrite Hpz', Nat.eqb_refl.
        rewrite child_list_app. simpl. rewrite app_assoc. apply Permutation_app_tail.
        etransitivity; [|apply (li_roots _ _ _ I)]. fold p z. rewrite <- app_assoc.
        apply Permutation_app_head. simpl.
        apply NoDup_Permutation.
        * assert (A : forall v, In v (filter (isroot p') (seq 0 z)) -> v <> a /\ v <> b).
          { intros v Hv. apply filter_In in Hv as [_ Hv]. unfold isroot in Hv. apply Nat.eqb_eq in Hv.
            split; intros ->; auto. }
          unfold c0, c1. constructor; [|constructor; [|apply NoDup_filter, seq_NoDup]].
          -- simpl. destruct (b <? a); intros [K|K]; try lia; apply A in K; lia.
          -- destruct (b <? a); intro K; apply A in K; lia.
        * apply NoDup_filter, seq_NoDup.
        * intro v. simpl. rewrite !filter_In, in_seq. unfold isroot. rewrite !Nat.eqb_eq. split.
          -- intros [K|[K|[K1 K2]]].
             ++ subst v. unfold c0. destruct (b <? a); lia.
             ++ subst v. unfold c1. destruct (b <? a); lia.
             ++ split; auto. apply Hplt; auto; try lia; intros ->; auto.
          -- intros [K1 K2]. destruct (Nat.eq_dec v a) as [->|]; [unfold c0, c1; destruct (b <? a); auto|].
             destruct (Nat.eq_dec v b) as [->|]; [unfold c0, c1; destruct (b <? a); auto|].
             right; right. split; auto. apply Hplt; auto; lia.
      + intros v x Hv. rewrite app_length in Hv. simpl in Hv. apply Hlv'. lia.
      + exact Hcls.
      + intros v Hv Hpv. rewrite app_length in Hv. simpl in Hv. unfold lm'. cbn [lm_size].
        destruct (upd_case (lm_size lm) z v (sadd (lm_size lm a) (lm_size lm b))) as [[-> ->]|[Hne ->]]; auto.
        rewrite lv_app; [|apply (li_down _ _ _ I)|lia]. apply (li_size _ _ _ I); [lia|].
        apply Hplt; auto; try lia; intros ->; auto.
    - split; [reflexivity|split; [|split]].
      + unfold r, c0, c1. cbn [l_a l_b]. destruct (Nat.ltb_spec b a); lia.
      + intro x. fold z. split.
        * intro K. assert (Hx : x < n) by (eapply lv_range; eauto). split; auto.
          apply Hcls; auto. apply Hlv' in K; auto.
          exists z. split; auto. apply Hroot; [lia|]. exists a. split; auto. unfold f. now rewrite Nat.eqb_refl.
        * intros [Hx K]. apply Hlv'; auto. apply Hcls in K; auto.
          destruct K as (t & K1 & K2). apply Hroot in K1; [|lia]. destruct K1 as (s & K1 & ->).
          rewrite (Root_det _ _ _ _ K1 HRa) in K2. unfold f in K2. now rewrite Nat.eqb_refl in K2.
      + exact Hsz.
  Qed.
  Lemma acyclic_mid E e M : acyclic (E ++ e :: M) -> ~ connected E (esrc e) (edst e).
  Proof.
    intros HA Hc. apply (HA E e M eq_refl). eapply connected_incl; [|apply Hc].
    intros x Hx. apply in_or_app. auto.
  Qed.

  Lemma linkage_loop_ok M : forall lm L E,
    linv lm L E -> length L = length E -> in_range n (E ++ M) -> acyclic (E ++ M) ->
    length (E ++ M) < n ->
    exists rows, linkage_loop lm M = Ok rows /\ length rows = length M /\
      (exists lm', linv lm' (L ++ rows) (E ++ M)) /\
      (forall i e, nth_error M i = Some e -> exists r, nth_error rows i = Some r /\
         row_ok (L ++ firstn i rows) (E ++ firstn i M) e r).
  Proof.
    induction M as [|e M IH]; intros lm L E I HL HR HA HN.
    - exists []. simpl. rewrite !app_nil_r. split; [auto|split; [auto|split; [eauto|]]].
      intros [|i]; discriminate.
    - assert (He : esrc e < n /\ edst e < n).
      { apply HR. apply in_or_app. simpl. auto. }
      destruct (linkage_step_ok lm L E e I (proj1 He) (proj2 He)) as (lm1 & r & E1 & I1 & Hrow).
      + eapply acyclic_mid; eauto.
      + rewrite app_length in HN. simpl in HN. lia.
      + destruct (IH lm1 (L ++ [r]) (E ++ [e]) I1) as (rows & E2 & Hlen & Hfin & Hrows).
        * rewrite !app_length. simpl. lia.
        * rewrite <- app_assoc. auto.
        * rewrite <- app_assoc. auto.
        * rewrite <- app_assoc. auto.
        * exists (r :: rows). simpl. rewrite E1. cbn [bind]. rewrite E2. cbn [bind].
          split; [auto|split; [simpl; auto|split]].
          -- destruct Hfin as [lm' I']. exists lm'. rewrite <- !app_assoc in I'. exact I'.
          -- intros [|i] e' Hi; simpl in Hi |- *.
             ++ injection Hi as <-. exists r. rewrite !app_nil_r. auto.
             ++ destruct (Hrows i e' Hi) as (r' & Hr' & Hok). exists r'. split; auto.
                rewrite <- !app_assoc in Hok. exact Hok.
  Qed.

  Lemma linv_init : 0 < n -> forall ws : list Sz, length ws = n -> (forall i, i < n -> nth i ws szero = wt i) ->
    linv (create_linkage_merge_data ws) [] [].
  Proof.
    intros Hn ws Hlen Hws.
    assert (Hid : forall j, (fun x : nat => x) j = pf (fun _ => None) j) by reflexivity.
    split; cbn [create_linkage_merge_data lm_len lm_parent lm_size lm_next length]; rewrite ?Hlen; auto.
    - apply (uf_wf_ext _ (fun x => x)); auto. apply id_wf.
    - intros v r Hv HR. inversion HR; subst; auto; unfold pf in *; congruence.
    - intros i r Hi. destruct i; discriminate.
    - simpl. rewrite Nat.add_0_r. unfold isroot. replace (filter _ _) with (seq 0 n); auto.
      generalize (seq 0 n). induction l as [|x l IHl]; simpl; auto.
      unfold pf at 1. rewrite Nat.eqb_refl. now f_equal.
    - intros r x Hr _ Hx. rewrite lv_sample by lia. simpl. split.
      + intros [->|[]]. now apply Root_here.
      + intro K. inversion K; subst; auto; unfold pf in *; congruence.
    - intros x y Hx Hy. rewrite connected_nil. split.
      + intros (r & H1 & H2). apply same_id. exists r.
        split; apply (Root_ext (pf (fun _ => None))); auto.
      + intros ->. exists y. split; now apply Root_here.
    - intros r Hr _. rewrite Nat.add_0_r in Hr. rewrite lv_sample by auto. simpl.
      now rewrite Hws, sadd_0_r.
  Qed.

  Lemma linkage_tree_ok M (ws : list Sz) :
    spanning_tree n M -> length ws = n -> (forall i, i < n -> nth i ws szero = wt i) ->
    exists L, linkage_loop (create_linkage_merge_data ws) M = Ok L /\
      dendrogram n L /\ sizes_are n wt L /\ map l_d L = map ewt M /\
      (forall i r, nth_error L i = Some r -> l_b r < l_a r) /\
      (forall i e x, nth_error M i = Some e ->
         (under n L (n + i) x <-> x < n /\ connected (firstn (S i) M) (esrc e) x)).
  Proof.
    intros [HR HA HC HN] Hlen Hws.
    destruct (linkage_loop_ok M (create_linkage_merge_data ws) [] []) as (L & EL & HlenL & [lm' I] & Hrows);
      simpl; auto; try lia.
    { apply linv_init; auto. lia. }
    simpl in I. exists L. split; [auto|].
    assert (HD : down n L) by apply I.
    assert (Hrow : forall i r, nth_error L i = Some r -> exists e, nth_error M i = Some e /\
               row_ok (firstn i L) (firstn i M) e r).
    { intros i r Hi. destruct (nth_error M i) as [e|] eqn:Ee.
      - destruct (Hrows i e Ee) as (r' & Hr' & Hok). simpl in Hok. exists e. split; congruence.
      - apply nth_error_None in Ee. assert (i < length L) by (apply nth_error_Some; congruence). lia. }
    assert (Hlv : forall i r, nth_error L i = Some r ->
              lv n (firstn i L ++ [r]) (n + length (firstn i L)) = lv n L (n + i)).
    { intros i r Hi. assert (Hil : i < length L) by (apply nth_error_Some; congruence).
      rewrite firstn_length_le by lia. rewrite <- (firstn_S_nth _ _ _ Hi).
      rewrite <- (firstn_skipn (S i) L) at 2. symmetry. apply lv_app.
      - rewrite <- (firstn_skipn (S i) L) in HD. eapply down_app; eauto.
      - rewrite firstn_length_le; lia. }
    assert (Hroots : forall T, nroots (n + length L) T = length (filter (isroot T) (seq 0 (n + length L)))).
    { intro T. unfold nroots. rewrite countp_filter. reflexivity. }
    assert (Hlen1 : S (length L) = n) by lia.
    split; [split; [exact Hlen1|exact HD|]|split; [|split; [|split]]].
    - (* every node but the last has a parent *)
      pose proof (li_roots _ _ _ I) as HP. set (p := pf (lm_parent lm')) in *.
      assert (Hone : length (filter (isroot p) (seq 0 (n + length L))) = 1).
      { apply Permutation_length in HP. rewrite app_length, child_list_length, seq_length in HP. lia. }
      assert (Htop : isroot p (2 * n - 2) = true).
      { destruct (filter (isroot p) (seq 0 (n + length L))) as [|t [|? ?]] eqn:Ef; simpl in Hone; try lia.
        assert (Ht : In t (seq 0 (n + length L)) /\ isroot p t = true)
          by (apply filter_In; rewrite Ef; simpl; auto).
        destruct (Nat.eq_dec t (2 * n - 2)) as [<-|Hne]; [tauto|exfalso].
        (* otherwise node 2n-2 would be a child of a row before it *)
        assert (Hc : In (2 * n - 2) (child_list L)).
        { assert (K : In (2 * n - 2) (child_list L ++ [t])).
          { eapply Permutation_in; [symmetry; apply HP|]. apply in_seq. lia. }
          apply in_app_iff in K as [K|[K|[]]]; auto. congruence. }
        unfold child_list in Hc. apply in_flat_map in Hc as (r & Hr & Hin).
        apply In_nth_error in Hr as [i Hi]. assert (i < length L) by (apply nth_error_Some; congruence).
        destruct (HD _ _ Hi). simpl in Hin. lia. }
      replace (n + length L) with (S (2 * n - 2)) in HP, Hone by lia.
      set (m := 2 * n - 2) in *. clearbody m.
      rewrite seq_S, filter_app in HP, Hone. simpl in HP, Hone. rewrite Htop in HP, Hone.
      rewrite app_length in Hone. simpl in Hone.
      destruct (filter (isroot p) (seq 0 m)) eqn:Ef; simpl in Hone; [|lia].
      simpl in HP. now apply Permutation_app_inv_r in HP.
    - intros i r Hi. destruct (Hrow i r Hi) as (e & He & (_ & _ & _ & Hs)).
      exists (lv n L (n + i)). rewrite (Hlv i r Hi) in Hs. split; [|split; auto].
      + (* no repetition: part of a partition *)
        assert (Hfl : Permutation (flat_map (lv n (firstn (S i) L))
                  (filter (fun v => negb (existsb (Nat.eqb v) (child_list (firstn (S i) L))))
                          (seq 0 (n + S i)))) (seq 0 n)).
        { assert (Hil : i < length L) by (apply nth_error_Some; congruence).
          assert (HDi : down n (firstn (S i) L)).
          { rewrite <- (firstn_skipn (S i) L) in HD. eapply down_app; eauto. }
          apply tops_partition; auto. rewrite firstn_length_le by lia.
          apply NoDup_Permutation.
          - apply NoDup_app_iff. split; [|split].
            + pose proof (li_roots _ _ _ I) as HP.
              apply Permutation_sym in HP.
              assert (ND : NoDup (child_list L ++ filter (isroot (pf (lm_parent lm'))) (seq 0 (n + length L)))).
              { eapply Permutation_NoDup; [apply HP|apply seq_NoDup]. }
              apply NoDup_app_iff in ND as [ND _].
              rewrite <- (firstn_skipn (S i) L), child_list_app in ND. now apply NoDup_app_iff in ND.
            + apply NoDup_filter, seq_NoDup.
            + intros x H1 H2. apply filter_In in H2 as [_ H2].
              assert (K : existsb (Nat.eqb x) (child_list (firstn (S i) L)) = true).
              { apply existsb_exists. exists x. split; auto. apply Nat.eqb_refl. }
              rewrite K in H2. discriminate.
          - apply seq_NoDup.
          - intro x. rewrite in_app_iff, filter_In. split.
            + intros [K|[K _]]; auto. unfold child_list in K. apply in_flat_map in K as (q & Hq & Hin).
              apply In_nth_error in Hq as [j Hj].
              assert (j < S i).
              { rewrite <- (firstn_length_le L (n := S i)) by lia. apply nth_error_Some. congruence. }
              destruct (HDi _ _ Hj). apply in_seq. simpl in Hin. lia.
            + intro K. destruct (existsb (Nat.eqb x) (child_list (firstn (S i) L))) eqn:Ex.
              * left. apply existsb_exists in Ex as (y & Hy & Exy). apply Nat.eqb_eq in Exy. congruence.
              * right. auto. }
        assert (Hil : i < length L) by (apply nth_error_Some; congruence).
        assert (HDi : down n (firstn (S i) L)).
        { rewrite <- (firstn_skipn (S i) L) in HD. eapply down_app; eauto. }
        assert (Hin : In (n + i) (filter (fun v => negb (existsb (Nat.eqb v) (child_list (firstn (S i) L))))
                          (seq 0 (n + S i)))).
        { apply filter_In. split; [apply in_seq; lia|].
          destruct (existsb (Nat.eqb (n + i)) (child_list (firstn (S i) L))) eqn:Ex; auto. exfalso.
          apply existsb_exists in Ex as (y & Hy & Exy). apply Nat.eqb_eq in Exy as <-.
          unfold child_list in Hy. apply in_flat_map in Hy as (q & Hq & Hin).
          apply In_nth_error in Hq as [j Hj].
          assert (j < S i).
          { rewrite <- (firstn_length_le L (n := S i)) by lia. apply nth_error_Some. congruence. }
          destruct (HDi _ _ Hj). simpl in Hin. lia. }
        apply in_split in Hin as (l1 & l2 & Esp). rewrite Esp in Hfl.
        rewrite flat_map_app in Hfl. simpl in Hfl.
        assert (ND : NoDup (flat_map (lv n (firstn (S i) L)) l1 ++
                     lv n (firstn (S i) L) (n + i) ++ flat_map (lv n (firstn (S i) L)) l2)).
        { eapply Permutation_NoDup; [symmetry; apply Hfl|apply seq_NoDup]. }
        apply NoDup_app_iff in ND as (_ & ND & _). apply NoDup_app_iff in ND as [ND _].
        rewrite <- (Hlv i r Hi), firstn_length_le by lia. now rewrite <- (firstn_S_nth _ _ _ Hi).
      + intro x. symmetry. now apply under_lv.
    - assert (Hd : forall i, nth_error (map l_d L) i = nth_error (map ewt M) i).
      { intro i. rewrite !nth_error_map. destruct (nth_error L i) as [r|] eqn:Er.
        - destruct (Hrow i r Er) as (e & -> & (K & _)). simpl. now rewrite K.
        - apply nth_error_None in Er. rewrite (proj2 (nth_error_None M i)) by lia. reflexivity. }
      clear -Hd. revert Hd. generalize (map l_d L) (map (@ewt W) M).
      induction l as [|x l IHl]; intros [|y k] H; auto.
      + specialize (H 0). discriminate.
      + specialize (H 0). discriminate.
      + f_equal; [specialize (H 0); simpl in H; congruence|]. apply IHl. intro i. apply (H (S i)).
    - intros i r Hi. destruct (Hrow i r Hi) as (e & _ & (_ & K & _)). auto.
    - intros i e x He. destruct (Hrows i e He) as (r & Hr & (_ & _ & K & _)). simpl in K.
      rewrite under_lv by auto. rewrite <- (Hlv i r Hr). rewrite K.
      now rewrite <- (firstn_S_nth _ _ _ He).
  Qed.
End Loop.
