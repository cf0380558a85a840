(** Renumbering the single linkage tree of the finite rows. *)
From Coq Require Import List Arith Lia Bool ZArith Permutation Sorted.
From Verif Require Import Prelude Order Graph Size M_Linkage S_Linkage P_Cut M_Pipeline S_Pipeline M_Estimator S_Estimator P_Remap.
Import ListNotations.
Local Open Scope nat_scope.

Lemma ssorted_app {A} (R : A -> A -> Prop) l1 l2 : StronglySorted R l1 -> StronglySorted R l2 ->
  (forall x y, In x l1 -> In y l2 -> R x y) -> StronglySorted R (l1 ++ l2).
Proof.
  intros H1 H2 H. induction H1 as [|a l H1 IH Ha]; auto. cbn [app]. constructor.
  - apply IH. intros; apply H; auto. now right.
  - apply Forall_app. split; auto. apply Forall_forall. intros y Hy. apply H; auto. now left.
Qed.

Section Remap.
  Variables (n : nat) (F O : list nat).
  Hypothesis HP : Permutation (F ++ O) (seq 0 n).
  Notation f := (length F).
  Notation o := (length O).
  Notation raw x := (nth x F 0).
  Notation rename := (remap_id F O).

  (** ** Connectivity *)
  Section Edges.
    Context {W : Type}.
    Implicit Types E : list (edge W).
    Notation place := (place_edge (fun x => raw x)).

    Lemma connected_place E s y : in_range f E -> s < f ->
      connected (map place E) (raw s) y <-> exists x, x < f /\ y = raw x /\ connected E s x.
    Proof.
      intros HE Hs. split.
      - intro H. assert (G : raw s = y \/ exists x x', x < f /\ x' < f /\ raw s = raw x /\ y = raw x' /\ connected E x x').
        { revert H. generalize (raw s). intros a H. revert a y H. apply connected_ind_equiv.
          - auto.
          - intros a b [->|(x & x' & H1 & H2 & -> & -> & H)]; auto. right. exists x', x. eauto 6 using connected_sym.
          - intros a b c [->|(x & x' & H1 & H2 & -> & -> & H)]; auto. intros [<-|(z & z' & K1 & K2 & E1 & -> & K)]; [right; exists x, x'; auto|].
            apply (raw_inj n F O HP) in E1; auto. subst z. right. exists x, z'. eauto 6 using connected_trans.
          - intros e He. apply in_map_iff in He as (e0 & <- & He0). right. destruct (HE e0 He0) as [H1 H2]. exists (esrc e0), (edst e0).
            split; auto. split; auto. split; auto. split; auto. now apply connected_edge. }
        destruct G as [<-|(x & x' & H1 & H2 & E1 & -> & K)]; [exists s; auto using connected_refl|].
        apply (raw_inj n F O HP) in E1; auto. subst. eauto.
      - intros (x & Hx & -> & H). clear Hs Hx.
        apply (connected_ind_equiv E (fun a b => connected (map place E) (raw a) (raw b))); auto using connected_refl, connected_sym.
        + intros a b c. apply connected_trans.
        + intros e He. change (raw (esrc e)) with (esrc (place e)). change (raw (edst e)) with (edst (place e)). apply connected_edge. now apply in_map.
    Qed.
  End Edges.

  Section Linkage.
    Context {W : WOrd} {Sz : SOrd}.
    Variables (wt wt' : nat -> Sz) (L : list (lrow W Sz)) (M : list (edge W)).
    Hypothesis Hf : 3 <= f.
    Hypothesis HD : dendrogram f L.
    Hypothesis HZ : sizes_are f wt L.
    Hypothesis HH : heights_sorted L.
    Hypothesis HM : map l_d L = map ewt M.
    Hypothesis HU : forall i e x, nth_error M i = Some e -> (under f L (f + i) x <-> x < f /\ connected (firstn (S i) M) (esrc e) x).
    Hypothesis HR : in_range f M.
    Hypothesis HC : forall x y, x < f -> y < f -> connected M x y.
    Hypothesis Hwt : forall x, x < f -> wt' (raw x) = wt x.
    Hypothesis Hwo : forall x, In x O -> wt' x = sone.

    Definition lrow' (r : lrow W Sz) : lrow W Sz := {| l_a := rename (l_a r); l_b := rename (l_b r); l_d := l_d r; l_n := l_n r |}.
    Definition last_row : lrow W Sz := nth (f - 2) L {| l_a := 0; l_b := 0; l_d := winf; l_n := szero |}.
    Definition outs : list (lrow W Sz) := outlier_rows (n + f - 3) (l_n last_row) O.
    Definition L' : list (lrow W Sz) := map lrow' L ++ outs.

    Lemma L_len : length L = f - 1.
    Proof. destruct HD as [H _ _]. lia. Qed.
    Lemma M_len : length M = f - 1.
    Proof. rewrite <- L_len. rewrite <- (map_length l_d), HM. now rewrite map_length. Qed.
    Lemma L_split : exists L0, L = L0 ++ [last_row].
    Proof.
      exists (firstn (f - 2) L). pose proof L_len as H. unfold last_row.
      rewrite <- (firstn_skipn (f - 2) L) at 1. f_equal.
      assert (length (skipn (f - 2) L) = 1) by (rewrite skipn_length; lia).
      destruct (skipn (f - 2) L) as [|r [|]] eqn:E; simpl in *; try lia. f_equal.
      rewrite <- (firstn_skipn (f - 2) L), app_nth2; rewrite firstn_length; [|lia]. replace (f - 2 - _) with 0 by lia. now rewrite E.
    Qed.
    Lemma last_nth : nth_error L (f - 2) = Some last_row.
    Proof. apply nth_error_nth'. rewrite L_len. lia. Qed.

    (** The last merge takes the node created just before. *)
    Lemma last_child : Nat.max (rename (l_a last_row)) (rename (l_b last_row)) = n + f - 3.
    Proof.
      pose proof (rm_len n F O HP) as Hn. destruct HD as [D1 D2 D3].
      assert (H : In (2 * f - 3) (child_list L)) by (apply (Permutation_in _ (Permutation_sym D3)); apply in_seq; lia).
      apply in_flat_map in H as (r & Hr & Hc). apply In_nth_error in Hr as (i & Hi). destruct (D2 i r Hi) as [Ha Hb].
      assert (i < length L) by (apply nth_error_Some; congruence).
      assert (i = f - 2) by (simpl in Hc; lia). subst i. rewrite last_nth in Hi. injection Hi as <-.
      assert (Hmx : forall c, c < f + (f - 2) -> rename c <= n + f - 3).
      { intros c Hc'. destruct (Nat.lt_ge_cases c f) as [K|K]; [apply (rename_lt n F O HP) in K; lia|rewrite rename_big by auto; lia]. }
      pose proof (Hmx _ Ha). pose proof (Hmx _ Hb).
      assert (K : rename (2 * f - 3) = n + f - 3) by (rewrite rename_big by lia; lia).
      destruct Hc as [Hc|[Hc|[]]]; rewrite <- Hc in K; lia.
    Qed.

    Lemma remap_linkage_ok : remap_single_linkage_tree L F O = Ok L'.
    Proof.
      unfold remap_single_linkage_tree, L'. destruct L_split as [L0 E].
      replace (rev (map _ L)) with (lrow' last_row :: rev (map lrow' L0)).
      - cbn [lrow' l_a l_b l_n]. rewrite last_child. reflexivity.
      - rewrite E at 1. rewrite map_app, rev_app_distr. reflexivity.
    Qed.

    Lemma outs_nth id (s : Sz) os j x : nth_error os j = Some x ->
      nth_error (outlier_rows (W := W) id s os) j = Some {| l_a := x; l_b := id + 1 + j; l_d := winf; l_n := sadd s (ssum (repeat sone (S j))) |}.
    Proof.
      revert id s j. induction os as [|y os IH]; intros id s [|j]; try discriminate; cbn [nth_error outlier_rows].
      - intros [= ->]. f_equal. f_equal; [lia|]. cbn [repeat ssum fold_right]. rewrite (sadd_comm Sz sone szero), (sadd_0 Sz). reflexivity.
      - intro E. rewrite (IH _ _ _ E). f_equal. f_equal; [lia|].
        change (repeat sone (S (S j))) with (@sone Sz :: repeat sone (S j)). cbn [ssum fold_right]. symmetry. apply (sadd_assoc Sz).
    Qed.
    Lemma outs_len id (s : Sz) os : length (outlier_rows (W := W) id s os) = length os.
    Proof. revert id s. induction os as [|y os IH]; intros; cbn [outlier_rows length]; auto. Qed.

    Lemma L'_low i : i < f - 1 -> nth_error L' i = option_map lrow' (nth_error L i).
    Proof. intro H. unfold L'. rewrite nth_error_app1 by (rewrite map_length, L_len; auto). apply nth_error_map. Qed.
    Lemma L'_high j x : nth_error O j = Some x -> nth_error L' (f - 1 + j) =
      Some {| l_a := x; l_b := n + f - 2 + j; l_d := winf; l_n := sadd (l_n last_row) (ssum (repeat sone (S j))) |}.
    Proof.
      intro H. unfold L'. rewrite nth_error_app2 by (rewrite map_length, L_len; lia). rewrite map_length, L_len.
      replace (f - 1 + j - (f - 1)) with j by lia. unfold outs. rewrite (outs_nth _ _ _ _ _ H). f_equal. f_equal. lia.
    Qed.
    Lemma L'_cases i r : nth_error L' i = Some r ->
      (i < f - 1 /\ exists r0, nth_error L i = Some r0 /\ r = lrow' r0) \/
      (exists j x, i = f - 1 + j /\ nth_error O j = Some x /\
         r = {| l_a := x; l_b := n + f - 2 + j; l_d := winf; l_n := sadd (l_n last_row) (ssum (repeat sone (S j))) |}).
    Proof.
      intro H. destruct (Nat.lt_ge_cases i (f - 1)) as [K|K].
      - left. split; auto. rewrite L'_low in H by auto. destruct (nth_error L i) as [r0|]; [|discriminate]. injection H as <-. eauto.
      - right. exists (i - (f - 1)). assert (Hi : i < length L') by (apply nth_error_Some; congruence).
        unfold L', outs in Hi. rewrite app_length, map_length, L_len, outs_len in Hi.
        destruct (nth_error O (i - (f - 1))) as [x|] eqn:E; [|apply nth_error_None in E; lia].
        exists x. split; [lia|]. split; auto. pose proof (L'_high _ _ E) as G. replace (f - 1 + (i - (f - 1))) with i in G by lia. congruence.
    Qed.

    (** ** The renumbered tree is a dendrogram *)
    Lemma child_list_outs id (s : Sz) os : Permutation (child_list (outlier_rows (W := W) id s os)) (os ++ seq (id + 1) (length os)).
    Proof.
      revert id s. induction os as [|y os IH]; intros id s; [constructor|]. cbn [outlier_rows child_list flat_map l_a l_b app length seq].
      constructor. fold (child_list (outlier_rows (W := W) (id + 1) (sadd s sone) os)). rewrite IH.
      replace (id + 1 + 1) with (S (id + 1)) by lia. apply Permutation_middle.
    Qed.
    Lemma child_list_map : child_list (map lrow' L) = map rename (child_list L).
    Proof. clear. unfold child_list. induction L as [|r l IH]; auto. cbn [map flat_map app]. cbn [lrow' l_a l_b]. now rewrite IH. Qed.
    Lemma rename_seq : map rename (seq 0 (2 * f - 2)) = F ++ seq n (f - 2).
    Proof.
      pose proof (rm_len n F O HP) as Hn. replace (2 * f - 2) with (f + (f - 2)) by lia. rewrite seq_app, map_app. f_equal.
      - rewrite <- (map_raw F) at 3. apply map_ext_in. intros x Hx. apply in_seq in Hx. apply rename_small. lia.
      - rewrite Nat.add_0_l. rewrite Hn. generalize (f - 2). intro k.
        assert (G : forall a, f <= a -> map rename (seq a k) = seq (a + o) k).
        { induction k as [|k IH]; intros a Ha; auto. cbn [seq map]. rewrite rename_big by auto. f_equal. apply (IH (S a)). lia. }
        apply G. auto.
    Qed.

    Lemma L'_dendrogram : dendrogram n L'.
    Proof.
      pose proof (rm_len n F O HP) as Hn. pose proof HD as [D1 D2 D3]. constructor.
      - unfold L', outs. rewrite app_length, map_length, outs_len. lia.
      - intros i r H. apply L'_cases in H as [(Hi & r0 & H & ->)|(j & x & -> & H & ->)]; cbn [lrow' l_a l_b].
        + destruct (D2 i r0 H) as [Ha Hb].
          assert (G : forall c, c < f + i -> rename c < n + i).
          { intros c Hc. destruct (Nat.lt_ge_cases c f) as [K|K]; [apply (rename_lt n F O HP) in K; lia|rewrite rename_big by auto; lia]. }
          split; auto.
        + apply nth_error_In in H. pose proof (rm_O_lt n F O HP x H). lia.
      - unfold L', outs. unfold child_list. rewrite flat_map_app. fold (child_list (map lrow' L)).
        fold (child_list (outlier_rows (W := W) (n + f - 3) (l_n last_row) O)). rewrite child_list_outs, child_list_map, D3, rename_seq.
        replace (2 * n - 2) with (n + (f - 2 + o)) by lia. rewrite !seq_app. cbn [plus]. rewrite <- HP.
        rewrite <- !app_assoc. apply Permutation_app_head. replace (n + f - 3 + 1) with (n + (f - 2)) by lia.
        rewrite !app_assoc. apply Permutation_app_tail. apply Permutation_app_comm.
    Qed.

    (** ** Which samples lie below *)
    Lemma under_leaf m (K : list (lrow W Sz)) x y : x < m -> under m K x y -> y = x.
    Proof. intros Hx H. inversion H; subst; auto; lia. Qed.
    Lemma under_node m (K : list (lrow W Sz)) i y : under m K (m + i) y <-> exists r, nth_error K i = Some r /\ (under m K (l_a r) y \/ under m K (l_b r) y).
    Proof.
      split.
      - intro H. inversion H; subst; [lia| |]; (assert (i0 = i) by lia; subst; eauto).
      - intros (r & E & [H|H]); [eapply under_a|eapply under_b]; eauto.
    Qed.

    Lemma under_fwd w y : under n L' w y -> forall v, w = rename v -> v < 2 * f - 1 -> exists x, x < f /\ y = raw x /\ under f L v x.
    Proof.
      pose proof (rm_len n F O HP) as Hn.
      assert (G : forall i r, nth_error L' i = Some r -> forall v, n + i = rename v -> v < 2 * f - 1 ->
                v = f + i /\ exists r0, nth_error L i = Some r0 /\ r = lrow' r0 /\ l_a r0 < f + i /\ l_b r0 < f + i /\ i < f - 1).
      { intros i r Hi v E Hv. assert (Hb : f <= v) by (destruct (Nat.lt_ge_cases v f) as [K|K]; auto; apply (rename_lt n F O HP) in K; lia).
        rewrite rename_big in E by auto. assert (v = f + i) by lia. split; auto. apply L'_cases in Hi as [(Hi & r0 & H0 & ->)|(j & x & -> & _)]; [|lia].
        exists r0. split; auto. split; auto. destruct (dg_down _ _ HD i r0 H0). auto. }
      induction 1 as [y Hy|i r y Hi Hu IH|i r y Hi Hu IH]; intros v E Hv.
      - rewrite E in Hy. apply (rename_lt n F O HP) in Hy. exists v. split; auto. rewrite <- (rename_small F O) by auto. split; auto. now apply under_sample.
      - destruct (G i r Hi v E Hv) as (-> & r0 & H0 & -> & Ha & Hb & Hl). destruct (IH (l_a r0) eq_refl ltac:(lia)) as (x & Hx & Ey & Hq).
        exists x. split; auto. split; auto. eapply under_a; eauto.
      - destruct (G i r Hi v E Hv) as (-> & r0 & H0 & -> & Ha & Hb & Hl). destruct (IH (l_b r0) eq_refl ltac:(lia)) as (x & Hx & Ey & Hq).
        exists x. split; auto. split; auto. eapply under_b; eauto.
    Qed.
    Lemma under_bwd v x : under f L v x -> under n L' (rename v) (raw x).
    Proof.
      pose proof (rm_len n F O HP) as Hn.
      induction 1 as [x Hx|i r x Hi Hu IH|i r x Hi Hu IH].
      - rewrite rename_small by auto. apply under_sample. now apply (raw_lt n F O HP).
      - assert (Hl : i < length L) by (apply nth_error_Some; congruence). rewrite L_len in Hl. rewrite rename_big by lia.
        replace (f + i + o) with (n + i) by lia. apply (under_a n L' i (lrow' r)); auto. rewrite L'_low by auto. now rewrite Hi.
      - assert (Hl : i < length L) by (apply nth_error_Some; congruence). rewrite L_len in Hl. rewrite rename_big by lia.
        replace (f + i + o) with (n + i) by lia. apply (under_b n L' i (lrow' r)); auto. rewrite L'_low by auto. now rewrite Hi.
    Qed.
    Lemma under_low i y : i < f - 1 -> under n L' (n + i) y <-> exists x, x < f /\ y = raw x /\ under f L (f + i) x.
    Proof.
      pose proof (rm_len n F O HP) as Hn. intro Hi. assert (E : n + i = rename (f + i)) by (rewrite rename_big by lia; lia). rewrite E. split.
      - intro H. eapply under_fwd; eauto. lia.
      - intros (x & _ & -> & H). now apply under_bwd.
    Qed.
    Lemma under_root x : under f L (2 * f - 2) x <-> x < f.
    Proof.
      destruct (nth_error M (f - 2)) as [e|] eqn:E; [|apply nth_error_None in E; rewrite M_len in E; lia].
      pose proof (HU _ _ x E) as H. replace (f + (f - 2)) with (2 * f - 2) in H by lia. rewrite H. split; [tauto|]. intro Hx. split; auto.
      rewrite firstn_all2 by (rewrite M_len; lia). apply HC; auto. apply nth_error_In in E. apply (HR e E).
    Qed.
    Lemma under_high j y : j < o -> under n L' (n + (f - 1 + j)) y <-> In y F \/ In y (firstn (S j) O).
    Proof.
      pose proof (rm_len n F O HP) as Hn. revert y. induction j as [|j IH]; intros y Hj.
      - destruct (nth_error O 0) as [x|] eqn:E; [|apply nth_error_None in E; lia]. rewrite under_node, (L'_high 0 x E).
        assert (Hx : x < n) by (apply nth_error_In in E; now apply (rm_O_lt n F O HP)).
        assert (E1 : firstn 1 O = [x]) by (destruct O; [discriminate|simpl in *; congruence]). rewrite E1.
        assert (G : under n L' (n + f - 2 + 0) y <-> In y F).
        { replace (n + f - 2 + 0) with (n + (f - 2)) by lia. rewrite under_low by lia. rewrite in_F. replace (f + (f - 2)) with (2 * f - 2) by lia. split.
          - intros (z & Hz & -> & _). eauto.
          - intros (z & Hz & <-). exists z. split; auto. split; auto. now apply under_root. }
        split.
        + intros (r & Er & [H|H]); injection Er as <-; cbn [l_a l_b] in H; [right; left; symmetry; apply (under_leaf n L' _ _ Hx H)|left; now apply G].
        + intro H. eexists. split; [reflexivity|]. cbn [l_a l_b]. destruct H as [H|[<-|[]]]; [right; now apply G|left; now apply under_sample].
      - destruct (nth_error O (S j)) as [x|] eqn:E; [|apply nth_error_None in E; lia]. rewrite under_node, (L'_high (S j) x E).
        assert (Hx : x < n) by (apply nth_error_In in E; now apply (rm_O_lt n F O HP)).
        rewrite (firstn_S_nth O (S j) x E). rewrite in_app_iff.
        specialize (IH y ltac:(lia)). replace (n + (f - 1 + j)) with (n + f - 2 + S j) in IH by lia. split.
        + intros (r & Er & [H|H]); injection Er as <-; cbn [l_a l_b] in H; [right; right; left; symmetry; apply (under_leaf n L' _ _ Hx H)|apply IH in H; tauto].
        + intro H. eexists. split; [reflexivity|]. cbn [l_a l_b]. destruct H as [H|[H|[<-|[]]]]; [right; apply IH; auto|right; apply IH; auto|left; now apply under_sample].
    Qed.

    (** ** Sizes and heights *)
    Lemma L'_sizes : sizes_are n wt' L'.
    Proof.
      assert (Hmap : forall xs, (forall x, In x xs -> x < f) -> NoDup xs -> NoDup (map (fun x => raw x) xs)).
      { intros xs Hlt N. induction N as [|a l Ha N IH]; cbn [map]; constructor; [|apply IH; intros; apply Hlt; now right].
        intro H. apply in_map_iff in H as (b & E & Hb). apply (raw_inj n F O HP) in E; [congruence|apply Hlt; now right|apply Hlt; now left]. }
      assert (Hsum : forall xs, (forall x, In x xs -> x < f) -> ssum (map wt' (map (fun x => raw x) xs)) = ssum (map wt xs)).
      { intros xs Hlt. rewrite map_map. f_equal. apply map_ext_in. auto. }
      assert (Hlt : forall v x, under f L v x -> x < f) by (intros v x H; induction H; auto).
      intros i r H. apply L'_cases in H as [(Hi & r0 & H & ->)|(j & x & -> & H & ->)].
      - destruct (HZ i r0 H) as (xs & N & Hx & Es). exists (map (fun x => raw x) xs).
        assert (K : forall x, In x xs -> x < f) by (intros x Hi'; apply Hx in Hi'; eauto).
        split; [auto|]. split.
        + intro y. rewrite under_low, in_map_iff by auto. split; [intros (x & <- & K1)|intros (x & K1 & -> & K2)]; exists x; firstorder.
        + cbn [lrow' l_n]. rewrite Hsum; auto.
      - destruct (HZ _ _ last_nth) as (xs & N & Hx & Es). replace (f + (f - 2)) with (2 * f - 2) in Hx by lia.
        assert (K : forall x, In x xs -> x < f) by (intros z Hi'; apply Hx in Hi'; eauto).
        assert (KF : forall y, In y (map (fun x => raw x) xs) <-> In y F).
        { intro y. rewrite in_map_iff, in_F. split; intros (z & H1 & H2); exists z; [split; auto|]. split; auto. apply Hx. now apply under_root. }
        assert (Hj : j < o) by (apply nth_error_Some; congruence).
        exists (map (fun x => raw x) xs ++ firstn (S j) O). split; [|split].
        + pose proof (rm_O_nodup n F O HP) as NO.
          assert (Hin : forall z, In z (firstn (S j) O) -> In z O) by (intros z Hz; rewrite <- (firstn_skipn (S j) O); apply in_or_app; auto).
          assert (NF : NoDup (firstn (S j) O)) by (rewrite <- (firstn_skipn (S j) O) in NO; clear -NO; induction (firstn (S j) O) as [|a l IH]; [constructor|];
            inversion NO; subst; constructor; auto; intro; apply H1; apply in_or_app; auto).
          specialize (Hmap xs K N). clear -Hmap NF Hin KF HP. revert KF Hmap. generalize (map (fun x => raw x) xs). intros l KF N.
          assert (D : forall z, In z l -> In z (firstn (S j) O) -> False) by (intros z H1 H2; apply KF in H1; apply Hin in H2; eapply rm_disj; eauto).
          clear KF. induction N as [|a l Ha N IH]; auto. cbn [app]. constructor; [|apply IH; intros z H1; apply D; now right].
          intro H. apply in_app_or in H as [H|H]; auto. apply (D a); auto. now left.
        + intro y. rewrite under_high, in_app_iff, KF by auto. tauto.
        + cbn [l_n]. rewrite map_app, ssum_app, Hsum by auto. rewrite <- Es. f_equal. f_equal.
          assert (G : forall l, (forall z, In z l -> wt' z = sone) -> repeat sone (length l) = map wt' l).
          { induction l as [|a l IH]; intro Hl; auto. cbn [length repeat map]. rewrite (Hl a) by now left. f_equal. apply IH. intros; apply Hl; now right. }
          rewrite <- G; [rewrite firstn_length; f_equal; lia|]. intros z Hz. apply Hwo. rewrite <- (firstn_skipn (S j) O). apply in_or_app; auto.
    Qed.

    Lemma map_l_d_outs id (s : Sz) os : map l_d (outlier_rows (W := W) id s os) = repeat winf (length os).
    Proof. revert id s. induction os as [|y os IH]; intros; cbn [outlier_rows map l_d length repeat]; auto. now rewrite IH. Qed.
    Lemma map_l_d_L' : map l_d L' = map l_d L ++ repeat winf o.
    Proof. unfold L', outs. rewrite map_app, map_map, map_l_d_outs. reflexivity. Qed.
    Lemma L'_heights : heights_sorted L'.
    Proof.
      unfold heights_sorted. rewrite map_l_d_L'. apply ssorted_app; auto.
      - generalize o. intro k. induction k as [|k IH]; cbn [repeat]; constructor; auto. apply Forall_forall. intros y Hy. apply repeat_spec in Hy as ->. apply winf_top.
      - intros x y _ Hy. apply repeat_spec in Hy as ->. apply winf_top.
    Qed.

    (** ** The tree is the single linkage hierarchy of the edges among the finite
        rows and infinite edges to the others *)
    Definition M' : list (edge W) := map (place_edge (fun x => raw x)) M ++ infinite_edges (raw 0) O.

    Lemma M'_weights : map l_d L' = map ewt M'.
    Proof.
      rewrite map_l_d_L', HM. unfold M', infinite_edges. rewrite map_app, !map_map. cbn [ewt place_edge snd]. f_equal.
      clear. induction O as [|y l IH]; cbn [length repeat map]; auto. now rewrite IH.
    Qed.
    Lemma M'_sorted : sorted_by ewt M'.
    Proof.
      unfold sorted_by. pose proof L'_heights as H. unfold heights_sorted in H. rewrite M'_weights in H. clear -H. induction M' as [|e l IH]; [constructor|].
      cbn [map] in H. inversion H; subst. constructor; auto. rewrite Forall_map in H3. auto.
    Qed.
    Lemma M'_range : in_range n M'.
    Proof.
      intros e He. apply in_app_or in He as [He|He]; apply in_map_iff in He as (e0 & <- & He0).
      - destruct (HR e0 He0). split; now apply (raw_lt n F O HP).
      - split; [apply (raw_lt n F O HP); lia|]. now apply (rm_O_lt n F O HP).
    Qed.
    Lemma M'_under i e x : nth_error M' i = Some e -> (under n L' (n + i) x <-> x < n /\ connected (firstn (S i) M') (esrc e) x).
    Proof.
      intro H. pose proof M_len as Hl. unfold M' in *.
      destruct (Nat.lt_ge_cases i (f - 1)) as [Hi|Hi].
      - rewrite nth_error_app1, nth_error_map in H by (rewrite map_length; lia). destruct (nth_error M i) as [e0|] eqn:E; [|discriminate]. injection H as <-.
        rewrite firstn_app. replace (S i - length (map _ M)) with 0 by (rewrite map_length; lia). rewrite firstn_O, app_nil_r.
        rewrite firstn_map. rewrite under_low by auto. destruct (HR e0 (nth_error_In _ _ E)) as [Hs _].
        change (esrc (place_edge (fun x => raw x) e0)) with (raw (esrc e0)). rewrite connected_place; auto.
        2: { intros z Hz. apply HR. rewrite <- (firstn_skipn (S i) M). apply in_or_app; auto. }
        split.
        + intros (z & Hz & -> & K). apply (HU i e0 z E) in K. split; [now apply (raw_lt n F O HP)|]. exists z. tauto.
        + intros (_ & z & Hz & -> & K). exists z. split; auto. split; auto. apply (HU i e0 z E). auto.
      - rewrite nth_error_app2 in H by (rewrite map_length; lia). rewrite map_length, Hl in H. unfold infinite_edges in *. rewrite nth_error_map in H.
        destruct (nth_error O (i - (f - 1))) as [y|] eqn:E; [|discriminate]. injection H as <-. cbn [esrc fst].
        assert (Hj : i - (f - 1) < o) by (apply nth_error_Some; congruence).
        replace (n + i) with (n + (f - 1 + (i - (f - 1)))) by lia. rewrite under_high by auto. set (j := i - (f - 1)) in *.
        rewrite firstn_app, map_length, Hl, (firstn_all2 (map _ M)) by (rewrite map_length; lia). replace (S i - (f - 1)) with (S j) by lia. rewrite firstn_map.
        assert (HinO : forall z, In z (firstn (S j) O) -> In z O) by (intros z Hz; rewrite <- (firstn_skipn (S j) O); apply in_or_app; auto).
        split.
        + intros [K|K].
          * split; [now apply (rm_F_lt n F O HP)|]. apply in_F in K as (z & Hz & <-).
            apply (connected_incl (map (place_edge (fun x => raw x)) M)); [intros u Hu; apply in_or_app; auto|].
            apply connected_place; auto; [lia|]. exists z. split; auto. split; auto. apply HC; auto. lia.
          * split; [apply (rm_O_lt n F O HP); auto|].
            pose proof (connected_edge (map (place_edge (fun x => raw x)) M ++ map (fun o => (raw 0, o, winf)) (firstn (S j) O)) (raw 0, x, winf)) as G.
            apply G. apply in_or_app. right. apply in_map_iff. eauto.
        + intros [_ K].
          assert (G : (In (raw 0) F \/ In (raw 0) (firstn (S j) O)) <-> (In x F \/ In x (firstn (S j) O))).
          { revert K. generalize (raw 0) at 2 3 4. intros a K. revert a x K. apply (connected_ind_equiv _ (fun a x => (In a F \/ In a (firstn (S j) O)) <-> (In x F \/ In x (firstn (S j) O)))); try tauto.
            intros e He. apply in_app_or in He as [He|He]; apply in_map_iff in He as (e0 & <- & He0).
            - destruct (HR e0 He0) as [K1 K2]. cbn [place_edge esrc edst fst snd]. pose proof (raw_in F _ K1). pose proof (raw_in F _ K2). tauto.
            - cbn [esrc edst fst snd]. assert (In (raw 0) F) by (apply raw_in; lia). tauto. }
          apply G. left. apply raw_in. lia.
    Qed.

    Lemma remapped_linkage (M0 : list (edge W)) : Permutation M0 M ->
      linkage_of n wt' (map (place_edge (fun x => raw x)) M0 ++ infinite_edges (raw 0) O) L'.
    Proof.
      intro H. split; [apply L'_dendrogram|]. split; [apply L'_sizes|]. split; [apply L'_heights|]. exists M'.
      split; [unfold M'; apply Permutation_app_tail; now apply Permutation_map|]. split; [apply M'_weights|apply M'_under].
    Qed.

    Lemma remapped_cut cut m : exists labels, get_cluster_labelling_at_cut L' cut m = Ok labels /\
      component_clustering n (passing (fun w => wlt w cut) (map (place_edge (fun x => raw x)) M)) m labels.
    Proof.
      destruct (cut_ok n cut m L' M' L'_dendrogram M'_weights M'_sorted M'_under M'_range) as (labels & E & H).
      exists labels. split; auto. replace (passing _ (map _ M)) with (passing (fun w => wlt w cut) M'); auto.
      unfold M', passing. rewrite filter_app. replace (filter _ (infinite_edges (raw 0) O)) with (@nil (edge W)); [apply app_nil_r|].
      unfold infinite_edges. clear. induction O as [|y l IH]; auto. cbn [map filter ewt snd]. rewrite <- IH.
      destruct (wlt winf cut) eqn:E; auto. unfold wlt in E. rewrite winf_top in E. discriminate.
    Qed.
  End Linkage.
End Remap.
