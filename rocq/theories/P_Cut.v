(** Proofs about the horizontal cut of a single linkage tree. *)
From Coq Require Import List Arith Lia Bool Permutation Sorted ZArith Relations.
From Verif Require Import Prelude Order Graph UF Size M_DisjointSet S_DisjointSet P_DisjointSet P_DisjointSet2
  M_Linkage S_Linkage P_Dendro P_Linkage P_Sort.
Import ListNotations.

(** ** The label map *)
Section Labels.
  Variable m : nat.
  Variable result : list nat.
  Definition bigc (c : nat) : bool := negb (cluster_size result c <? m).

  Lemma cut_label_map_get u : forall k c, NoDup u -> In c u ->
    (bigc c = false -> dict_get (cut_label_map m result u k) c = Ok (-1)%Z) /\
    (bigc c = true -> exists j, nth_error (filter bigc u) j = Some c /\
       dict_get (cut_label_map m result u k) c = Ok (Z.of_nat (k + j))).
  Proof.
    unfold bigc. induction u as [|d u IH]; intros k c Hn Hi; [destruct Hi|].
    inversion_clear Hn as [|? ? Hd Hn']. simpl. fold bigc.
    destruct (cluster_size result d <? m) eqn:Es; simpl.
    - destruct (Nat.eqb_spec c d) as [->|Hne].
      + rewrite Es. simpl. split; [auto|discriminate].
      + destruct Hi as [->|Hi]; [congruence|]. apply IH; auto.
    - destruct (Nat.eqb_spec c d) as [->|Hne].
      + rewrite Es. simpl. split; [discriminate|]. intros _. exists 0. rewrite Nat.add_0_r. auto.
      + destruct Hi as [->|Hi]; [congruence|].
        destruct (IH (k + 1) c Hn' Hi) as [H1 H2]. split; auto.
        intro Hb. destruct (H2 Hb) as (j & Hj & Hg). exists (S j). split; auto.
        rewrite Hg. do 2 f_equal. lia.
  Qed.
End Labels.

Lemma map_res_ok {A B} (f : A -> res B) l :
  (forall x, In x l -> exists y, f x = Ok y) ->
  exists ys, map_res f l = Ok ys /\ Forall2 (fun x y => f x = Ok y) l ys.
Proof.
  induction l as [|x l IH]; intro H; simpl.
  - exists []. auto.
  - destruct (H x) as [y Hy]; simpl; auto. destruct IH as (ys & E & F); [intros; apply H; simpl; auto|].
    exists (y :: ys). rewrite Hy. cbn [bind]. rewrite E. cbn [bind]. auto.
Qed.

Lemma Forall2_nth_def {A B} (R : A -> B -> Prop) l1 l2 d1 d2 i :
  Forall2 R l1 l2 -> i < length l1 -> R (nth i l1 d1) (nth i l2 d2).
Proof.
  intro H. revert i. induction H; simpl; intros i Hi; [lia|]. destruct i; auto. apply IHForall2. lia.
Qed.

(** Labels computed from representatives: a component clustering. *)
Lemma labels_of_roots {W} n (E : list (edge W)) m roots :
  length roots = n ->
  (forall x y, x < n -> y < n -> (nth x roots 0 = nth y roots 0 <-> connected E x y)) ->
  exists labels, map_res (dict_get (cut_label_map m roots (unique roots) 0)) roots = Ok labels /\
    component_clustering n E m labels.
Proof.
  intros Hlen Hc.
  set (u := unique roots). set (mp := cut_label_map m roots u 0).
  assert (Hu : NoDup u) by apply unique_NoDup.
  assert (Hget : forall c, In c roots ->
    (bigc m roots c = false -> dict_get mp c = Ok (-1)%Z) /\
    (bigc m roots c = true -> exists j, nth_error (filter (bigc m roots) u) j = Some c /\
       dict_get mp c = Ok (Z.of_nat j))).
  { intros c Hi. apply (cut_label_map_get m roots u 0 c Hu). now apply unique_in. }
  destruct (map_res_ok (dict_get mp) roots) as (labels & EL & HF).
  { intros c Hi. destruct (Hget c Hi) as [H1 H2]. destruct (bigc m roots c); eauto.
    destruct H2 as (j & _ & ->); eauto. }
  exists labels. split; auto.
  assert (Hlen' : length labels = n) by (rewrite <- Hlen; symmetry; eapply Forall2_len; eauto).
  assert (Hlab : forall x, x < n -> dict_get mp (nth x roots 0) = Ok (nth x labels (-2)%Z)).
  { intros x Hx. apply (Forall2_nth_def _ _ _ 0 (-2)%Z x HF). lia. }
  assert (Hin : forall x, x < n -> In (nth x roots 0) roots) by (intros; apply nth_In; lia).
  assert (Hbig : forall x, x < n ->
     (bigc m roots (nth x roots 0) = false /\ nth x labels (-2)%Z = (-1)%Z) \/
     (bigc m roots (nth x roots 0) = true /\ exists j, nth x labels (-2)%Z = Z.of_nat j /\
        nth_error (filter (bigc m roots) u) j = Some (nth x roots 0))).
  { intros x Hx. destruct (Hget _ (Hin x Hx)) as [H1 H2]. rewrite (Hlab x Hx) in H1, H2.
    destruct (bigc m roots (nth x roots 0)).
    - right. split; auto. destruct (H2 eq_refl) as (j & Hj & E'). exists j. split; auto. congruence.
    - left. split; auto. specialize (H1 eq_refl). congruence. }
  split; [auto|split; [|split]].
  - intros x Hx. exists (filter (fun y => nth y roots 0 =? nth x roots 0) (seq 0 n)).
    split; [apply NoDup_filter, seq_NoDup|].
    assert (Hsz : length (filter (fun y => nth y roots 0 =? nth x roots 0) (seq 0 n)) =
                  cluster_size roots (nth x roots 0)).
    { unfold cluster_size. rewrite <- countp_filter.
      assert (G : forall l a, countp (fun y => nth y (a ++ l) 0 =? nth x roots 0) (seq (length a) (length l)) =
                  countp (Nat.eqb (nth x roots 0)) l).
      { induction l as [|z l IHl]; intro a; simpl; auto.
        rewrite app_nth2, Nat.sub_diag by lia. simpl. rewrite Nat.eqb_sym. f_equal.
        specialize (IHl (a ++ [z])). rewrite app_length in IHl. simpl in IHl.
        rewrite Nat.add_1_r, <- app_assoc in IHl. exact IHl. }
      specialize (G roots []). simpl in G. now rewrite Hlen in G. }
    rewrite Hsz. split; [|split].
    + intro y. rewrite filter_In, in_seq, Nat.eqb_eq. split.
      * intros [H1 H2]. split; [lia|]. apply Hc; auto. lia.
      * intros [H1 H2]. split; [lia|]. symmetry. apply Hc; auto.
    + intro Hlt. destruct (Hbig x Hx) as [[_ ?]|[Hb _]]; auto.
      unfold bigc in Hb. apply Nat.ltb_lt in Hlt. rewrite Hlt in Hb. discriminate.
    + intro Hge. destruct (Hbig x Hx) as [[Hb _]|[_ (j & -> & _)]]; [|lia].
      unfold bigc in Hb. apply Nat.ltb_ge in Hge. rewrite Hge in Hb. discriminate.
  - intros x y Hx Hy Hpos. rewrite <- Hc by auto. split.
    + intro E'. destruct (Hbig x Hx) as [[_ Hm]|[_ (j & Ej & Hj)]]; [rewrite Hm in Hpos; lia|].
      destruct (Hbig y Hy) as [[_ Hm]|[_ (k & Ek & Hk)]]; [lia|].
      assert (j = k) by lia. subst k. congruence.
    + intro E'. pose proof (Hlab x Hx). pose proof (Hlab y Hy). rewrite E' in H. congruence.
  - exists (Z.of_nat (length (filter (bigc m roots) u))). intro c. split.
    + intros Hr. split; [|lia].
      destruct (nth_error (filter (bigc m roots) u) (Z.to_nat c)) as [d|] eqn:Ed.
      2: { apply nth_error_None in Ed. lia. }
      assert (Hd : In d (filter (bigc m roots) u)) by (eapply nth_error_In; eauto).
      apply filter_In in Hd as [Hd Hb]. apply (proj1 (unique_in _ _)) in Hd.
      apply (In_nth _ _ 0) in Hd as (x & Hx & <-). rewrite Hlen in Hx.
      destruct (Hbig x Hx) as [[Hf _]|[_ (j & Ej & Hj)]]; [congruence|].
      assert (j = Z.to_nat c).
      { assert (ND : NoDup (filter (bigc m roots) u)) by now apply NoDup_filter.
        rewrite NoDup_nth_error in ND. apply ND; [|congruence].
        apply nth_error_Some. congruence. }
      replace c with (nth x labels (-2)%Z) by lia. apply nth_In. lia.
    + intros [Hi Hne]. apply (In_nth _ _ (-2)%Z) in Hi as (x & Hx & <-). rewrite Hlen' in Hx.
      destruct (Hbig x Hx) as [[_ Hf]|[_ (j & Ej & Hj)]]; [congruence|].
      assert (j < length (filter (bigc m roots) u)) by (apply nth_error_Some; congruence). lia.
Qed.

Lemma cut_roots_ok n xs : forall d, ds_inv n d -> (forall x, In x xs -> x < n) ->
  exists rs, cut_roots d xs = Ok rs /\ Forall2 (fun x r => Root (ds_parent d) x r) xs rs.
Proof.
  induction xs as [|x xs IH]; intros d Hi Hx; simpl.
  - exists []. auto.
  - destruct (ds_find_ok n d x Hi) as (d' & r & E & Hs & HR & Hr); [apply Hx; simpl; auto|].
    rewrite E. cbn [bind].
    destruct (IH d') as (rs & E' & F); [eapply ds_same_inv; eauto|intros; apply Hx; simpl; auto|].
    exists (r :: rs). rewrite E'. cbn [bind]. split; auto. constructor; auto.
    eapply Forall2_weaken; [|apply F]. intros a b K. apply (Root_ext (ds_parent d')); auto.
    intro j. apply Hs.
Qed.

Section Cut.
  Context {W : WOrd} {Sz : Type}.
  Implicit Types L : list (lrow W Sz).
  Implicit Types M E : list (edge W).

  (** The unions done by the cut, as a list of pairs. *)
  Fixpoint cut_ops (cut : W) L (c : nat) : list (nat * nat) :=
    match L with
    | [] => []
    | r :: L' => (if wlt (l_d r) cut then [(l_a r, c); (l_b r, c)] else []) ++ cut_ops cut L' (c + 1)
    end.

  Lemma cut_unions_run cut L : forall c d,
    cut_unions cut L c d = run_unions ds_union_by_rank (cut_ops cut L c) d.
  Proof.
    induction L as [|r L IH]; intros c d; simpl; auto.
    destruct (wlt (l_d r) cut); simpl; auto.
    destruct (ds_union_by_rank d (l_a r) c) as [d1|]; simpl; auto.
    destruct (ds_union_by_rank d1 (l_b r) c) as [d2|]; simpl; auto.
  Qed.

  Lemma in_cut_ops cut L c x y :
    In (x, y) (cut_ops cut L c) <->
    exists i r, nth_error L i = Some r /\ wlt (l_d r) cut = true /\ y = c + i /\ (x = l_a r \/ x = l_b r).
  Proof.
    revert c. induction L as [|r L IH]; intros c; simpl.
    - split; [tauto|]. intros (i & r & H & _). destruct i; discriminate.
    - rewrite in_app_iff, IH. split.
      + intros [H|(i & q & H1 & H2 & H3 & H4)].
        * destruct (wlt (l_d r) cut) eqn:E; simpl in H; [|tauto].
          exists 0, r. simpl. destruct H as [H|[H|[]]]; injection H as <- <-; intuition lia.
        * exists (S i), q. simpl. intuition lia.
      + intros (i & q & H1 & H2 & H3 & H4). destruct i as [|i]; simpl in H1.
        * injection H1 as ->. left. rewrite H2. subst y. rewrite Nat.add_0_r. simpl.
          destruct H4 as [-> | ->]; auto.
        * right. exists i, q. intuition lia.
  Qed.

  (** Passing edges of a sorted list form a prefix. *)
  Lemma sorted_prefix_passing cut M j e :
    sorted_by ewt M -> nth_error M j = Some e -> wlt (ewt e) cut = true ->
    incl (firstn (S j) M) (passing (fun w => wlt w cut) M).
  Proof.
    intros HS. revert j. induction HS as [|x M HS IH HF]; intros j Hj Hlt f Hf.
    - destruct j; discriminate.
    - assert (Hx : wlt (ewt x) cut = true).
      { destruct j as [|j]; simpl in Hj; [congruence|].
        apply nth_error_In in Hj. rewrite Forall_forall in HF.
        eapply wle_lt_trans; [apply HF; eauto|auto]. }
      destruct Hf as [<-|Hf].
      + apply in_passing. split; simpl; auto.
      + destruct j as [|j]; simpl in Hj, Hf; [destruct Hf|].
        assert (K : In f (passing (fun w => wlt w cut) M)) by (eapply IH; eauto).
        apply in_passing in K as [K1 K2]. apply in_passing. simpl. auto.
  Qed.

  Lemma cut_joined n cut L M :
    dendrogram n L -> map l_d L = map ewt M -> sorted_by ewt M ->
    (forall i e x, nth_error M i = Some e ->
         (under n L (n + i) x <-> x < n /\ connected (firstn (S i) M) (esrc e) x)) ->
    in_range n M ->
    forall x y, x < n -> y < n ->
    (joined_by (cut_ops cut L n) x y <-> connected (passing (fun w => wlt w cut) M) x y).
  Proof.
    intros [DL DD DO] Hd HS HU HR.
    set (P := passing (fun w => wlt w cut) M).
    assert (Hlen : length L = length M) by (rewrite <- (map_length l_d L), Hd, map_length; auto).
    assert (Hrow : forall i r, nth_error L i = Some r -> exists e, nth_error M i = Some e /\ l_d r = ewt e).
    { intros i r Hi. assert (K : nth_error (map l_d L) i = Some (l_d r)) by (rewrite nth_error_map, Hi; auto).
      rewrite Hd, nth_error_map in K. destruct (nth_error M i) as [e|]; [|discriminate].
      exists e. split; auto. simpl in K. congruence. }
    intros x y Hx Hy. split.
    - (* canonical sample below a node *)
      set (f := fun v => hd 0 (lv n L v)).
      assert (Hf : forall v, v < n + length L -> under n L v (f v)).
      { intros v Hv. apply under_lv; auto. unfold f. pose proof (lv_nonempty n L v DD Hv).
        destruct (lv n L v); simpl; [congruence|auto]. }
      assert (G : forall u v, joined_by (cut_ops cut L n) u v -> connected P (f u) (f v)).
      { intros u v H. induction H as [u v H| | |].
        - apply in_cut_ops in H as (i & r & Hi & Hlt & -> & Hur).
          destruct (Hrow i r Hi) as (e & He & Ed). rewrite Ed in Hlt.
          pose proof (sorted_prefix_passing cut M i e HS He Hlt) as Hinc.
          assert (Hil : i < length L) by (apply nth_error_Some; congruence).
          destruct (DD _ _ Hi) as [Ha Hb].
          assert (Hu : under n L (n + i) (f u)).
          { destruct Hur as [-> | ->]; [eapply under_a|eapply under_b]; eauto; apply Hf; lia. }
          assert (Hv : under n L (n + i) (f (n + i))) by (apply Hf; lia).
          apply HU with (e := e) in Hu as [_ Hu]; auto. apply HU with (e := e) in Hv as [_ Hv]; auto.
          apply (connected_incl _ _ Hinc) in Hu. apply (connected_incl _ _ Hinc) in Hv.
          eauto using connected_trans, connected_sym.
        - apply connected_refl.
        - now apply connected_sym.
        - eapply connected_trans; eauto. }
      intro H. apply G in H. unfold f in H. rewrite !lv_sample in H by auto. exact H.
    - (* everything below a cut node is joined to it *)
      assert (G : forall v z, under n L v z -> forall i e, v = n + i -> nth_error M i = Some e ->
                  wlt (ewt e) cut = true -> joined_by (cut_ops cut L n) z v).
      { assert (Step : forall i r c z, nth_error L i = Some r -> (c = l_a r \/ c = l_b r) -> under n L c z ->
           (forall j e, c = n + j -> nth_error M j = Some e -> wlt (ewt e) cut = true -> joined_by (cut_ops cut L n) z c) ->
           forall e, nth_error M i = Some e -> wlt (ewt e) cut = true -> joined_by (cut_ops cut L n) z (n + i)).
        { intros i r c z Hi Hc Hz IH e He Hlt.
          assert (Hop : In (c, n + i) (cut_ops cut L n)).
          { apply in_cut_ops. exists i, r. destruct (Hrow i r Hi) as (e' & He' & Ed).
            assert (e' = e) by congruence. subst e'. rewrite Ed. auto. }
          apply rst_trans with c; [|now apply rst_step].
          destruct (Nat.lt_ge_cases c n) as [Hcn|Hcn].
          - apply under_lv in Hz; auto. rewrite lv_sample in Hz by auto. destruct Hz as [<-|[]]. apply rst_refl.
          - destruct (DD _ _ Hi) as [Ha Hb].
            assert (Hci : c - n < i) by (destruct Hc; lia).
            destruct (nth_error M (c - n)) as [e'|] eqn:Ee'.
            2: { apply nth_error_None in Ee'. assert (i < length M) by (apply nth_error_Some; congruence). lia. }
            apply (IH (c - n) e'); auto; [lia|].
            pose proof (sorted_prefix_passing cut M i e HS He Hlt e') as K.
            apply in_passing in K; [tauto|].
            apply nth_error_In with (n := c - n). 
            rewrite <- Ee'. rewrite <- (firstn_skipn (S i) M) at 2. rewrite nth_error_app1; auto.
            rewrite firstn_length_le; [lia|]. assert (i < length M) by (apply nth_error_Some; congruence). lia. }
        intros v z Hz. induction Hz as [z Hz|i r z Hi Hz IH|i r z Hi Hz IH]; intros k e Ev He Hlt.
        - lia.
        - assert (k = i) by lia. subst k. apply (Step i r (l_a r) z Hi (or_introl eq_refl) Hz IH e He Hlt).
        - assert (k = i) by lia. subst k. apply (Step i r (l_b r) z Hi (or_intror eq_refl) Hz IH e He Hlt). }
      assert (K : forall x y, connected P x y -> joined_by (cut_ops cut L n) x y).
      { apply connected_ind_equiv.
        - intro; apply rst_refl.
        - intros; now apply rst_sym.
        - intros; eapply rst_trans; eauto.
        - intros e He. apply in_passing in He as [He Hlt].
          destruct (HR e He) as [Hs Ht]. apply In_nth_error in He as [i Hi].
          assert (Hil : i < length M) by (apply nth_error_Some; congruence).
          assert (He' : In e (firstn (S i) M)) by (rewrite (firstn_S_nth _ _ _ Hi); apply in_or_app; simpl; auto).
          assert (U1 : under n L (n + i) (esrc e)) by (apply (HU i e); auto using connected_refl).
          assert (U2 : under n L (n + i) (edst e)) by (apply (HU i e); auto using connected_edge).
          apply rst_trans with (n + i); [|apply rst_sym].
          + apply (G _ _ U1 i e); auto.
          + apply (G _ _ U2 i e); auto. }
      apply K.
  Qed.

  Lemma cut_ok n cut m L M :
    dendrogram n L -> map l_d L = map ewt M -> sorted_by ewt M ->
    (forall i e x, nth_error M i = Some e ->
         (under n L (n + i) x <-> x < n /\ connected (firstn (S i) M) (esrc e) x)) ->
    in_range n M ->
    exists labels, get_cluster_labelling_at_cut L cut m = Ok labels /\
      component_clustering n (passing (fun w => wlt w cut) M) m labels.
  Proof.
    intros HD Hd HS HU HR. pose proof (cut_joined n cut L M HD Hd HS HU HR) as HJ.
    destruct HD as [DL DD DO].
    unfold get_cluster_labelling_at_cut. rewrite cut_unions_run.
    replace (length L + 1) with n by lia. replace (2 * length L + 1) with (2 * n - 1) by lia.
    destruct (rank_run (2 * n - 1) (cut_ops cut L n)) as (d & Ed & Hi & _ & Hc).
    { intros x y Hxy. apply in_cut_ops in Hxy as (i & r & Hir & _ & -> & Hx).
      assert (i < length L) by (apply nth_error_Some; congruence).
      destruct (DD _ _ Hir). destruct Hx; lia. }
    rewrite Ed. cbn [bind].
    destruct (cut_roots_ok (2 * n - 1) (seq 0 n) d Hi) as (rs & Er & HF).
    { intros x Hx. apply in_seq in Hx. lia. }
    rewrite Er. cbn [bind].
    assert (Hlen : length rs = n) by (apply Forall2_len in HF; rewrite seq_length in HF; auto).
    apply labels_of_roots; auto.
    intros x y Hx Hy.
    assert (Hroot : forall z, z < n -> Root (ds_parent d) z (nth z rs 0)).
    { intros z Hz. pose proof (Forall2_nth_def _ _ _ 0 0 z HF) as K. rewrite seq_length in K.
      rewrite seq_nth in K by auto. apply K. auto. }
    rewrite <- (same_roots (ds_parent d) x y) by auto.
    rewrite (Hc x y) by lia. rewrite <- joined_by_connected. now apply HJ.
  Qed.
End Cut.
