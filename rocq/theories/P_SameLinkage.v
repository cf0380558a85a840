(** With distinct weights, connectivity at every threshold determines the hierarchy. *)
From Coq Require Import List Arith Lia Bool Permutation Sorted.
From Verif Require Import Prelude Order Graph Size M_Linkage S_Linkage M_Condense S_Condense M_Pipeline S_Pipeline P_Linkage
  P_NodePath P_Unique S_Unique P_UniqueTree P_Reorder.
Import ListNotations.

Section Weights.
  Context {W : WOrd}.

  Definition dist (l : list W) : Prop :=
    forall i j a b, nth_error l i = Some a -> nth_error l j = Some b -> wle a b = true -> wle b a = true -> i = j.
  Lemma dist_weights (M : list (edge W)) : distinct_weights M <-> dist (map ewt M).
  Proof.
    split.
    - intros H i j a b Ha Hb H1 H2. rewrite nth_error_map in Ha, Hb. destruct (nth_error M i) as [e|] eqn:Ei; [|discriminate].
      destruct (nth_error M j) as [f|] eqn:Ej; [|discriminate]. injection Ha as <-. injection Hb as <-. eapply H; eauto.
    - intros H i j e f Hi Hj. apply H; rewrite nth_error_map; [now rewrite Hi|now rewrite Hj].
  Qed.
  Lemma dist_perm l l' : Permutation l l' -> dist l -> dist l'.
  Proof.
    intros HP HD i j a b Ha Hb H1 H2. apply Permutation_nth_error in HP as [_ (f & Hf & E)]. rewrite E in Ha, Hb. apply Hf. eapply HD; eauto.
  Qed.
  Lemma dist_strict l : dist l -> StronglySorted (fun x y : W => wle x y = true) l -> StronglySorted (fun x y : W => wlt x y = true) l.
  Proof.
    induction l as [|a l IH]; intros HD HS; constructor; apply StronglySorted_inv in HS as [HS HF].
    - apply IH; auto. intros i j b c Hb Hc H1 H2. assert (E : S i = S j) by (eapply HD; eauto). lia.
    - rewrite Forall_forall in *. intros b Hb. specialize (HF b Hb). unfold wlt. apply negb_true_iff. destruct (wle b a) eqn:E; auto. exfalso.
      apply In_nth_error in Hb as [j Hj]. assert (E' : 0 = S j) by (eapply HD; eauto; reflexivity). lia.
  Qed.
  Lemma wlt_asym (a b : W) : wlt a b = true -> wlt b a = true -> False.
  Proof. unfold wlt. intros H1 H2. apply negb_true_iff in H1. apply negb_true_iff in H2. destruct (wle_total W a b); congruence. Qed.
  Lemma strict_unique l : forall l', StronglySorted (fun x y : W => wlt x y = true) l -> StronglySorted (fun x y : W => wlt x y = true) l' ->
    Permutation l l' -> l = l'.
  Proof.
    induction l as [|a l IH]; intros l' HS HS' HP.
    - now apply Permutation_nil in HP.
    - destruct l' as [|b l']; [now apply Permutation_sym, Permutation_nil in HP|].
      apply StronglySorted_inv in HS as [HS HF]. apply StronglySorted_inv in HS' as [HS' HF']. rewrite Forall_forall in *.
      assert (a = b) as ->.
      { assert (Ha : In a (b :: l')) by (eapply Permutation_in; eauto; now left). assert (Hb : In b (a :: l)) by (eapply Permutation_in; [apply Permutation_sym, HP|now left]).
        destruct Ha as [|Ha]; [auto|]. destruct Hb as [|Hb]; [auto|]. exfalso. apply (wlt_asym a b); auto. }
      f_equal. apply IH; auto. now apply Permutation_cons_inv in HP.
  Qed.
  Lemma prefix_level (l : list (edge W)) : StronglySorted (fun x y : W => wlt x y = true) (map ewt l) -> forall i e0, nth_error l i = Some e0 ->
    forall e, In e (firstn (S i) l) <-> In e (passing (fun w => wle w (ewt e0)) l).
  Proof.
    induction l as [|a l IH]; intros HS i e0 Hi e; [destruct i; discriminate|]. cbn [map] in HS. apply StronglySorted_inv in HS as [HS HF]. rewrite Forall_forall in HF.
    rewrite in_passing. destruct i as [|i].
    - injection Hi as <-. cbn [firstn]. split.
      + intros [<-|[]]. split; [now left|]. destruct (wle_total W (ewt a) (ewt a)); auto.
      + intros [[<-|H] Hle]; [now left|]. exfalso. assert (K : wlt (ewt a) (ewt e) = true) by (apply HF, in_map, H). unfold wlt in K. rewrite Hle in K. discriminate.
    - cbn [nth_error] in Hi. specialize (IH HS i e0 Hi e). rewrite in_passing in IH. rewrite firstn_cons. cbn [In]. rewrite IH. split.
      + intros [<-|[H1 H2]]; [|tauto]. split; auto. assert (K : wlt (ewt a) (ewt e0) = true) by (apply HF, in_map; eapply nth_error_In; eauto).
        unfold wlt in K. apply negb_true_iff in K. destruct (wle_total W (ewt a) (ewt e0)); congruence.
      + intros [[<-|H] Hle]; auto.
  Qed.
End Weights.

Lemma under_leaf {W Sz} n (L : list (lrow W Sz)) v x : under n L v x -> v < n -> v = x.
Proof. intros H Hv. destruct H; auto; lia. Qed.

Section Single.
  Context {W : WOrd} {Sz : SOrd}.
  Variables (n : nat) (L : list (lrow W Sz)) (M : list (edge W)).
  Hypothesis HD : dendrogram n L.
  Hypothesis Hlen : length L = length M.
  Hypothesis Hu : forall i e x, nth_error M i = Some e -> (under n L (n + i) x <-> x < n /\ connected (firstn (S i) M) (esrc e) x).

  Lemma row_edge i r : nth_error L i = Some r -> exists e, nth_error M i = Some e.
  Proof. intro H. destruct (nth_error M i) eqn:E; eauto. apply nth_error_None in E. assert (i < length L) by (apply nth_error_Some; congruence). lia. Qed.
  Lemma edge_row i e : nth_error M i = Some e -> exists r, nth_error L i = Some r.
  Proof. intro H. destruct (nth_error L i) eqn:E; eauto. apply nth_error_None in E. assert (i < length M) by (apply nth_error_Some; congruence). lia. Qed.
  Lemma prefix_mono i j x y : i <= j -> connected (firstn i M) x y -> connected (firstn j M) x y.
  Proof.
    intros H. apply connected_incl. intros e He. replace (firstn i M) with (firstn i (firstn j M)) in He by (rewrite firstn_firstn; f_equal; lia).
    rewrite <- (firstn_skipn i (firstn j M)). apply in_or_app. now left.
  Qed.
  Lemma under_connected i r x y : nth_error L i = Some r -> under n L (n + i) x -> under n L (n + i) y -> connected (firstn (S i) M) x y.
  Proof.
    intros Hr Hx Hy. destruct (row_edge i r Hr) as [e He]. apply (Hu i e x He) in Hx. apply (Hu i e y He) in Hy.
    eapply connected_trans; [apply connected_sym, Hx|apply Hy].
  Qed.
  Lemma prefix_nodes i x y : connected (firstn i M) x y -> x < n -> y < n -> x = y \/ exists j, j < i /\ under n L (n + j) x /\ under n L (n + j) y.
  Proof.
    intros H Hx Hy. induction i as [|i IH]; [left; now apply connected_nil in H|].
    destruct (nth_error M i) as [e|] eqn:E.
    - pose proof H as H0. rewrite (firstn_S_nth M i e E) in H. assert (He : connected (firstn (S i) M) (esrc e) (edst e)).
      { apply connected_edge. rewrite (firstn_S_nth M i e E). apply in_or_app. right. now left. }
      apply connected_snoc in H as [H|[[H1 H2]|[H1 H2]]].
      + destruct (IH H) as [|(j & Hj & K)]; auto. right. exists j. split; [lia|auto].
      + right. exists i. split; [lia|]. rewrite !(Hu i e _ E). apply (prefix_mono i (S i)) in H1; [|lia]. apply (prefix_mono i (S i)) in H2; [|lia]. apply connected_sym in H1.
        split; split; auto. eapply connected_trans; eauto.
      + right. exists i. split; [lia|]. rewrite !(Hu i e _ E). apply (prefix_mono i (S i)) in H1; [|lia]. apply (prefix_mono i (S i)) in H2; [|lia]. apply connected_sym in H1.
        split; split; auto. eapply connected_trans; eauto.
    - apply nth_error_None in E. rewrite !firstn_all2 in * by lia. destruct (IH H) as [|(j & Hj & K)]; auto. right. exists j. split; [lia|auto].
  Qed.
  (** Two sides of a merge are connected by no earlier edge. *)
  Lemma sides_apart i r x y : nth_error L i = Some r -> under n L (l_a r) x -> under n L (l_b r) y -> ~ connected (firstn i M) x y.
  Proof.
    intros Hr Hx Hy H. pose proof (under_lt _ _ _ _ Hx) as Hxn. pose proof (under_lt _ _ _ _ Hy) as Hyn.
    destruct (prefix_nodes i x y H Hxn Hyn) as [->|(j & Hj & K1 & K2)]; [eapply siblings_apart; eauto|].
    assert (KA : dn n L (l_a r) (n + j)).
    { destruct (dn_chain n L HD _ _ _ (under_dn _ _ _ _ Hx) (under_dn _ _ _ _ K1)) as [|K]; auto.
      destruct (Nat.eq_dec (n + j) (l_a r)) as [E|Hne]; [rewrite E; constructor|].
      assert (K3 : dn n L (n + j) (n + i)) by (eapply (dn_parent n L HD); eauto). apply (dn_le n L HD) in K3. lia. }
    eapply (siblings_apart n L HD i r y); eauto. eapply dn_under_up; eauto.
  Qed.
End Single.

Section Same.
  Context {W : WOrd} {Sz : SOrd}.
  Variables (n : nat) (p : nat -> nat) (wt wt' : nat -> Sz) (M M' : list (edge W)) (L L' : list (lrow W Sz)).
  Hypothesis Hp : reorders n p.
  Hypothesis Hwt : forall x, x < n -> wt (p x) = wt' x.
  Hypothesis HL : linkage_of n wt M L.
  Hypothesis HL' : linkage_of n wt' M' L'.
  Hypothesis HPw : Permutation (map ewt M) (map ewt M').
  Hypothesis Hlev : same_hierarchy n p M M'.
  Hypothesis HW : distinct_weights M.
  Notation rho := (rho n p).

  Lemma same_linkage : Forall2 (row_like n p) L L'.
  Proof.
    destruct HL as (D & Z & Srt & M1 & P1 & E1 & U). destruct HL' as (D' & Z' & Srt' & M1' & P1' & E1' & U').
    unfold heights_sorted in Srt, Srt'. rewrite E1 in Srt. rewrite E1' in Srt'.
    assert (Dw : dist (map ewt M1)) by (apply (dist_perm (map ewt M)); [now apply Permutation_map|now apply dist_weights]).
    assert (Pw : Permutation (map ewt M1) (map ewt M1')).
    { eapply Permutation_trans; [apply Permutation_sym, Permutation_map, P1|]. eapply Permutation_trans; [exact HPw|now apply Permutation_map]. }
    assert (Dw' : dist (map ewt M1')) by (now apply (dist_perm (map ewt M1))).
    pose proof (dist_strict _ Dw Srt) as St. pose proof (dist_strict _ Dw' Srt') as St'. pose proof (strict_unique _ _ St St' Pw) as Ew.
    assert (HlL : length L = length M1) by (rewrite <- (map_length l_d L), E1; apply map_length).
    assert (HlL' : length L' = length M1') by (rewrite <- (map_length l_d L'), E1'; apply map_length).
    assert (HlM : length M1 = length M1') by (rewrite <- (map_length ewt M1), Ew; apply map_length).
    (* the prefixes have the same connectivity *)
    assert (Hpre : forall k x y, x < n -> y < n -> (connected (firstn k M1) (p x) (p y) <-> connected (firstn k M1') x y)).
    { assert (K0 : forall i x y e e', nth_error M1 i = Some e -> nth_error M1' i = Some e' -> x < n -> y < n -> (connected (firstn (S i) M1) (p x) (p y) <-> connected (firstn (S i) M1') x y)).
      { intros i x y e e' Hi Hi' Hx Hy. assert (Ee : ewt e = ewt e').
        { assert (K : nth_error (map ewt M1) i = nth_error (map ewt M1') i) by congruence. rewrite !nth_error_map, Hi, Hi' in K. cbn in K. congruence. }
        specialize (Hlev _ (threshold_le (ewt e)) x y Hx Hy).
        assert (A : connected (firstn (S i) M1) (p x) (p y) <-> connected (passing (fun w => wle w (ewt e)) M) (p x) (p y)).
        { split; apply connected_incl; intros f Hf.
          - apply (prefix_level M1 St i e Hi) in Hf. apply in_passing in Hf as [F1 F2]. apply in_passing. split; auto. eapply Permutation_in; [apply Permutation_sym, P1|auto].
          - apply in_passing in Hf as [F1 F2]. apply (prefix_level M1 St i e Hi). apply in_passing. split; auto. eapply Permutation_in; eauto. }
        assert (A' : connected (firstn (S i) M1') x y <-> connected (passing (fun w => wle w (ewt e)) M') x y).
        { rewrite Ee. split; apply connected_incl; intros f Hf.
          - apply (prefix_level M1' St' i e' Hi') in Hf. apply in_passing in Hf as [F1 F2]. apply in_passing. split; auto. eapply Permutation_in; [apply Permutation_sym, P1'|auto].
          - apply in_passing in Hf as [F1 F2]. apply (prefix_level M1' St' i e' Hi'). apply in_passing. split; auto. eapply Permutation_in; eauto. }
        tauto. }
      induction k as [|k IHk]; intros x y Hx Hy.
      - cbn [firstn]. rewrite !connected_nil. split; [now apply (proj2 Hp)|congruence].
      - destruct (nth_error M1 k) as [e|] eqn:Ek.
        + destruct (nth_error M1' k) as [e'|] eqn:Ek'; [eapply K0; eauto|]. exfalso. apply nth_error_None in Ek'. assert (k < length M1) by (apply nth_error_Some; congruence). lia.
        + apply nth_error_None in Ek. rewrite !firstn_all2 by lia. specialize (IHk x y Hx Hy). rewrite !firstn_all2 in IHk by lia. auto. }
    (* the nodes have the same samples *)
    assert (Hnode : forall i r', nth_error L' i = Some r' -> forall x, x < n -> (under n L (n + i) (p x) <-> under n L' (n + i) x)).
    { intros i r' Hr'. destruct (row_edge L' M1' HlL' i r' Hr') as [e' He'].
      assert (He : exists e, nth_error M1 i = Some e) by (destruct (nth_error M1 i) eqn:E; eauto; apply nth_error_None in E; assert (i < length M1') by (apply nth_error_Some; congruence); lia).
      destruct He as [e He]. destruct (edge_row L M1 HlL i e He) as [r Hr].
      destruct (has_sample n L' D' (l_a r')) as [x Hx]; [eapply child_node; eauto|]. destruct (has_sample n L' D' (l_b r')) as [y Hy]; [eapply child_node; eauto|].
      pose proof (under_lt _ _ _ _ Hx) as Hxn. pose proof (under_lt _ _ _ _ Hy) as Hyn.
      assert (Ux : under n L' (n + i) x) by (eapply under_a; eauto). assert (Uy : under n L' (n + i) y) by (eapply under_b; eauto).
      pose proof (sides_apart n L' M1' D' HlL' U' i r' x y Hr' Hx Hy) as Hap.
      assert (Hcx : connected (firstn (S i) M1') x y) by (eapply under_connected; eauto).
      assert (Kx : under n L (n + i) (p x)).
      { apply Hpre in Hcx; auto. rewrite <- Hpre in Hap by auto.
        destruct (prefix_nodes n L M1 HlL U (S i) (p x) (p y) Hcx) as [E|(j & Hj & K1 & K2)]; [now apply Hp|now apply Hp| |].
        - exfalso. apply (proj2 Hp) in E; auto. subst y. eapply (siblings_apart n L' D'); eauto.
        - assert (Hij : j = i); [|now subst j]. destruct (Nat.eq_dec j i) as [|Hne]; auto. exfalso. apply Hap.
          assert (Hrj : exists rj, nth_error L j = Some rj).
          { destruct (nth_error L j) eqn:E; eauto. apply nth_error_None in E. assert (i < length L) by (apply nth_error_Some; congruence). lia. }
          destruct Hrj as [rj Hrj]. apply (prefix_mono L M1 HlL (S j) i); [lia|]. eapply under_connected; eauto. }
      intros z Hz. split; intro K.
      - apply (U' i e' z He'). split; auto. apply (U' i e' x He') in Ux. eapply connected_trans; [apply Ux|]. apply Hpre; auto. eapply under_connected; eauto.
      - apply (U i e (p z) He). split; [now apply Hp|]. apply (U i e (p x) He) in Kx. eapply connected_trans; [apply Kx|]. apply Hpre; auto. eapply under_connected; eauto. }
    assert (Hnode2 : forall v x, node n L' v -> x < n -> (under n L (rho v) (p x) <-> under n L' v x)).
    { intros v x [Hv|(i & r & -> & Hr)] Hx.
      - rewrite rho_sample by auto. split; intro K.
        + assert (E : p v = p x).
          { eapply under_leaf; eauto. now apply Hp. }
          apply (proj2 Hp) in E; auto. subst x. now constructor.
        + assert (E : v = x) by (eapply under_leaf; eauto). subst x. constructor. now apply Hp.
      - rewrite rho_node by lia. now apply (Hnode i r). }
    (* children *)
    assert (Hchild : forall i r r' v, nth_error L i = Some r -> nth_error L' i = Some r' -> (v = l_a r' \/ v = l_b r') -> rho v = l_a r \/ rho v = l_b r).
    { intros i r r' v Hr Hr' Hv. pose proof (child_node n L' D' i r' v Hr' Hv) as Nv. destruct (has_sample n L' D' v Nv) as [x Hx]. pose proof (under_lt _ _ _ _ Hx) as Hxn.
      pose proof (child_lt n L' D' i r' v Hr' Hv) as Hvi.
      assert (Hrv : rho v < n + i) by (unfold P_Reorder.rho; destruct (Nat.ltb_spec v n) as [Hlt|]; [pose proof (proj1 Hp v Hlt)|]; lia).
      assert (Ux : under n L' (n + i) x) by (destruct Hv as [->| ->]; [eapply under_a|eapply under_b]; eauto).
      assert (K1 : under n L (rho v) (p x)) by (apply Hnode2; auto). assert (K2 : under n L (n + i) (p x)) by (apply (Hnode i r'); auto).
      assert (Dv : dn n L (n + i) (rho v)).
      { destruct (dn_chain n L D _ _ _ (under_dn _ _ _ _ K2) (under_dn _ _ _ _ K1)) as [|K]; auto. apply (dn_le n L D) in K. lia. }
      destruct (dn_first n L _ _ Dv ltac:(lia)) as (j & q & u & Ej & Hq & Hu & Du). assert (j = i) by lia. subst j. assert (q = r) by congruence. subst q.
      destruct (Nat.eq_dec u (rho v)) as [E|Hne]; [rewrite <- E; auto|]. exfalso.
      (* [u] lies strictly between, in [L]; look at it in [L'] *)
      assert (Hun : n <= u). { destruct (dn_first n L _ _ Du Hne) as (j & ? & ? & -> & _). lia. }
      pose proof (child_lt n L D i r u Hr Hu) as Hui.
      assert (Nu : node n L' u) by (apply (node_iff n L' D'); pose proof (row_lt n L D i r Hr); lia).
      assert (Ku : under n L' u x) by (apply Hnode2; auto; rewrite rho_node by auto; eapply dn_under_up; eauto).
      assert (Du' : dn n L' (n + i) u).
      { destruct (dn_chain n L' D' _ _ _ (under_dn _ _ _ _ Ux) (under_dn _ _ _ _ Ku)) as [|K]; auto. apply (dn_le n L' D') in K. lia. }
      destruct (dn_first n L' _ _ Du' ltac:(lia)) as (j & q & w & Ej' & Hq' & Hw & Dw2). assert (j = i) by lia. subst j. assert (q = r') by congruence. subst q.
      assert (Uw : under n L' w x) by (eapply dn_under_up; eauto).
      assert (w = v) as -> by (destruct Hw as [->| ->], Hv as [->| ->]; auto; exfalso; eapply (siblings_apart n L' D'); eauto).
      apply (dn_le n L' D') in Dw2. apply (dn_le n L D) in Du. rewrite (rho_node n p v) in Du, Hne by lia. lia. }
    assert (Hlen : length L = length L') by lia.
    assert (Hall : forall i r r', nth_error L i = Some r -> nth_error L' i = Some r' -> row_like n p r r').
    { intros i r r' Hr Hr'. split; [|split].
      - pose proof (Hchild i r r' _ Hr Hr' (or_introl eq_refl)) as CA. pose proof (Hchild i r r' _ Hr Hr' (or_intror eq_refl)) as CB.
        pose proof (children_differ n L' D' i r' Hr') as Hne. assert (Hne' : rho (l_a r') <> rho (l_b r')) by (intro E; apply Hne; eapply (rho_inj n p Hp); eauto).
        destruct CA as [CA|CA], CB as [CB|CB]; try congruence; auto.
      - assert (K : nth_error (map l_d L) i = nth_error (map l_d L') i) by congruence. rewrite !nth_error_map, Hr, Hr' in K. cbn in K. congruence.
      - destruct (Z i r Hr) as (xs & N & I & Ez). destruct (Z' i r' Hr') as (xs' & N' & I' & Ez').
        rewrite Ez, Ez'. replace (map wt' xs') with (map wt (map p xs')).
        + apply ssum_perm. apply Permutation_map. apply NoDup_Permutation; auto.
          * apply NoDup_map_in; auto. intros a b Ha Hb. apply I' in Ha. apply I' in Hb. apply (proj2 Hp); eapply under_lt; eauto.
          * intro x. rewrite I, in_map_iff. split.
            -- intro K. pose proof (under_lt _ _ _ _ K) as Hx. destruct (reorder_onto n p Hp x Hx) as (y & Hy & <-). exists y. split; auto. apply I'. now apply (Hnode i r').
            -- intros (y & <- & Hy). apply I' in Hy. apply (Hnode i r'); auto. eapply under_lt; eauto.
        + rewrite map_map. apply map_ext_in. intros x Hx. apply Hwt. apply I' in Hx. eapply under_lt; eauto. }
    clear - Hlen Hall. revert L' Hlen Hall. induction L as [|a l IH]; intros [|b l'] Hlen Hall; try discriminate; constructor.
    - now apply (Hall 0).
    - apply IH; [cbn in Hlen; lia|]. intros i r r' H1 H2. apply (Hall (S i)); auto.
  Qed.
End Same.
