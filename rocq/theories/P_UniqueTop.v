(** Runs over the same hierarchy give the same clustering. *)
From Coq Require Import List Arith Lia Bool ZArith QArith Qcanon Permutation.
From Verif Require Import Prelude Order Size Num Graph S_Kruskal S_CoreGraph M_Linkage S_Linkage M_Condense S_Condense M_Select S_Select M_Labels S_Labels
  M_Pipeline S_Pipeline P_Pipeline P_PipelineMeaning P_PipelineEx P_SelectTop P_BCSame P_Labels P_LabelsTop
  S_Unique P_NodePath P_Unique P_UniqueTree P_Reorder P_SameLinkage P_Relabel P_Rename.
Import ListNotations.
Local Open Scope nat_scope.

Lemma qinf_anti (a b : QInf) : wle a b = true -> wle b a = true -> a = b.
Proof.
  destruct a as [a|], b as [b|]; cbn; intros H1 H2; auto; try discriminate. f_equal. apply Qcle_antisym; now apply Qcleb_le.
Qed.

Section Pair.
  Context {W V : WOrd} {Sz : SOrd}.
  Variables (lam : W -> V) (LA : LamArith V) (st : settings V Sz) (n : nat) (p : nat -> nat) (wt wt' : nat -> Sz).
  Variables (M M' : list (edge W)) (ls ls' : list Z) (ps ps' : list V) (T T' T0 T0' : list (crow V Sz)) (L L' : list (lrow W Sz))
    (chosen chosen' final final' : list nat).
  Hypothesis Hp : reorders n p.
  Hypothesis Hwt : forall x, x < n -> wt (p x) = wt' x.
  Hypothesis Hn : 2 <= n.
  Hypothesis X : explained lam LA st n wt M ls ps T L T0 chosen final.
  Hypothesis X' : explained lam LA st n wt' M' ls' ps' T' L' T0' chosen' final'.
  Hypothesis Heps : cluster_selection_epsilon st = None.
  Hypothesis Hper : cluster_selection_persistence st = None.
  Hypothesis HS : same_hierarchy n p M M'.
  Hypothesis HPw : Permutation (map ewt M) (map ewt M').
  Hypothesis HW : distinct_weights M.

  Lemma tree_same : T = T0.
  Proof. pose proof (xp_persistence _ _ _ _ _ _ _ _ _ _ _ _ _ X) as H. now rewrite Hper in H. Qed.
  Lemma tree_same' : T' = T0'.
  Proof. pose proof (xp_persistence _ _ _ _ _ _ _ _ _ _ _ _ _ X') as H. now rewrite Hper in H. Qed.

  Lemma tree_iso : exists g, renamed n g T' T /\ forall x, x < n -> g x = p x.
  Proof.
    rewrite tree_same, tree_same'.
    pose proof (xp_linkage _ _ _ _ _ _ _ _ _ _ _ _ _ X) as HL. pose proof (xp_linkage _ _ _ _ _ _ _ _ _ _ _ _ _ X') as HL'.
    pose proof (xp_condensed _ _ _ _ _ _ _ _ _ _ _ _ _ X) as HT. pose proof (xp_condensed _ _ _ _ _ _ _ _ _ _ _ _ _ X') as HT'.
    pose proof (xp_faithful _ _ _ _ _ _ _ _ _ _ _ _ _ X) as HF. pose proof (xp_faithful _ _ _ _ _ _ _ _ _ _ _ _ _ X') as HF'.
    pose proof (same_linkage n p wt wt' M M' L L' Hp Hwt HL HL' HPw HS HW) as HLL.
    pose proof (ren_faithful n p Hp wt wt' _ T0' HT' Hwt L L' lam HLL Hn HF') as HF2.
    pose proof (ren_condensed n p Hp wt wt' _ T0' HT' Hwt) as HT2.
    destruct (faithful_unique n L wt _ lam (proj1 HL) Hn _ T0 HT2 HT HF2 HF) as (f & Hf & Hfx).
    exists (fun x => f (rho n p x)). split.
    - eapply renamed_trans; [apply (ren_renamed n p Hp wt' _ T0' HT')|exact Hf].
    - intros x Hx. unfold rho. apply Nat.ltb_lt in Hx as Hb. rewrite Hb. apply Hfx. now apply Hp.
  Qed.

  Hypothesis Hanti : forall a b : V, wle a b = true -> wle b a = true -> a = b.
  Hypothesis Hz : forall x, x < n -> nth x ls 0%Z = (-1)%Z -> nth x ps (la_zero LA) = la_zero LA.
  Hypothesis Hz' : forall x, x < n -> nth x ls' 0%Z = (-1)%Z -> nth x ps' (la_zero LA) = la_zero LA.

  Lemma result_iso g : renamed n g T' T -> (forall x, x < n -> g x = p x) ->
    (forall c, In c chosen <-> exists c', In c' chosen' /\ g c' = c) -> same_clustering (la_zero LA) n p ls ls' ps ps'.
  Proof.
    intros HR Hg Hc.
    destruct (xp_tree _ _ _ _ _ _ _ _ _ _ _ _ _ X) as [HT _]. destruct (xp_tree _ _ _ _ _ _ _ _ _ _ _ _ _ X') as [HT' _].
    pose proof (xp_no_epsilon _ _ _ _ _ _ _ _ _ _ _ _ _ X (or_introl Heps)) as Ef. pose proof (xp_no_epsilon _ _ _ _ _ _ _ _ _ _ _ _ _ X' (or_introl Heps)) as Ef'.
    destruct (xp_disjoint _ _ _ _ _ _ _ _ _ _ _ _ _ X) as (N & C & _). destruct (xp_disjoint _ _ _ _ _ _ _ _ _ _ _ _ _ X') as (N' & C' & _).
    assert (Hc0 : final = [] <-> final' = []).
    { rewrite Ef, Ef'. split; intro E; rewrite E in Hc.
      - destruct chosen' as [|a l]; auto. exfalso. apply (proj2 (Hc (g a))). exists a. split; [now left|auto].
      - destruct chosen as [|a l]; auto. exfalso. destruct (proj1 (Hc a) (or_introl eq_refl)) as (c' & [] & _). }
    destruct (list_eq_dec Nat.eq_dec final []) as [E0|E0].
    - assert (E1 : final' = []) by now apply Hc0.
      destruct (xp_all_noise _ _ _ _ _ _ _ _ _ _ _ _ _ X E0) as [-> ->]. destruct (xp_all_noise _ _ _ _ _ _ _ _ _ _ _ _ _ X' E1) as [-> ->].
      assert (H1 : forall x (A : Type) (a d : A), x < n -> nth x (repeat a n) d = a) by (intros; now apply nth_repeat_lt || (rewrite nth_indep with (d' := a) by (rewrite repeat_length; auto); apply nth_repeat)).
      constructor; intros; rewrite ?H1; auto; try (now apply Hp); tauto.
    - assert (E1 : final' <> []) by (intro E; apply E0; now apply Hc0).
      pose proof (xp_labels _ _ _ _ _ _ _ _ _ _ _ _ _ X E0) as HlA. pose proof (xp_labels _ _ _ _ _ _ _ _ _ _ _ _ _ X' E1) as HlA'.
      rewrite Heps in HlA, HlA'. cbn [option_map] in HlA, HlA'.
      pose proof (xp_strengths _ _ _ _ _ _ _ _ _ _ _ _ _ X E0) as Hst. pose proof (xp_strengths _ _ _ _ _ _ _ _ _ _ _ _ _ X' E1) as Hst'.
      rewrite <- Ef, <- Ef' in Hc.
      constructor.
      + intros x Hx. rewrite <- (Hg x Hx). symmetry. exact (same_labels n wt' wt _ T' T g HT' HT HR final' final C' N' N Hc _ ls' ls HlA' HlA x Hx).
      + intros x y Hx Hy. rewrite <- (Hg x Hx), <- (Hg y Hy). symmetry. exact (same_groups n wt' wt _ T' T g HT' HT HR final' final C' N' N Hc _ ls' ls HlA' HlA x y Hx Hy).
      + intros x Hx. rewrite <- (Hg x Hx). symmetry. exact (same_strengths n wt' wt _ T' T g HT' HT HR final' final C' N' N Hc _ ls' ls LA ps' ps HlA' HlA Hst' Hst Hz' Hz Hanti x Hx).
  Qed.

  Lemma unsplit_case g : renamed n g T' T -> cluster_rows n T = [] -> forall c, In c chosen <-> exists c', In c' chosen' /\ g c' = c.
  Proof.
    intros HR E. destruct (xp_tree _ _ _ _ _ _ _ _ _ _ _ _ _ X) as [HT _]. destruct (xp_tree _ _ _ _ _ _ _ _ _ _ _ _ _ X') as [HT' _].
    assert (E' : cluster_rows n T' = []) by now apply (no_clusters n wt' wt _ T' T g HT' HT HR).
    rewrite (xp_unsplit _ _ _ _ _ _ _ _ _ _ _ _ _ X E), (xp_unsplit _ _ _ _ _ _ _ _ _ _ _ _ _ X' E'). intro c. split; [intros []|intros (c' & [] & _)].
  Qed.
  Lemma leaf_case g : renamed n g T' T -> cluster_selection_method st = Leaf -> forall c, In c chosen <-> exists c', In c' chosen' /\ g c' = c.
  Proof.
    intros HR Hm. destruct (xp_tree _ _ _ _ _ _ _ _ _ _ _ _ _ X) as [HT _]. destruct (xp_tree _ _ _ _ _ _ _ _ _ _ _ _ _ X') as [HT' _].
    assert (D : cluster_rows n T = [] \/ cluster_rows n T <> []) by (destruct (cluster_rows n T); [now left|right; discriminate]).
    destruct D as [E|E]; [now apply unsplit_case|].
    assert (E' : cluster_rows n T' <> []) by (intro E'; apply E; now apply (no_clusters n wt' wt _ T' T g HT' HT HR)).
    intro c. rewrite (xp_leaf _ _ _ _ _ _ _ _ _ _ _ _ _ X Hm E). split.
    - intro H. destruct (onto n wt' _ T' T g HT' HR c) as (c' & Hc' & <-); [apply H|]. exists c'. split; auto.
      apply (xp_leaf _ _ _ _ _ _ _ _ _ _ _ _ _ X' Hm E'). exact (proj1 (leaf_iff n wt' wt _ T' T g HT' HT HR c' Hc') H).
    - intros (c' & Hc' & <-). apply (xp_leaf _ _ _ _ _ _ _ _ _ _ _ _ _ X' Hm E') in Hc'. exact (proj2 (leaf_iff n wt' wt _ T' T g HT' HT HR c' (proj1 Hc')) Hc').
  Qed.
End Pair.

(** ** Leaf selection in any arithmetic *)
Section Leaves.
  Context {W V : WOrd}.
  Variables (lam : W -> V) (LA : LamArith V).
  Hypothesis HantiW : forall a b : W, wle a b = true -> wle b a = true -> a = b.
  Hypothesis HantiV : forall a b : V, wle a b = true -> wle b a = true -> a = b.

  Lemma completes_noise {Sz : SOrd} (st : settings V Sz) n wt r ls ps T :
    completes LA st n wt r -> r = Ok (ls, ps, T) -> forall x, x < n -> nth x ls 0%Z = (-1)%Z -> nth x ps (la_zero LA) = la_zero LA.
  Proof. intros [(a & b & c & E & H & _)|[_ E]] E'; rewrite E' in E; [|discriminate]. injection E as <- <- <-. apply H. Qed.

  Lemma c49_leaf A A' garbage garbage' by_parent by_parent' (st : settings V NatSize) n p M M' ls ps T ls' ps' T' :
    setting_ok lam LA A by_parent st -> setting_ok lam LA A' by_parent' st -> cluster_selection_method st = Leaf ->
    cluster_selection_epsilon st = None -> cluster_selection_persistence st = None ->
    spanning_tree n M -> spanning_tree n M' -> 2 <= n -> reorders n p -> same_hierarchy n p M M' -> distinct_weights M ->
    clusters_from_spanning_tree lam LA A garbage by_parent st M = Ok (ls, ps, T) ->
    clusters_from_spanning_tree lam LA A' garbage' by_parent' st M' = Ok (ls', ps', T') ->
    same_clustering (la_zero LA) n p ls ls' ps ps'.
  Proof.
    intros HK HK' Hm He Hpe HM HM' Hn Hp HS HW ER ER'.
    destruct (plain_explained lam LA A garbage by_parent st n M ls ps T HK HM Hn ER) as (L & T0 & C & F & X & _).
    destruct (plain_explained lam LA A' garbage' by_parent' st n M' ls' ps' T' HK' HM' Hn ER') as (L' & T0' & C' & F' & X' & _).
    pose proof (hierarchy_weights n p Hp HantiW M M' HM HM' HS) as HPw.
    assert (Hwt : forall x, x < n -> (fun _ : nat => (1 : scar NatSize)) (p x) = (fun _ : nat => (1 : scar NatSize)) x) by auto.
    destruct (tree_iso lam LA st n p _ _ M M' ls ls' ps ps' T T' T0 T0' L L' C C' F F' Hp Hwt Hn X X' Hpe HS HPw HW) as (g & Hg & Hx).
    pose proof (plain_total lam LA A garbage by_parent st n M HK HM Hn) as K. pose proof (plain_total lam LA A' garbage' by_parent' st n M' HK' HM' Hn) as K'.
    eapply (result_iso lam LA st n p _ _ M M' ls ls' ps ps' T T' T0 T0' L L' C C' F F' Hp X X' He HantiV); eauto using completes_noise.
    eapply leaf_case; eauto.
  Qed.

  Lemma c49_leaf_weighted {Sz : SOrd} A A' garbage garbage' by_parent by_parent' (st : settings V Sz) n p M M' ws ws' ls ps T ls' ps' T' :
    setting_ok lam LA A by_parent st -> setting_ok lam LA A' by_parent' st -> cluster_selection_method st = Leaf ->
    cluster_selection_epsilon st = None -> cluster_selection_persistence st = None ->
    spanning_tree n M -> spanning_tree n M' -> 2 <= n -> reorders n p -> same_hierarchy n p M M' -> distinct_weights M ->
    sle (s := Sz) szero sone = true -> length ws = n -> length ws' = n -> (forall w, In w ws -> slt w (min_cluster_size st) = true) ->
    (forall x, x < n -> nth (p x) ws szero = nth x ws' szero) ->
    clusters_from_spanning_tree_weighted lam LA A garbage by_parent st M ws = Ok (ls, ps, T) ->
    clusters_from_spanning_tree_weighted lam LA A' garbage' by_parent' st M' ws' = Ok (ls', ps', T') ->
    same_clustering (la_zero LA) n p ls ls' ps ps'.
  Proof.
    intros HK HK' Hm He Hpe HM HM' Hn Hp HS HW Hs Hw Hw' Hlt Hwt ER ER'.
    assert (Hlt' : forall w, In w ws' -> slt w (min_cluster_size st) = true).
    { intros w Hi. apply (In_nth _ _ szero) in Hi as (i & Hi & <-). rewrite <- Hwt by lia. apply Hlt. apply nth_In. rewrite Hw. apply Hp. lia. }
    destruct (weighted_explained lam LA A garbage by_parent st n M ws ls ps T HK HM Hn Hw Hs Hlt ER) as (L & T0 & C & F & X & _).
    destruct (weighted_explained lam LA A' garbage' by_parent' st n M' ws' ls' ps' T' HK' HM' Hn Hw' Hs Hlt' ER') as (L' & T0' & C' & F' & X' & _).
    pose proof (hierarchy_weights n p Hp HantiW M M' HM HM' HS) as HPw.
    destruct (tree_iso lam LA st n p _ _ M M' ls ls' ps ps' T T' T0 T0' L L' C C' F F' Hp Hwt Hn X X' Hpe HS HPw HW) as (g & Hg & Hx).
    pose proof (weighted_total lam LA A garbage by_parent st n M ws HK HM Hn Hw Hs Hlt) as K.
    pose proof (weighted_total lam LA A' garbage' by_parent' st n M' ws' HK' HM' Hn Hw' Hs Hlt') as K'.
    eapply (result_iso lam LA st n p _ _ M M' ls ls' ps ps' T T' T0 T0' L L' C C' F F' Hp X X' He HantiV); eauto using completes_noise.
    eapply leaf_case; eauto.
  Qed.
End Leaves.

(** ** Both methods in exact arithmetic *)
Lemma faithful_rows {W V : WOrd} {Sz : SOrd} n L wt mcs (lam : W -> V) (T : list (crow V Sz)) r : faithful n L wt mcs None lam T -> In r T -> exists row, In row L /\ c_lam r = lam (l_d row).
Proof.
  intros (top & _ & _ & H1 & H2) Hr. destruct (lt_dec (c_child r) n) as [Hc|Hc].
  - destruct (H1 r Hr Hc) as (i & row & v & _ & E & El & _). exists row. split; auto. eapply nth_error_In; eauto.
  - destruct (H2 r Hr ltac:(lia)) as (i & row & _ & E & _ & El & _). exists row. split; auto. eapply nth_error_In; eauto.
Qed.

Section Exact.
  Variables (mcs : nat) (m : selection_method) (allow : bool) (epsilon persistence : Qc) (n : nat).
  Hypothesis He : (epsilon <= 0)%Qc.
  Hypothesis Hpe : (persistence <= 0)%Qc.
  Hypothesis Hmcs : 2 <= mcs.
  Hypothesis Hn : 2 <= n.
  Notation st := (exact_settings (Sz := NatSize) mcs m allow epsilon persistence).

  Lemma exact_lams M ls ps T L T0 C F : (forall e, In e M -> wlt (Some 0%Qc : QInf) (ewt e) = true) ->
    explained hdbscan_lambda_value ExactLam st n (fun _ => 1) M ls ps T L T0 C F -> all_finite T /\ forall r, In r T -> (0 <= lam_q r)%Qc.
  Proof.
    intros Hpos X. pose proof (xp_persistence _ _ _ _ _ _ _ _ _ _ _ _ _ X) as ET. rewrite (exact_no_persistence (Sz := NatSize) mcs m allow epsilon persistence Hpe) in ET. subst T0.
    pose proof (xp_faithful _ _ _ _ _ _ _ _ _ _ _ _ _ X) as HF. destruct (xp_linkage _ _ _ _ _ _ _ _ _ _ _ _ _ X) as (_ & _ & _ & M0 & HP & HD & _).
    assert (H : forall r, In r T -> exists e, In e M /\ c_lam r = hdbscan_lambda_value (ewt e)).
    { intros r Hr. destruct (faithful_rows _ _ _ _ _ _ r HF Hr) as (row & Hrow & E). assert (Hi : In (l_d row) (map ewt M0)) by (rewrite <- HD; now apply in_map).
      apply in_map_iff in Hi as (e & Ee & Hi). exists e. split; [eapply Permutation_in; [apply Permutation_sym; exact HP|auto]|congruence]. }
    split.
    - intros r Hr K. destruct (H r Hr) as (e & Hi & E). rewrite E in K. specialize (Hpos e Hi). destruct (ewt e) as [d|]; cbn in K; [|discriminate].
      unfold wlt in Hpos. cbn in Hpos. destruct (Qcleb d 0); discriminate.
    - intros r Hr. destruct (H r Hr) as (e & Hi & E). pose proof (exact_nonneg (ewt e)) as K. rewrite <- E in K. unfold lam_q. destruct (c_lam r : option Qc) as [q|]; [now apply Qcleb_le|apply Qcle_refl].
  Qed.

  Lemma c49_exact garbage garbage' by_parent by_parent' p M M' ls ps T ls' ps' T' :
    sorts_by_parent by_parent -> sorts_by_parent by_parent' ->
    spanning_tree n M -> spanning_tree n M' -> (forall e, In e M -> wlt (Some 0%Qc : QInf) (ewt e) = true) ->
    reorders n p -> same_hierarchy n p M M' -> distinct_weights M ->
    exact_clusters garbage by_parent st M = Ok (ls, ps, T) ->
    exact_clusters garbage' by_parent' st M' = Ok (ls', ps', T') ->
    same_clustering (V := QInf) (Some 0%Qc) n p ls ls' ps ps'.
  Proof.
    intros HB HB' HM HM' Hpos Hp HS HW ER ER'. unfold exact_clusters in ER, ER'.
    set (st0 := st) in *.
    assert (HK : setting_ok hdbscan_lambda_value ExactLam (ExactArith NatSize nat_as_q) by_parent st0) by (apply exact_ok; auto; now apply nat_mcs).
    assert (HK' : setting_ok hdbscan_lambda_value ExactLam (ExactArith NatSize nat_as_q) by_parent' st0) by (apply exact_ok; auto; now apply nat_mcs).
    assert (Ee : cluster_selection_epsilon st0 = None) by (cbn; apply Qcleb_le in He; now rewrite He).
    assert (Ep : cluster_selection_persistence st0 = None) by (now apply exact_no_persistence).
    destruct (plain_explained _ _ _ garbage by_parent st0 n M ls ps T HK HM Hn ER) as (L & T0 & C & F & X & XS).
    destruct (plain_explained _ _ _ garbage' by_parent' st0 n M' ls' ps' T' HK' HM' Hn ER') as (L' & T0' & C' & F' & X' & XS').
    pose proof (hierarchy_weights n p Hp qinf_anti M M' HM HM' HS) as HPw.
    assert (Hpos' : forall e, In e M' -> wlt (Some 0%Qc : QInf) (ewt e) = true).
    { intros e He'. assert (Hi : In (ewt e) (map ewt M)) by (eapply Permutation_in; [apply Permutation_sym; exact HPw|now apply in_map]). apply in_map_iff in Hi as (e0 & <- & Hi). auto. }
    assert (Hwt : forall x, x < n -> (fun _ : nat => (1 : scar NatSize)) (p x) = (fun _ : nat => (1 : scar NatSize)) x) by auto.
    destruct (tree_iso _ _ st0 n p _ _ M M' ls ls' ps ps' T T' T0 T0' L L' C C' F F' Hp Hwt Hn X X' Ep HS HPw HW) as (g & Hg & Hx).
    pose proof (plain_total _ _ _ garbage by_parent st0 n M HK HM Hn) as K. pose proof (plain_total _ _ _ garbage' by_parent' st0 n M' HK' HM' Hn) as K'.
    assert (Hzz : forall x, x < n -> nth x ls 0%Z = (-1)%Z -> nth x ps (la_zero ExactLam) = la_zero ExactLam) by (eapply completes_noise; [exact K|exact ER]).
    assert (Hzz' : forall x, x < n -> nth x ls' 0%Z = (-1)%Z -> nth x ps' (la_zero ExactLam) = la_zero ExactLam) by (eapply completes_noise; [exact K'|exact ER']).
    assert (Hch : forall c, In c C <-> exists c', In c' C' /\ g c' = c).
    { assert (Dm : m = Eom \/ m = Leaf) by (destruct m; auto). destruct Dm as [Em|Em].
      - assert (D : cluster_rows n T = [] \/ cluster_rows n T <> []) by (destruct (cluster_rows n T); [now left|right; discriminate]).
        destruct D as [E|E]; [eapply unsplit_case; eauto|].
        destruct (xp_tree _ _ _ _ _ _ _ _ _ _ _ _ _ X) as [HT _]. destruct (xp_tree _ _ _ _ _ _ _ _ _ _ _ _ _ X') as [HT' _].
        assert (E' : cluster_rows n T' <> []) by (intro E'; apply E; now apply (no_clusters (Sz := NatSize) n (fun _ => 1) (fun _ => 1) _ T' T g HT' HT Hg)).
        destruct (exact_lams _ _ _ _ _ _ _ _ Hpos X) as [A1 A2]. destruct (exact_lams _ _ _ _ _ _ _ _ Hpos' X') as [A1' A2'].
        assert (Hlen : length (repeat 0%Z n) = n) by apply repeat_length.
        unfold selected_clusters_of in XS, XS'. cbn [cluster_selection_method st0 exact_settings] in XS, XS'. rewrite Em in XS, XS'.
        pose proof (eom_best n mcs T (repeat 0%Z n) allow HT Hmcs ltac:(lia) Hlen A1 A2 C E XS) as B.
        pose proof (eom_best n mcs T' (repeat 0%Z n) allow HT' Hmcs ltac:(lia) Hlen A1' A2' C' E' XS') as B'.
        pose proof (to_best n mcs T' T g allow nat_q HT' HT Hg C' B') as B2.
        intro c. rewrite (best_unique n mcs T allow _ HT C (map g C') c B B2), in_map_iff. split; intros (c' & H1 & H2); exists c'; auto.
      - eapply (leaf_case _ _ st0); eauto. }
    exact (result_iso _ _ st0 n p _ _ M M' ls ls' ps ps' T T' T0 T0' L L' C C' F F' Hp X X' Ee qinf_anti Hzz Hzz' g Hg Hx Hch).
  Qed.
End Exact.
