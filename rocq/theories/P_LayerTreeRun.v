(** The dictionary of the layer tree, and the tree of an actual run. *)
From Coq Require Import List Arith Lia Bool ZArith QArith Sorted Permutation.
From Verif Require Import Prelude Order Size Num P_Sort Forest M_Linkage S_Linkage M_Condense S_Condense M_Select S_Select M_Labels S_Labels
  P_CTree P_Below P_Labels P_LabelsTop P_LabelsProps M_Layers S_Layers P_Barcode P_LayerSets P_LayersRun P_LayersTop P_LayersBase
  M_LayerTree S_LayerTree P_LayerTree P_LayerTreeTop.
Import ListNotations.
Local Open Scope nat_scope.

(** ** The dictionary *)
Lemma name_eqb_eq a b : name_eqb a b = true <-> a = b.
Proof.
  unfold name_eqb. destruct a as [i x], b as [j y]. cbn. rewrite andb_true_iff, Nat.eqb_eq, Z.eqb_eq. split; [intros [-> ->]; auto|intro E; injection E; auto].
Qed.
Lemma name_eqb_refl a : name_eqb a a = true.
Proof. now apply name_eqb_eq. Qed.

Definition parent_name (r : tree_row) : cluster_name := (t_parent_layer r, t_parent r).
Definition kids (rows : list tree_row) (p : cluster_name) : list cluster_name := map key (filter (fun r => name_eqb p (parent_name r)) rows).

Lemma append_keys p c : forall d, map fst (append_child d p c) = if existsb (name_eqb p) (map fst d) then map fst d else map fst d ++ [p].
Proof.
  induction d as [|[q cs] d IH]; auto. cbn. destruct (name_eqb p q); auto. cbn. rewrite IH. now destruct (existsb (name_eqb p) (map fst d)).
Qed.

Lemma append_in p c : forall d q cs, NoDup (map fst d) -> In (q, cs) (append_child d p c) ->
  (q <> p /\ In (q, cs) d) \/ (q = p /\ ((~ In p (map fst d) /\ cs = [c]) \/ exists cs', In (p, cs') d /\ cs = cs' ++ [c])).
Proof.
  induction d as [|[a as'] d IH]; intros q cs HN H; cbn in *.
  - destruct H as [H|[]]. injection H as <- <-. right. split; auto.
  - apply NoDup_cons_iff in HN as [Ha HN]. destruct (name_eqb p a) eqn:E.
    + apply name_eqb_eq in E. subst a. destruct H as [H|H].
      * injection H as <- <-. right. split; auto. right. exists as'. auto.
      * left. split; auto. intros ->. apply Ha. change p with (fst (p, cs)). now apply in_map.
    + assert (Hne : a <> p) by (intros ->; rewrite name_eqb_refl in E; discriminate). destruct H as [H|H].
      * injection H as <- <-. left. auto.
      * destruct (IH q cs HN H) as [[H1 H2]|(H1 & [[H2 H3]|(cs' & H2 & H3)])]; [left; auto| |].
        -- right. split; auto. left. split; auto. intros [H4|H4]; auto.
        -- right. split; auto. right. exists cs'. auto.
Qed.

Lemma dictionary_ok rows : right_dictionary rows (fold_left (fun d r => append_child d (t_parent_layer r, t_parent r) (t_child_layer r, t_child r)) rows []).
Proof.
  induction rows as [|r rows IH] using rev_ind.
  - split; [constructor|]. split; intros x; cbn; tauto.
  - rewrite fold_left_app. cbn [fold_left]. set (d := fold_left _ rows []) in *. destruct IH as (I1 & I2 & I3).
    change (t_parent_layer r, t_parent r) with (parent_name r). change (t_child_layer r, t_child r) with (key r).
    assert (Hex : existsb (name_eqb (parent_name r)) (map fst d) = true <-> In (parent_name r) (map fst d)).
    { rewrite existsb_exists. split; [intros (q & Hq & E); apply name_eqb_eq in E; now subst|]. intro H. exists (parent_name r). split; auto. apply name_eqb_refl. }
    assert (Hkeys : forall q, In q (map fst (append_child d (parent_name r) (key r))) <-> In q (map fst d) \/ q = parent_name r).
    { intro q. rewrite append_keys. destruct (existsb _ _).
      - split; auto. intros [H| ->]; auto. now apply Hex.
      - rewrite in_app_iff. cbn. intuition. }
    split; [|split].
    + rewrite append_keys. destruct (existsb (name_eqb (parent_name r)) (map fst d)) eqn:E; auto.
      apply (Permutation_NoDup (Permutation_cons_append _ _)). constructor; auto. intro H. apply Hex in H. congruence.
    + intros p cs Hin. rewrite filter_app, map_app. cbn [filter]. change (t_parent_layer r, t_parent r) with (parent_name r).
      destruct (append_in _ _ d p cs I1 Hin) as [[H1 H2]|(-> & [[H1 ->]|(cs' & H1 & ->)])].
      * assert (name_eqb p (parent_name r) = false) as -> by (apply not_true_iff_false; rewrite name_eqb_eq; auto). cbn. rewrite app_nil_r. auto.
      * rewrite name_eqb_refl. split; [discriminate|]. assert (filter (fun q => name_eqb (parent_name r) (t_parent_layer q, t_parent q)) rows = []) as ->; auto.
        destruct (filter _ rows) as [|q l] eqn:E; auto. exfalso. assert (Hq : In q (filter (fun q => name_eqb (parent_name r) (t_parent_layer q, t_parent q)) rows)) by (rewrite E; now left).
        apply filter_In in Hq as [Hq Eq]. apply name_eqb_eq in Eq. apply H1. rewrite Eq. now apply I3.
      * rewrite name_eqb_refl. destruct (I2 _ _ H1) as [H2 H3]. rewrite H3 at 2. split; auto. intro E. apply app_eq_nil in E as [_ E]. discriminate.
    + intros q Hq. apply Hkeys. apply in_app_or in Hq as [Hq|[<-|[]]]; [left; now apply I3|now right].
Qed.

Lemma layer_tree_ok argsort labels N : argsorts_Z argsort -> labels <> [] -> 0 < N -> (forall l, In l labels -> length l = N) -> (forall l, In l labels -> gap_free l) ->
  exists rows d, build_layer_cluster_tree argsort labels = Ok d /\ right_tree labels rows /\ right_dictionary rows d.
Proof.
  intros Hsort Hne HN Hlen Hgap. destruct (tree_ok argsort Hsort labels N Hlen HN Hgap) as (rows & E & HR). exists rows. eexists. split; [|split; [exact HR|apply dictionary_ok]].
  unfold build_layer_cluster_tree. destruct labels as [|l ls] eqn:El; [congruence|]. assert (forallb (fun l' => length l' =? length l) ls = true) as ->.
  { apply forallb_forall. intros l' Hl'. apply Nat.eqb_eq. rewrite !Hlen; auto; [now left|now right]. }
  rewrite E. reflexivity.
Qed.

(** ** One layer of a run *)
Section Layer.
  Context {W V : WOrd} (LA : LamArith V).
  Variables (lam : W -> V) (n : nat) (L : list (lrow W NatSize)).
  Hypothesis Hn : 2 <= n.
  Hypothesis Hfin : forall r, In r L -> wle (lam (l_d r)) (la_zero LA) = false.
  Notation one := (fun _ : nat => (1 : NatSize)).
  Variables (k : nat) (T : list (crow V NatSize)).
  Hypothesis Hk : 2 <= k.
  Hypothesis Ht : tree_of lam n L k T.
  Let HT : condensed (Sz := NatSize) n one k T := proj1 (proj2 Ht).
  Let HO : ordered_tree n T := condensed_ordered _ _ _ _ HT.

  Lemma layer_label Sel ls ps x : right_layer LA n T Sel ls ps -> x < n ->
    nth x ls 0%Z = (-1)%Z \/ exists s, In s Sel /\ below n T s x /\ nth x ls 0%Z = Z.of_nat (position Sel s).
  Proof.
    intros HR Hx. destruct (sample_row n one k T HT x Hx) as (r & Hr & E). destruct (ly_labels _ _ _ _ _ _ HR) as [_ HL].
    destruct (HL r Hr ltac:(lia)) as [_ H]. destruct (H (not_zero LA lam n L Hfin k T Ht r Hr)) as (t & Hh & H1 & H2 & H3). rewrite E in *. clear H.
    destruct (Nat.eq_dec t n) as [->|Hne].
    - destruct (ly_number _ _ _ _ _ _ HR) as [ES|[Hroot _]].
      + destruct (H3 eq_refl ES) as [H4 H5]. destruct (Z.eq_dec (nth x ls 0%Z) (-1)) as [|Hl]; auto. right. exists n. rewrite ES. split; [now left|]. split; [now apply (below_root n one k T HT)|].
        assert (Hpos : position [n] n = 0) by (unfold position; cbn [countp]; now rewrite Nat.ltb_irrefl). rewrite Hpos.
        destruct (Z.eq_dec (nth x ls 0%Z) 0) as [E0|Hl0]; auto. exfalso. apply Hl. apply H5. intro Hd. apply Hl0, H4, Hd.
      + left. apply H2; auto. intros ->. apply Hroot. now left.
    - right. exists t. assert (Hts : In t Sel).
      { clear - Hh Hne. induction Hh as [|v Hv|r t Hr Hns Hnn Hh IH]; auto. congruence. }
      split; auto. split; auto. apply (home_sample_below n T Sel HO ltac:(lia) (ly_clusters _ _ _ _ _ _ HR)); auto.
  Qed.

  Lemma some_below c : is_cluster n T c -> exists x, below n T c x.
  Proof.
    intros [->|(Hge & r & Hr & E)].
    - exists 0. apply (below_root n one k T HT). lia.
    - destruct (ct_sizes _ _ _ _ HT r Hr ltac:(lia)) as (Hsz & xs & HNx & Hxs & Ec). rewrite ssum_ones in Ec. apply Nat.leb_le in Hsz. rewrite E in Hxs. rewrite Ec in Hsz.
      destruct xs as [|x xs]; [cbn in Hsz; lia|]. exists x. apply Hxs. now left.
  Qed.

  Lemma layer_gap_free Sel ls ps : right_layer LA n T Sel ls ps -> gap_free ls.
  Proof.
    intros HR l Hl. pose proof (ly_labels _ _ _ _ _ _ HR) as [Hlen _]. apply (In_nth _ _ 0%Z) in Hl as (x & Hx & <-). rewrite Hlen in Hx.
    pose proof (ly_sorted _ _ _ _ _ _ HR) as Hsorted. pose proof (ssorted_NoDup _ Hsorted) as HN.
    destruct (layer_label Sel ls ps x HR Hx) as [E|(s & Hs & Hb & E)]; rewrite E; [split; [lia|intros j Hj; lia]|]. split; [lia|]. intros j Hj.
    pose proof (position_lt Sel s HN Hs) as Hp.
    destruct (Nat.eq_dec (Z.to_nat j) (position Sel s)) as [Ej|Hj']; [replace j with (nth x ls 0%Z) by lia; apply nth_In; lia|].
    destruct (ly_number _ _ _ _ _ _ HR) as [ES|[Hroot _]].
    { exfalso. rewrite ES in Hp, Hj, Hj'. cbn [length] in Hp. lia. }
    set (i := Z.to_nat j) in *. assert (Hi : i < length Sel) by lia. set (c := nth i Sel 0). assert (Hc : In c Sel) by now apply nth_In.
    destruct (some_below c (ly_clusters _ _ _ _ _ _ HR c Hc)) as (y & Hy).
    assert (Ey : nth y ls 0%Z = Z.of_nat (position Sel c)) by (apply (label_inside LA lam n L Hn Hfin k T Sel ls ps Hk Ht HR); auto; congruence).
    pose proof (sorted_position Sel i Hsorted Hi) as Hpi. fold c in Hpi. rewrite Hpi in Ey. replace j with (nth y ls 0%Z) by lia. apply nth_In. rewrite Hlen. apply (below_lt n T _ _ Hy).
  Qed.
End Layer.

(** ** Two layers of one tree *)
Section Nested.
  Context {W V : WOrd} (LA : LamArith V).
  Variables (lam : W -> V) (n : nat) (L : list (lrow W NatSize)).
  Hypothesis Hn : 2 <= n.
  Hypothesis Hfin : forall r, In r L -> wle (lam (l_d r)) (la_zero LA) = false.
  Notation one := (fun _ : nat => (1 : NatSize)).
  Variables (k : nat) (T : list (crow V NatSize)).
  Hypothesis Hk : 2 <= k.
  Hypothesis Ht : tree_of lam n L k T.
  Hypothesis Hne : cluster_rows n T <> [].
  Notation CT := (cluster_rows n T).
  Let HT : condensed (Sz := NatSize) n one k T := proj1 (proj2 Ht).
  Let HSO : splits_once n T := proj2 (proj2 (proj2 Ht)).
  Let HO : ordered_tree n T := condensed_ordered _ _ _ _ HT.
  Notation sb v := (sub (children_of CT) (top_id n T) v).

  Definition level (Sel : list nat) (s : nat) : Prop :=
    k - 1 <= s < n /\ StronglySorted lt Sel /\ (forall c, In c Sel <-> is_cluster n T c /\ leaf_for n T s c).

  Lemma inside_size s s' c d : leaf_for n T s c -> leaf_for n T s' d -> descends n T c d -> s' < s.
  Proof.
    intros [_ H1] [H2 _] Hd. destruct H2 as [[-> _]|(m & Hm & Hlt)].
    - destruct (desc_bounds n one k T HT _ _ Hd) as [H _]. lia.
    - destruct Hm as (r & q & Hsp & Hc & Em).
      assert (Hspl : splits_at n T (c_parent r) m) by (exists r, q; auto).
      apply split_pair in Hsp as (j & Hp). destruct (pair_facts n one k T HT _ _ _ Hp) as (C1 & C2 & P1 & P2 & P3 & I1 & I2).
      assert (Hup : c_parent r = c \/ descends n T c (c_parent r)).
      { destruct (descends_sub n one k T HT c d) as [Hds _]. destruct (Hds Hd) as [Hin Hne'].
        destruct (sub_up (children_of CT) (top_id n T) (ct_up n one k T HT) (ct_bound n one k T HT) c d Hin Hne') as (p & Hp1 & Hp2).
        apply ch_in in Hp1 as (r0 & Hr0 & <- & E0).
        assert (E : c_parent r0 = c_parent r).
        { destruct Hc as [->| ->]; [f_equal|rewrite P1; f_equal]; apply (ct_row_eq n one k T HT); auto. }
        rewrite E in Hp2. destruct (Nat.eq_dec (c_parent r) c) as [|Hne2]; auto. right. apply (descends_sub n one k T HT). split; auto. }
      specialize (H1 _ _ Hup Hspl). lia.
  Qed.

  Lemma in_sb_cases c d : In d (sb c) -> d = c \/ descends n T c d.
  Proof. intro H. destruct (Nat.eq_dec d c) as [|Hd]; auto. right. now apply (descends_sub n one k T HT). Qed.

  Lemma level_fall Sel Sel' s s' : level Sel s -> level Sel' s' -> s <= s' -> length Sel' <= length Sel.
  Proof.
    intros (H1 & H2 & H3) (H1' & H2' & H3') Hle.
    destruct (barcode_ok n one k T HT HSO (fun x => x) (la_zero LA) (k - 1) (fun _ => 0) (fun _ => la_zero LA) Hne) as (b & _ & HB).
    assert (HD : forall v w, w = v \/ descends n T v w -> In w (sb v)).
    { intros v w [->|H]; [apply (sub_self _ _ (ct_up n one k T HT) (ct_bound n one k T HT))|]. now apply (descends_sub n one k T HT) in H. }
    apply (relate_length (fun a c => leaf_for n T s' a /\ is_cluster n T c /\ (c = a \/ descends n T a c))).
    - intros a a' d (L1 & Hd & D1) (L2 & _ & D2). destruct (some_below lam n L Hn k T Hk Ht d Hd) as (x & Hx).
      pose proof (below_up n one k T HT a d x (HD _ _ D1) Hx) as X1. pose proof (below_up n one k T HT a' d x (HD _ _ D2) Hx) as X2.
      destruct (below_nested n one k T HT a a' x X1 X2) as [H|H]; apply in_sb_cases in H as [H|H]; auto; exfalso.
      + exact (leaf_disjoint n one k T HT s' a' a L2 L1 H).
      + exact (leaf_disjoint n one k T HT s' a a' L1 L2 H).
    - apply Nat.eq_dec.
    - now apply ssorted_NoDup.
    - intros a Ha. apply H3' in Ha as [Ha HL]. destruct (leaf_exists n one k T HT (fun x => x) (la_zero LA) (k - 1) b HB s (proj1 H1) (top_id n T) a) as (d & D1 & D2 & D3); [lia|auto| |].
      + destruct (proj1 HL) as [[-> _]|(m & Hm & Hlt)]; [left; split; auto; lia|]. right. exists m. split; auto. lia.
      + exists d. split; [apply H3; auto|auto].
  Qed.

  Lemma level_inside Sel Sel' s s' c d x : level Sel s -> level Sel' s' -> length Sel' < length Sel -> In c Sel -> In d Sel' ->
    below n T c x -> below n T d x -> forall y, below n T c y -> below n T d y.
  Proof.
    intros HL HL' Hlt Hc Hd Bc Bd y By. destruct (below_nested n one k T HT c d x Bc Bd) as [H|H]; [eapply (below_up n one k T HT); eauto|].
    apply in_sb_cases in H as [->|H]; auto. exfalso.
    assert (s' < s) by (eapply inside_size; eauto; [apply HL in Hc|apply HL' in Hd]; tauto).
    pose proof (level_fall Sel' Sel s' s HL' HL ltac:(lia)). lia.
  Qed.

  (** The number of labels is the number of clusters. *)
  Lemma count_clusters Sel ls ps : right_layer LA n T Sel ls ps -> ~ In n Sel -> label_count ls (Z.of_nat (length Sel)).
  Proof.
    intros HR Hroot. pose proof (ly_labels _ _ _ _ _ _ HR) as [Hlen _]. pose proof (ly_sorted _ _ _ _ _ _ HR) as Hsorted. pose proof (ssorted_NoDup _ Hsorted) as HN.
    destruct (ly_number _ _ _ _ _ _ HR) as [ES|[_ H2]]; [exfalso; apply Hroot; rewrite ES; now left|]. split.
    - intros l Hl. apply (In_nth _ _ 0%Z) in Hl as (x & Hx & <-). rewrite Hlen in Hx.
      destruct (layer_label LA lam n L Hn Hfin k T Hk Ht Sel ls ps x HR Hx) as [->|(s & Hs & _ & ->)]; [lia|]. pose proof (position_lt Sel s HN Hs). lia.
    - set (i := length Sel - 1). assert (Hi : i < length Sel) by lia. set (c := nth i Sel 0). assert (Hc : In c Sel) by now apply nth_In.
      destruct (some_below lam n L Hn k T Hk Ht c (ly_clusters _ _ _ _ _ _ HR c Hc)) as (y & Hy).
      assert (Ey : nth y ls 0%Z = Z.of_nat (position Sel c)) by (apply (label_inside LA lam n L Hn Hfin k T Sel ls ps Hk Ht HR); auto; congruence).
      pose proof (sorted_position Sel i Hsorted Hi) as Hpi. fold c in Hpi. rewrite Hpi in Ey. replace (Z.of_nat (length Sel) - 1)%Z with (nth y ls 0%Z) by lia.
      apply nth_In. rewrite Hlen. apply (below_lt n T _ _ Hy).
  Qed.

  Lemma layers_nested (labels : list (list Z)) rows :
    (forall i, i < length labels -> exists Sel ps s, right_layer LA n T Sel (nth i labels []) ps /\ ~ In n Sel /\ level Sel s) ->
    right_tree labels rows -> nested_rows labels rows.
  Proof.
    intros Hlay (R1 & R2 & R3) r Hr Hp Hcount y Hy.
    assert (Hci : cluster_in labels (t_child_layer r) (t_child r)) by (apply R2; apply in_map_iff; exists r; auto). destruct Hci as (Hi & Hc0 & _).
    destruct (R3 r Hr) as [(_ & Hlt & (_ & Hp0 & _) & (x & Ex & Ex') & _)|(E & _)]; [|lia].
    destruct (Hlay _ Hi) as (Sc & psc & sc & HRc & Hnc & HLc). destruct (Hlay _ Hp) as (Sp & psp & sp & HRp & Hnp & HLp).
    specialize (Hcount _ _ (count_clusters _ _ _ HRc Hnc) (count_clusters _ _ _ HRp Hnp)).
    pose proof (ssorted_NoDup _ (ly_sorted _ _ _ _ _ _ HRc)) as HNc. pose proof (ssorted_NoDup _ (ly_sorted _ _ _ _ _ _ HRp)) as HNp.
    assert (Hlab : forall i Sel ps z l, i < length labels -> right_layer LA n T Sel (nth i labels []) ps -> label_of labels i z = l -> (0 <= l)%Z ->
      exists s, In s Sel /\ below n T s z /\ l = Z.of_nat (position Sel s)).
    { intros i Sel ps z l Hil HR El Hl. pose proof (ly_labels _ _ _ _ _ _ HR) as [Hlen _]. unfold label_of in El.
      destruct (le_lt_dec (length (nth i labels [])) z) as [Hz|Hz]; [rewrite nth_overflow in El by auto; lia|].
      rewrite (nth_indep _ _ 0%Z) in El by auto. rewrite Hlen in Hz. destruct (layer_label LA lam n L Hn Hfin k T Hk Ht Sel _ ps z HR Hz) as [E|(s & Hs & Hb & E)]; [lia|].
      exists s. split; auto. split; auto. congruence. }
    destruct (Hlab _ _ _ _ _ Hi HRc Ex' Hc0) as (c & Hc & Bc & Ec). destruct (Hlab _ _ _ _ _ Hi HRc Hy Hc0) as (c' & Hc' & Bc' & Ec').
    assert (c' = c) as -> by (apply (position_inj Sc); auto; lia).
    destruct (Hlab _ _ _ _ _ Hp HRp Ex Hp0) as (d & Hd & Bd & Ed).
    assert (By : below n T d y) by (eapply (level_inside Sc Sp sc sp c d x); eauto; lia).
    pose proof (ly_labels _ _ _ _ _ _ HRp) as [Hlen _]. unfold label_of. rewrite (nth_indep _ _ 0%Z) by (rewrite Hlen; apply (below_lt n T _ _ By)).
    rewrite Ed. apply (label_inside LA lam n L Hn Hfin k T Sp _ psp Hk Ht HRp); auto. congruence.
  Qed.
End Nested.

(** ** The tree of a run *)
Section Run.
  Context {W V P : WOrd} {D : Type} (LA : LamArith V).
  Variables (search_lam lam : W -> V) (death_of : V -> D) (dzero : D) (garbage : nat -> nat) (garbage_lambda : nat -> D).
  Variables (pzero : P) (accumulate : P -> nat -> nat -> D -> P).
  Variables (argsort : list P -> list nat) (argsort_counts : list Z -> list nat).
  Variables (n : nat) (L : list (lrow W NatSize)).
  Hypothesis HG : dendrogram n L.
  Hypothesis HS : sizes_are (Sz := NatSize) n (fun _ => 1) L.
  Hypothesis HH : heights_sorted L.
  Hypothesis Hlam : forall x y, wle x y = true -> wle (lam y) (lam x) = true.
  Hypothesis Hpos : forall x, wle (la_zero LA) (lam x) = true.
  Hypothesis HLL : LamLaws LA.
  Hypothesis Hsort : argsorts argsort.
  Hypothesis HsortZ : argsorts_Z argsort_counts.
  Hypothesis Hfin : forall r, In r L -> wle (lam (l_d r)) (la_zero LA) = false.
  Notation one := (fun _ : nat => (1 : NatSize)).
  Notation run := (layers_from_linkage_tree search_lam lam LA death_of dzero garbage garbage_lambda pzero accumulate argsort argsort_counts L n).

  Lemma stack_layers T b threshold m max_layers (base : layer V P) ys : layer_stack LA pzero accumulate n T b threshold m max_layers base ys ->
    ys <> [] /\ forall y, In y ys -> y = base \/ exists s Sel, m <= s < n /\ (forall c, In c Sel <-> is_cluster n T c /\ leaf_for n T s c) /\ ~ In n Sel /\
      right_layer LA n T Sel (y_labels y) (y_strengths y).
  Proof.
    intros (sizes & more & _ & Hs & HP & HF & _). split.
    - intros ->. apply Permutation_nil in HP. discriminate.
    - intros y Hy. apply (Permutation_in _ HP) in Hy as [<-|Hy]; auto. right.
      clear HP. induction HF as [|s y' sizes more Hl HF IH]; [destruct Hy|]. destruct Hy as [->|Hy].
      + destruct Hl as [(Sel & H1 & H2 & H3) _]. exists s, Sel. split; auto. apply Hs. now left.
      + apply IH; auto. intros t Ht. apply Hs. now right.
  Qed.

  Lemma stack_tree T b threshold m max_layers (base : layer V P) ys argsort' : 2 <= n -> 2 <= m -> tree_of lam n L m T -> argsorts_Z argsort' ->
    length (y_labels base) = n -> gap_free (y_labels base) ->
    layer_stack LA pzero accumulate n T b threshold m max_layers base ys ->
    exists rows d, build_layer_cluster_tree argsort' (map y_labels ys) = Ok d /\ right_tree (map y_labels ys) rows /\ right_dictionary rows d.
  Proof.
    intros Hn Hm Ht Ha Hlen Hgap Hst. destruct (stack_layers _ _ _ _ _ _ _ Hst) as [Hne Hy].
    apply (layer_tree_ok argsort' (map y_labels ys) n); auto; [|lia| |].
    - intro E. apply map_eq_nil in E. auto.
    - intros l Hl. apply in_map_iff in Hl as (y & <- & Hin). destruct (Hy y Hin) as [->|(s & Sel & _ & _ & _ & HR)]; auto. apply (ly_labels _ _ _ _ _ _ HR).
    - intros l Hl. apply in_map_iff in Hl as (y & <- & Hin). destruct (Hy y Hin) as [->|(s & Sel & _ & _ & _ & HR)]; auto.
      eapply (layer_gap_free LA lam n L Hn Hfin m T Hm Ht); eauto.
  Qed.

  Lemma run_tree base_m threshold max_layers argsort' : 2 <= n -> 2 <= base_m -> argsorts_Z argsort' ->
    exists ys rows d, run base_m None threshold max_layers = Ok ys /\ build_layer_cluster_tree argsort' (map y_labels ys) = Ok d /\
      right_tree (map y_labels ys) rows /\ right_dictionary rows d /\ nested_rows (map y_labels ys) rows.
  Proof.
    intros Hn Hm Ha. destruct (layers_ok LA search_lam lam death_of dzero garbage garbage_lambda pzero accumulate argsort argsort_counts n L HG HS HH Hlam Hpos HLL Hsort HsortZ Hn base_m threshold max_layers Hm)
      as (T & Sel & b & base & ys & Er & Ht & HSi & HR & Hp0 & HB & Hst).
    destruct (stack_tree T b threshold base_m max_layers base ys argsort' Hn Hm Ht Ha) as (rows & d & E & HT & HD); auto.
    { apply (ly_labels _ _ _ _ _ _ HR). }
    { eapply (layer_gap_free LA lam n L Hn Hfin base_m T Hm Ht); eauto. }
    exists ys, rows, d. split; auto. split; auto. split; auto. split; auto.
    destruct (stack_layers _ _ _ _ _ _ _ Hst) as [Hys Hy].
    pose proof Ht as (_ & HTc & _ & HSO). 
    destruct (cluster_rows n T) as [|r0 l0] eqn:EC.
    - (* one layer only *)
      destruct Hst as (sizes & more & _ & _ & HP & HF & _). intros r Hr Hpl _. exfalso.
      assert (Hmore : more = []).
      { destruct more as [|y more]; auto. exfalso. inversion HF as [|s y' sizes' more' Hl HF' E1 E2]; subst.
        destruct Hl as [(Sel' & H1 & H2 & HR') _]. destruct (ly_number _ _ _ _ _ _ HR') as [->|[_ H3]]; [apply H2; now left|].
        destruct Sel' as [|c l]; [cbn in H3; lia|]. assert (Hc : is_cluster n T c) by (apply H1; now left).
        apply (is_cluster_iff n one base_m T HTc) in Hc. unfold top_id in Hc. rewrite EC in Hc. cbn in Hc. assert (c = n) by lia. subst c. apply H2. now left. }
      subst more. apply Permutation_length in HP. rewrite map_length, HP in Hpl. cbn in Hpl.
      destruct HT as (_ & _ & HT). destruct (HT r Hr) as [(_ & H & _)|(E' & _)]; [lia|]. rewrite E', map_length, HP in Hpl. cbn in Hpl. lia.
    - assert (Hne : cluster_rows n T <> []) by (rewrite EC; discriminate).
      apply (layers_nested LA lam n L Hn Hfin base_m T Hm Ht Hne); auto.
      intros i Hi. rewrite map_length in Hi. destruct (nth_error ys i) as [y|] eqn:Ei; [|apply nth_error_None in Ei; lia].
      assert (En : nth i (map y_labels ys) [] = y_labels y) by (apply nth_error_nth; rewrite nth_error_map, Ei; auto). rewrite En.
      assert (Hrb : base_m <= n /\ forall c, leaf_cluster n T c <-> is_cluster n T c /\ leaf_for n T (base_m - 1) c).
      { assert (Hsz : forall d m, splits_at n T d m -> base_m <= m).
        { intros d0 m (r & q & Hsp & _ & ->). apply split_pair in Hsp as (j & Hp). destruct (pair_facts n one base_m T HTc _ _ _ Hp) as (C1 & C2 & _ & _ & P3 & I1 & I2).
          pose proof (cluster_size_le n one base_m T HTc r (ct_in n T r I1) ltac:(lia)). pose proof (cluster_size_le n one base_m T HTc q (ct_in n T q I2) ltac:(lia)).
          apply Nat.min_glb; auto. }
        assert (Hbn : base_m <= n).
        { assert (Hr0 : In r0 (cluster_rows n T)) by (rewrite EC; now left).
          pose proof (ct_child_in n one base_m T HTc r0 Hr0) as Hc0.
          destruct (ct_sizes _ _ _ _ HTc r0 (ct_in n T r0 Hr0) ltac:(lia)) as (Hsz0 & xs & HNx & Hxs & Ec). rewrite ssum_ones in Ec. apply Nat.leb_le in Hsz0. rewrite Ec in Hsz0.
          eapply Nat.le_trans; [exact Hsz0|]. rewrite <- (seq_length n 0). apply NoDup_incl_length; auto. intros x Hx. apply in_seq. apply Hxs in Hx. apply below_lt in Hx. lia. }
        split; auto. intro c. split.
        - intro Hl. pose proof Hl as [Hc Hrow]. split; auto. split.
          + destruct (cluster_made n one base_m T HTc c Hc) as [->|(m & Hmm)]; [left; split; auto; lia|]. right. exists m. split; auto.
            destruct Hmm as (r & q & Hsp & _ & Em). assert (splits_at n T (c_parent r) m) by (exists r, q; auto). specialize (Hsz _ _ H). lia.
          + intros e m He (r & q & Hsp & Hpa & Em). exfalso. apply split_pair in Hsp as (j & Hp). destruct (pair_facts n one base_m T HTc _ _ _ Hp) as (C1 & C2 & _ & _ & P3 & I1 & I2).
            destruct He as [->|He]; [apply (Hrow r (ct_in n T r I1)); auto; lia|].
            destruct (desc_cases n T c e He) as (r' & Hr' & E' & _). pose proof (ct_child_in n one base_m T HTc r' Hr'). apply (Hrow r' (ct_in n T r' Hr')); auto. lia.
        - intros [Hc [_ Hl]]. split; auto. intros r Hr Hge Epc. destruct (row_pair n one base_m T HTc r (in_ct n T r Hr Hge)) as (j & r1 & q1 & Hp & Hor).
          destruct (pair_facts n one base_m T HTc _ _ _ Hp) as (C1 & C2 & P1 & _).
          assert (Hspl : splits_at n T c (Nat.min (c_size r1) (c_size q1))).
          { exists r1, q1. split; [apply split_pair; eauto|]. split; auto. destruct Hor as [->| ->]; congruence. }
          pose proof (Hsz _ _ Hspl). pose proof (Hl c _ (or_introl eq_refl) Hspl). lia. }
      destruct Hrb as [Hbn Hleaf]. destruct (Hy y (nth_error_In _ _ Ei)) as [->|(s & Sel' & Hs & H1 & H2 & HR')].
      + exists Sel, (y_strengths base), (base_m - 1). split; auto. split.
        * intro Hr. apply HSi in Hr as [_ Hrow]. destruct (root_children n one base_m T HTc Hne) as (r & Hr & Ep). pose proof (ct_child_in n one base_m T HTc r Hr).
          apply (Hrow r (ct_in n T r Hr)); auto. lia.
        * split; [lia|]. split; [apply (ly_sorted _ _ _ _ _ _ HR)|]. intro c. rewrite HSi. apply Hleaf.
      + exists Sel', (y_strengths y), s. split; auto. split; auto. split; [lia|]. split; [apply (ly_sorted _ _ _ _ _ _ HR')|]. exact H1.
  Qed.
End Run.

Lemma run_number_tree {W V P : WOrd} {D : Type} (LA : LamArith V) (search_lam lam : W -> V) (death_of : V -> D) (dzero : D)
    (garbage : nat -> nat) (garbage_lambda : nat -> D) (pzero : P) (accumulate : P -> nat -> nat -> D -> P)
    (argsort : list P -> list nat) (argsort_counts : list Z -> list nat) (n : nat) (L : list (lrow W NatSize)) :
  dendrogram n L -> sizes_are (Sz := NatSize) n (fun _ => 1) L -> heights_sorted L ->
  (forall x y, wle x y = true -> wle (lam y) (lam x) = true) -> (forall x, wle (la_zero LA) (lam x) = true) ->
  (forall x y, wle x y = true -> wle (search_lam y) (search_lam x) = true) -> (forall x, wle (la_zero LA) (search_lam x) = true) ->
  LamLaws LA -> argsorts argsort -> argsorts_Z argsort_counts -> 4 <= n ->
  (forall r, In r L -> wle (lam (l_d r)) (la_zero LA) = false) -> (forall r, In r L -> wle (search_lam (l_d r)) (la_zero LA) = false) ->
  forall (base_m k : nat) (threshold : Q) (max_layers : nat) (argsort' : list Z -> list nat), argsorts_Z argsort' ->
  exists ys rows d,
    layers_from_linkage_tree search_lam lam LA death_of dzero garbage garbage_lambda pzero accumulate argsort argsort_counts L n
      base_m (Some k) threshold max_layers = Ok ys /\
    build_layer_cluster_tree argsort' (map y_labels ys) = Ok d /\ right_tree (map y_labels ys) rows /\ right_dictionary rows d.
Proof.
  intros HG HS HH Hlam Hpos Hlam' Hpos' HLL Hsort HsortZ Hn Hfin Hfin' base_m k threshold max_layers argsort' Ha.
  destruct (layers_number_ok LA search_lam lam death_of dzero garbage garbage_lambda pzero accumulate argsort argsort_counts n L HG HS HH Hlam Hpos Hlam' Hpos' HLL Hsort HsortZ Hn Hfin' base_m k threshold max_layers)
    as (j & T0 & Sel & m & T & b & base & ys & Er & Hb & Ht0 & HSi & HR & _ & Hm & _ & Ht & _ & Hst).
  assert (Hj : 2 <= j) by (destruct Hb as [[Hj _] _]; exact Hj).
  destruct (stack_tree LA lam pzero accumulate n L Hfin T b threshold m max_layers base ys argsort' ltac:(lia) Hm Ht Ha) as (rows & d & E & HT & HD); auto.
  - apply (ly_labels _ _ _ _ _ _ HR).
  - eapply (layer_gap_free LA search_lam n L ltac:(lia) Hfin' j T0 Hj Ht0); eauto.
  - exists ys, rows, d. auto.
Qed.
