(** The base layer for a requested number of clusters. *)
From Coq Require Import List Arith Lia Bool ZArith QArith Sorted Permutation.
From Verif Require Import Prelude Order Size Forest P_Sort M_Linkage S_Linkage M_Condense S_Condense P_Condense M_Select S_Select P_CTree P_Below P_SelectTop
  M_Labels S_Labels P_Labels P_LabelsTop P_LabelsProps M_Layers S_Layers P_Barcode P_DendroNodes P_TopNodes P_LayersRun P_LayerSearch P_LayersTop.
Import ListNotations.
Local Open Scope nat_scope.

Lemma two_labels (ls : list Z) (c : Z) x y : (0 <= c)%Z -> x <> y -> x < length ls -> y < length ls -> nth x ls 0%Z = c -> nth y ls 0%Z = c ->
  2 <= length (filter (Z.eqb c) (filter (fun l => (0 <=? l)%Z) ls)).
Proof.
  intros Hc. assert (H1 : forall ls z, z < length ls -> nth z ls 0%Z = c -> 1 <= length (filter (Z.eqb c) (filter (fun l => (0 <=? l)%Z) ls))).
  { clear ls x y. induction ls as [|a ls IH]; intros z Hz E; [cbn in Hz; lia|]. cbn [filter]. destruct z as [|z]; cbn in E.
    - subst. destruct (Z.leb_spec 0 c); [|lia]. cbn [filter]. rewrite Z.eqb_refl. cbn. lia.
    - specialize (IH z ltac:(cbn in Hz; lia) E). destruct (0 <=? a)%Z; auto. cbn [filter]. destruct (c =? a)%Z; cbn; lia. }
  revert x y. induction ls as [|a ls IH]; intros x y Hne Hx Hy Ex Ey; [cbn in Hx; lia|]. cbn in Hx, Hy. cbn [filter].
  destruct x as [|x], y as [|y]; cbn in Ex, Ey; [congruence| | |].
  - subst a. destruct (Z.leb_spec 0 c); [|lia]. cbn [filter]. rewrite Z.eqb_refl. specialize (H1 ls y ltac:(lia) Ey). cbn. lia.
  - subst a. destruct (Z.leb_spec 0 c); [|lia]. cbn [filter]. rewrite Z.eqb_refl. specialize (H1 ls x ltac:(lia) Ex). cbn. lia.
  - specialize (IH x y ltac:(lia) ltac:(lia) ltac:(lia) Ex Ey). destruct (0 <=? a)%Z; auto. cbn [filter]. destruct (c =? a)%Z; cbn; lia.
Qed.

Lemma fold_min_ge k l a : k <= a -> (forall x, In x l -> k <= x) -> k <= fold_left Nat.min l a.
Proof.
  revert a. induction l as [|x l IH]; intros a Ha H; auto. cbn. apply IH; [|intros; apply H; now right]. specialize (H x (or_introl eq_refl)). lia.
Qed.

Lemma fold_min_le l a : fold_left Nat.min l a <= a /\ forall x, In x l -> fold_left Nat.min l a <= x.
Proof.
  revert a. induction l as [|y l IH]; intro a; cbn; [split; [auto|tauto]|]. destruct (IH (Nat.min a y)) as [H1 H2].
  split; [lia|]. intros x [->|Hx]; [lia|auto].
Qed.

Lemma fold_min_in l a : fold_left Nat.min l a = a \/ In (fold_left Nat.min l a) l.
Proof.
  revert a. induction l as [|y l IH]; intro a; cbn; auto. destruct (IH (Nat.min a y)) as [H|H]; auto. rewrite H.
  destruct (Nat.min_dec a y) as [E|E]; rewrite E; auto.
Qed.

Lemma filter_eqb_pos ls l : (0 <= l)%Z -> filter (Z.eqb l) (filter (fun l => (0 <=? l)%Z) ls) = filter (Z.eqb l) ls.
Proof.
  intro Hl. induction ls as [|a ls IH]; auto. cbn [filter]. destruct (Z.leb_spec 0 a); cbn [filter]; rewrite IH; auto.
  destruct (Z.eqb_spec l a); auto. lia.
Qed.

Lemma filter_length_le {A} (f : A -> bool) l : length (filter f l) <= length l.
Proof. induction l as [|a l IH]; cbn; auto. destruct (f a); cbn; lia. Qed.

Lemma sorted_position S c : StronglySorted lt S -> c < length S -> position S (nth c S 0) = c.
Proof.
  intros Hs Hc. pose proof (ssorted_NoDup _ Hs) as HN.
  assert (Hsort : nsorted (fun c => c) S) by (unfold nsorted; clear - Hs; induction Hs as [|a l H IH Hf]; constructor; auto; eapply Forall_impl; [|exact Hf]; cbn; lia).
  apply (position_sorted S Hsort HN). now apply nth_error_nth'.
Qed.

Lemma heights_le {W : WOrd} {Sz} (L : list (lrow W Sz)) i j r q : heights_sorted L -> i < j -> nth_error L i = Some r -> nth_error L j = Some q -> wle (l_d r) (l_d q) = true.
Proof.
  unfold heights_sorted. revert i j. induction L as [|a L IH]; intros i j HH Hij Hi Hj; [destruct i; discriminate|].
  cbn in HH. apply StronglySorted_inv in HH as [H1 Hf]. destruct j as [|j]; [lia|]. cbn in Hj. destruct i as [|i]; cbn in Hi.
  - injection Hi as ->. rewrite Forall_forall in Hf. apply Hf, in_map. eapply nth_error_In, Hj.
  - apply (IH i j); auto. lia.
Qed.

Section Base.
  Context {W V : WOrd} (LA : LamArith V).
  Variables (lam : W -> V) (n : nat) (L : list (lrow W NatSize)).
  Hypothesis HG : dendrogram n L.
  Hypothesis HS : sizes_are (Sz := NatSize) n (fun _ => 1) L.
  Hypothesis HH : heights_sorted L.
  Hypothesis Hlam : forall x y, wle x y = true -> wle (lam y) (lam x) = true.
  Hypothesis Hn : 2 <= n.
  (** No infinite heights. *)
  Hypothesis Hfin : forall r, In r L -> wle (lam (l_d r)) (la_zero LA) = false.
  Notation one := (fun _ : nat => (1 : NatSize)).

  Variables (k : nat) (T : list (crow V NatSize)) (Sel : list nat) (ls : list Z) (ps : list V).
  Hypothesis Hk : 2 <= k.
  Hypothesis Ht : tree_of lam n L k T.
  Hypothesis HSi : forall c, In c Sel <-> leaf_cluster n T c.
  Hypothesis HR : right_layer LA n T Sel ls ps.

  Let HT : condensed (Sz := NatSize) n one k T := proj1 (proj2 Ht).
  Let HO : ordered_tree n T := condensed_ordered _ _ _ _ HT.

  Lemma not_zero r : In r T -> ~ at_zero (la_zero LA) r.
  Proof.
    intros Hr [H _]. pose proof Ht as (_ & _ & (top & _ & _ & F1 & F2) & _). destruct (le_lt_dec n (c_child r)) as [Hc|Hc].
    - destruct (F2 r Hr Hc) as (i & q & _ & Hi & _ & E & _). apply nth_error_In in Hi. specialize (Hfin q Hi). congruence.
    - destruct (F1 r Hr Hc) as (i & q & v & _ & Hi & E & _). apply nth_error_In in Hi. specialize (Hfin q Hi). congruence.
  Qed.

  Lemma S_ge' s : In s Sel -> n <= s.
  Proof. intro H. apply (ly_clusters _ _ _ _ _ _ HR) in H. destruct H as [->|[H _]]; auto. Qed.

  Lemma label_inside s x : In s Sel -> s <> n -> below n T s x -> nth x ls 0%Z = Z.of_nat (position Sel s).
  Proof.
    intros Hs Hne Hb. pose proof (below_lt n T _ _ Hb) as Hx. destruct (sample_row n one k T HT x Hx) as (r & Hr & E).
    destruct (ly_labels _ _ _ _ _ _ HR) as [_ HL]. specialize (HL r Hr ltac:(lia)). destruct HL as [_ HL]. destruct (HL (not_zero r Hr)) as (t & Hh & H1 & _).
    rewrite E in *. assert (Hh' : home n Sel T x s) by (apply (disjoint_home n T Sel HO ltac:(lia) (ly_clusters _ _ _ _ _ _ HR)); auto; apply (ly_disjoint _ _ _ _ _ _ HR)).
    assert (t = s) as -> by (eapply (home_det n T Sel HO S_ge'); eauto). auto.
  Qed.

  (** Two samples leave the root cluster at the highest density, if nothing
      splits. *)
  Lemma bottom_pair : leaf_cluster n T n -> exists q1 q2, In q1 T /\ In q2 T /\ c_child q1 < n /\ c_child q2 < n /\ c_child q1 <> c_child q2 /\
    forall q, In q T -> wle (c_lam q) (c_lam q1) = true /\ wle (c_lam q) (c_lam q2) = true.
  Proof.
    intro Hleaf. pose proof Ht as (_ & _ & (top & F1 & F2 & F3 & F4) & _).
    pose proof (proj1 (leaf_top n L one k lam T HG HS Hn HT top F1 F2 F3 F4 n (proj1 Hleaf)) Hleaf) as [_ Hns]. rewrite F1 in Hns.
    assert (Hrows : forall q, In q T -> c_parent q = n /\ c_child q < n).
    { intros q Hq. destruct (le_lt_dec n (c_child q)) as [Hc|Hc].
      - exfalso. destruct (F4 q Hq Hc) as (i & r & Hsg & Hi & Hsp & _). apply (Hns i r); auto. apply root_reaches; auto. eapply row_node_le; eauto.
      - split; auto. pose proof (parent_is_cluster n one k T Hn HT top F1 q Hq) as [E|(_ & r & Hr & E)]; auto. exfalso.
        destruct (le_lt_dec n (c_child r)) as [Hc'|Hc'].
        + destruct (F4 r Hr Hc') as (i & r' & Hsg & Hi & Hsp & _). apply (Hns i r'); auto. apply root_reaches; auto. eapply row_node_le; eauto.
        + pose proof (parent_ge n one k T HT q Hq). lia. }
    pose proof (len_n n L HG) as HL.
    set (seg := segment n L one (k : NatSize) None (2 * n - 2)).
    (* go down to a merge of two small parts *)
    assert (Hdown : forall v, seg v -> n <= v -> v <= 2 * n - 2 -> exists j r, seg (n + j) /\ nth_error L j = Some r /\ small n L one (k : NatSize) (l_a r) /\ small n L one (k : NatSize) (l_b r)).
    { intro v. induction v as [v IH] using lt_wf_ind. intros Hv Hge Hle.
      destruct (nth_error L (v - n)) as [r|] eqn:Er; [|apply nth_error_None in Er; lia].
      assert (Ev : v = n + (v - n)) by lia.
      pose proof (ch_lt n L HG _ _ (l_a r) Er (or_introl eq_refl)) as Ha. pose proof (ch_lt n L HG _ _ (l_b r) Er (or_intror eq_refl)) as Hb.
      assert (Hsp : ~ true_split n L one (k : NatSize) None r).
      { apply (Hns (v - n) r); auto. rewrite <- Ev. apply root_reaches; auto. }
      assert (Hgo : forall c, c = l_a r \/ c = l_b r -> large n L one (k : NatSize) c -> exists j r, seg (n + j) /\ nth_error L j = Some r /\ small n L one (k : NatSize) (l_a r) /\ small n L one (k : NatSize) (l_b r)).
      { intros c Hc Hl. assert (Hcv : c < v) by (destruct Hc; lia). apply (IH c Hcv).
        - eapply seg_step; eauto. rewrite <- Ev. exact Hv.
        - apply (big_node n L one (k : NatSize)); auto; [|lia]. intros x _. apply Nat.leb_gt. lia.
        - lia. }
      destruct (weight_ex n L one (l_a r)) as (s & Hs); [lia|]. destruct (weight_ex n L one (l_b r)) as (t & Ht'); [lia|].
      destruct (sle (k : NatSize) s) eqn:E1; [apply (Hgo (l_a r)); auto; exists s; auto|].
      destruct (sle (k : NatSize) t) eqn:E2; [apply (Hgo (l_b r)); auto; exists t; auto|].
      exists (v - n), r. rewrite <- Ev. split; auto. split; auto. split; [exists s|exists t]; auto. }
    destruct (Hdown (2 * n - 2)) as (j & r & Hsj & Hj & Hsa & Hsb); [constructor|lia|lia|].
    (* every row leaves at this merge or above *)
    assert (Hrow : forall q, In q T -> exists i m, nth_error L i = Some m /\ c_lam q = lam (l_d m) /\ reach n L (n + i) (n + j) /\
        ((exists v, (v = l_a m \/ v = l_b m) /\ small n L one (k : NatSize) v /\ under n L v (c_child q)))).
    { intros q Hq. destruct (Hrows q Hq) as [Ep Hc]. destruct (F3 q Hq Hc) as (i & m & v & Hsg & Hi & El & Hv & Hsm & Hu). rewrite Ep, F1 in Hsg.
      exists i, m. split; auto. split; auto. split; [|eauto].
      destruct (seg_chain n L HG one k _ _ Hsg _ Hsj) as [H|H]; auto.
      destruct (Nat.eq_dec (n + j) (n + i)) as [->|Hne]; [constructor|]. exfalso.
      destruct (reach_first n L _ _ H Hne) as (j' & r' & c & Ej & Hj' & Hc' & Hr). assert (j' = j) as -> by lia. assert (r' = r) as -> by congruence.
      assert (Hlg : large n L one (k : NatSize) (n + i)).
      { inversion Hsg as [E|i' m' c' Hs' Hi' Hn' Hcc Hlg E]; auto. exfalso. apply reach_le in H; auto. pose proof (row_node_le n L HG _ _ Hj). lia. }
      assert (Hlc : large n L one (k : NatSize) c) by (eapply (large_up n L one HG HS); eauto; eapply ch_le; eauto).
      destruct Hc' as [->| ->]; [exact (small_large n L one k _ Hsa Hlc)|exact (small_large n L one k _ Hsb Hlc)]. }
    assert (Hmax : forall q q', In q T -> In q' T -> (under n L (n + j) (c_child q)) -> wle (c_lam q') (c_lam q) = true).
    { intros q q' Hq Hq' Hu. destruct (Hrow q Hq) as (i & m & Hi & -> & Hr & v & Hv & Hsm & Hvu).
      destruct (Hrow q' Hq') as (i' & m' & Hi' & -> & Hr' & _). apply Hlam.
      (* row q leaves exactly at the bottom merge *)
      assert (i = j) as ->.
      { destruct (Nat.eq_dec (n + i) (n + j)) as [|Hne]; [lia|]. exfalso.
        destruct (reach_first n L _ _ Hr Hne) as (i0 & m0 & c & E0 & Hi0 & Hc & Hrc). assert (i0 = i) as -> by lia. assert (m0 = m) as -> by congruence.
        assert (Hcu : under n L c (c_child q)) by (eapply under_up; eauto).
        assert (c = v).
        { destruct Hc as [->| ->], Hv as [->| ->]; auto; exfalso; eapply (siblings_apart n L HG); eauto. }
        subst c. assert (Hlj : large n L one (k : NatSize) (n + j)).
        { inversion Hsj as [E|i1 m1 c' Hs' Hi1 Hn' Hcc Hlg E]; auto. exfalso. apply reach_le in Hrc; auto. pose proof (ch_le n L HG _ _ _ Hi Hv). pose proof (ch_lt n L HG _ _ _ Hi Hv). pose proof (row_node_le n L HG _ _ Hi). lia. }
        apply (small_large n L one k _ Hsm). apply (large_up n L one HG HS k _ _ Hrc); auto. eapply ch_le; eauto. }
      assert (m = r) as -> by congruence. apply reach_le in Hr'; auto.
      unfold heights_sorted in HH.
      destruct (Nat.eq_dec j i') as [->|Hne]; [assert (r = m') as -> by congruence; apply wle_refl|].
      assert (Hlt : j < i') by lia. clear - HH Hj Hi' Hlt.
      apply (heights_le L j i' r m' HH Hlt Hj Hi'). }
    destruct (some_under n L HG (l_a r) (ch_le n L HG j r _ Hj (or_introl eq_refl))) as (x & Hx).
    destruct (some_under n L HG (l_b r) (ch_le n L HG j r _ Hj (or_intror eq_refl))) as (y & Hy).
    assert (Hux : under n L (n + j) x) by (eapply under_a; eauto). assert (Huy : under n L (n + j) y) by (eapply under_b; eauto).
    assert (Hxn : x < n) by (apply (under_reach n L) in Hx; tauto). assert (Hyn : y < n) by (apply (under_reach n L) in Hy; tauto).
    destruct (sample_row n one k T HT x Hxn) as (q1 & Q1 & E1). destruct (sample_row n one k T HT y Hyn) as (q2 & Q2 & E2).
    exists q1, q2. rewrite E1, E2. split; auto. split; auto. split; auto. split; auto. split.
    - intros ->. eapply (siblings_apart n L HG); eauto.
    - intros q Hq. split; apply Hmax; auto; congruence.
  Qed.

  Lemma base_size d : exists m,
    match filter (fun l => (0 <=? l)%Z) ls with
    | [] => Ok d
    | _ => let* top := zmax (filter (fun l => (0 <=? l)%Z) ls) in
           Ok (Nat.max 1 (fold_left Nat.min (map (fun c => length (filter (Z.eqb (Z.of_nat c)) (filter (fun l => (0 <=? l)%Z) ls))) (seq 0 (Z.to_nat top + 1))) (length (filter (fun l => (0 <=? l)%Z) ls))))
    end = Ok m /\ 2 <= m /\ smallest_cluster ls m.
  Proof.
    destruct (ly_labels _ _ _ _ _ _ HR) as [Hlen HL]. pose proof (ly_sorted _ _ _ _ _ _ HR) as Hsorted. pose proof (ssorted_NoDup _ Hsorted) as HN.
    (* each label below the largest is carried by two samples *)
    assert (Htwo : exists N, 0 < N /\ (forall l, In l ls -> (l < Z.of_nat N)%Z) /\ forall c, c < N -> exists x y, x <> y /\ x < n /\ y < n /\ nth x ls 0%Z = Z.of_nat c /\ nth y ls 0%Z = Z.of_nat c).
    { destruct (ly_number _ _ _ _ _ _ HR) as [ES|[Hroot HS2]].
      - exists 1. split; [lia|]. 
        assert (Hlab : forall r, In r T -> c_child r < n -> (dense_enough n T None r -> nth (c_child r) ls 0%Z = 0%Z) /\ (nth (c_child r) ls 0%Z < 1)%Z).
        { intros r Hr Hc. destruct (HL r Hr Hc) as [_ H]. destruct (H (not_zero r Hr)) as (t & Hh & _ & _ & H3).
          assert (t = n).
          { assert (Hh' : home n Sel T (c_child r) n).
            { apply (disjoint_home n T Sel HO ltac:(lia) (ly_clusters _ _ _ _ _ _ HR)); [apply (ly_disjoint _ _ _ _ _ _ HR)|rewrite ES; now left|]. apply (below_root n one k T HT). auto. }
            eapply (home_det n T Sel HO S_ge'); eauto. }
          destruct (H3 H0 ES) as [H4 H5]. split; auto. 
          (* the label is 0 or -1: decide the maximum *)
          destruct (Z_lt_le_dec (nth (c_child r) ls 0%Z) 1%Z) as [|Hge]; auto. exfalso.
          assert (Hnd : ~ dense_enough n T None r) by (intro Hd; rewrite (H4 Hd) in Hge; lia). rewrite (H5 Hnd) in Hge. lia. }
        split.
        + intros l Hl. apply (In_nth _ _ 0%Z) in Hl as (x & Hx & <-). rewrite Hlen in Hx. destruct (sample_row n one k T HT x Hx) as (r & Hr & E). 
          destruct (Hlab r Hr ltac:(lia)) as [_ H]. rewrite E in H. lia.
        + intros c Hc. assert (c = 0) as -> by lia. destruct (bottom_pair) as (q1 & q2 & Q1 & Q2 & C1 & C2 & Hne & Hmax); [apply HSi; rewrite ES; now left|].
          exists (c_child q1), (c_child q2). split; auto. split; auto. split; auto. split; apply Hlab; auto; intros q Hq _; apply Hmax; auto.
      - exists (length Sel). split; [lia|]. split.
        + intros l Hl. apply (In_nth _ _ 0%Z) in Hl as (x & Hx & <-). rewrite Hlen in Hx. destruct (sample_row n one k T HT x Hx) as (r & Hr & E).
          destruct (HL r Hr ltac:(lia)) as [_ H]. destruct (H (not_zero r Hr)) as (t & Hh & H1 & H2 & _). rewrite E in *.
          destruct (Nat.eq_dec t n) as [->|Hne]; [rewrite H2; auto; [lia|intros ->; now apply Hroot; left]|].
          rewrite H1 by auto. assert (Hts : In t Sel).
          { clear - Hh Hne. induction Hh as [|v Hv|r t Hr Hns Hnn Hh IH]; auto. congruence. }
          pose proof (position_lt Sel t HN Hts). lia.
        + intros c Hc. set (s := nth c Sel 0). assert (Hs : In s Sel) by now apply nth_In. assert (Hsn : s <> n) by congruence.
          pose proof (ly_clusters _ _ _ _ _ _ HR s Hs) as [E|(Hge & r & Hr & E)]; [congruence|].
          destruct (ct_sizes _ _ _ _ HT r Hr ltac:(lia)) as (Hsz & xs & HNx & Hxs & Ec). rewrite ssum_ones in Ec. apply Nat.leb_le in Hsz. rewrite E in Hxs. rewrite Ec in Hsz.
          destruct xs as [|x [|y xs]]; [cbn in Hsz; lia|cbn in Hsz; lia|].
          assert (Hx : below n T s x) by (apply Hxs; now left). assert (Hy : below n T s y) by (apply Hxs; right; now left).
          exists x, y. split; [intros ->; apply NoDup_cons_iff in HNx as [HNx _]; apply HNx; now left|].
          split; [apply (below_lt n T _ _ Hx)|]. split; [apply (below_lt n T _ _ Hy)|].
          assert (Hpos : position Sel s = c) by now apply sorted_position.
          split; rewrite (label_inside s); auto; congruence. }
    destruct Htwo as (N & HN0 & Hbound & Hpair).
    set (ls' := filter (fun l => (0 <=? l)%Z) ls).
    assert (Hcount : forall c, c < N -> 2 <= length (filter (Z.eqb (Z.of_nat c)) ls')).
    { intros c Hc. destruct (Hpair c Hc) as (x & y & H1 & H2 & H3 & H4 & H5). apply (two_labels ls (Z.of_nat c) x y); auto; lia. }
    assert (Hlen2 : 2 <= length ls').
    { eapply Nat.le_trans; [exact (Hcount 0 HN0)|apply filter_length_le]. }
    destruct ls' as [|a l] eqn:El; [cbn in Hlen2; lia|]. rewrite <- El in *.
    destruct (zmax_ok ls') as (top & Et & Htop & Hmaxtop); [rewrite El; discriminate|]. rewrite Et. cbn [bind]. eexists. split; [reflexivity|].
    assert (Htop' : (top < Z.of_nat N)%Z) by (apply Hbound; unfold ls' in Htop; apply filter_In in Htop; tauto).
    pose proof (proj1 (filter_In _ _ _) Htop) as [Htin Htpos]. apply Z.leb_le in Htpos.
    set (counts := map (fun c => length (filter (Z.eqb (Z.of_nat c)) ls')) (seq 0 (Z.to_nat top + 1))).
    assert (H2 : 2 <= fold_left Nat.min counts (length ls')).
    { apply fold_min_ge; auto. intros x Hx. apply in_map_iff in Hx as (c & <- & Hc). apply in_seq in Hc. apply Hcount. lia. }
    assert (Hin : forall l, In l ls -> (0 <= l)%Z -> In (length (filter (Z.eqb l) ls)) counts).
    { intros l0 Hl0 Hp0. apply in_map_iff. exists (Z.to_nat l0). rewrite Z2Nat.id by auto. unfold ls'. rewrite filter_eqb_pos by auto. split; auto.
      apply in_seq. assert (l0 <= top)%Z; [|lia]. apply Hmaxtop. unfold ls'. apply filter_In. split; auto. now apply Z.leb_le. }
    rewrite Nat.max_r by lia. split; auto. split.
    - intros l0 Hl0 Hp0. apply (proj2 (fold_min_le counts (length ls'))). auto.
    - destruct (fold_min_in counts (length ls')) as [E|E].
      + exists top. split; auto. split; auto. pose proof (proj2 (fold_min_le counts (length ls')) _ (Hin top Htin Htpos)) as Hle. rewrite E in *.
        apply Nat.le_antisymm; auto. rewrite <- (filter_eqb_pos ls top Htpos). apply filter_length_le.
      + apply in_map_iff in E as (c & Ec & Hc). apply in_seq in Hc. rewrite <- Ec. exists (Z.of_nat c).
        assert (Hc2 : c < N) by lia. destruct (Hpair c Hc2) as (x & _ & _ & Hx & _ & Ex & _). split; [rewrite <- Ex; apply nth_In; lia|]. split; [lia|].
        unfold ls'. rewrite filter_eqb_pos by lia. auto.
  Qed.
End Base.

Section Number.
  Context {W V P : WOrd} {D : Type} (LA : LamArith V).
  Variables (search_lam lam : W -> V) (death_of : V -> D) (dzero : D) (garbage : nat -> nat) (garbage_lambda : nat -> D).
  Variables (pzero : P) (accumulate : P -> nat -> nat -> D -> P).
  Variables (argsort : list P -> list nat) (argsort_counts : list Z -> list nat).
  Variables (n : nat) (L : list (lrow W NatSize)).
  Hypothesis HG : dendrogram n L.
  Hypothesis HS : sizes_are (Sz := NatSize) n (fun _ => 1) L.
  Hypothesis HH : heights_sorted L.
  Hypothesis Hlam : forall x y, wle x y = true -> wle (lam y) (lam x) = true.
  Hypothesis Hpos : forall x, wle (la_zero LA) (lam x) = true.
  Hypothesis Hlam' : forall x y, wle x y = true -> wle (search_lam y) (search_lam x) = true.
  Hypothesis Hpos' : forall x, wle (la_zero LA) (search_lam x) = true.
  Hypothesis HLL : LamLaws LA.
  Hypothesis Hsort : argsorts argsort.
  Hypothesis HsortZ : argsorts_Z argsort_counts.
  Hypothesis Hn : 4 <= n.
  Hypothesis Hfin : forall r, In r L -> wle (search_lam (l_d r)) (la_zero LA) = false.
  Notation run := (layers_from_linkage_tree search_lam lam LA death_of dzero garbage garbage_lambda pzero accumulate argsort argsort_counts L n).

  Lemma layers_number_ok base_m k threshold max_layers :
    exists j T0 S m T b base ys, run base_m (Some k) threshold max_layers = Ok ys /\
      best search_lam n L k j /\ tree_of search_lam n L j T0 /\ (forall c, In c S <-> leaf_cluster n T0 c) /\
      right_layer LA n T0 S (y_labels base) (y_strengths base) /\ y_persistence base = pzero /\
      2 <= m /\ smallest_cluster (y_labels base) m /\ tree_of lam n L m T /\
      (cluster_rows n T <> [] -> right_barcode n T death_of dzero m b) /\
      layer_stack LA pzero accumulate n T b threshold m max_layers base ys.
  Proof.
    destruct (binary_search_ok LA search_lam n L HG HS HH Hlam' Hpos' HLL Hn k) as (j & T0 & S & ls & ps & Hb & Ht & HSi & E & HR).
    pose proof (proj1 Hb) as Hj.
    destruct (base_size LA search_lam n L HG HS HH Hlam' ltac:(lia) Hfin j T0 S ls ps ltac:(lia) Ht HSi HR base_m) as (m & Em & Hm & Hsm).
    destruct (leaf_layer LA lam n L HG HS HH Hlam Hpos HLL ltac:(lia) m Hm) as (T & _ & _ & _ & HtT & _).
    destruct (layers_from_base LA search_lam lam death_of dzero garbage garbage_lambda pzero accumulate argsort argsort_counts n L
      Hpos HLL Hsort HsortZ ltac:(lia) base_m (Some k) threshold max_layers m T ls ps) as (b & ys & Er & HB & HL); auto.
    - unfold base_layer. rewrite E. cbn [bind fst snd]. rewrite Em. cbn [bind]. rewrite (proj1 HtT). reflexivity.
    - apply (ly_labels _ _ _ _ _ _ HR).
    - exists j, T0, S, m, T, b. eexists. exists ys. split; [exact Er|]. split; [exact Hb|]. split; [exact Ht|]. split; [exact HSi|].
      split; [|split; [|split; [exact Hm|split; [|split; [exact HtT|split; [exact HB|exact HL]]]]]]; auto.
  Qed.
End Number.
