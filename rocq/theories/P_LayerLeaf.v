(** The layers of PLSCAN and the leaf clusterings of HDBSCAN. *)
From Coq Require Import List Arith Lia Bool ZArith QArith Qcanon Sorted Permutation.
From Verif Require Import Prelude Order Graph Size Num P_Sort Forest S_Kruskal M_Linkage S_Linkage M_Condense S_Condense M_Select S_Select M_Labels S_Labels
  M_Pipeline S_Pipeline P_PipelineEx P_PipelineRun P_PipelineMeaning P_CTree P_Below P_Labels P_LabelsTop P_LabelsProps M_Layers S_Layers P_TopNodes P_LayersBase
  P_LayersRun P_LayerTreeRun S_Unique P_Reorder P_SameLinkage P_Join P_ResizeLeaf M_LayerTree S_LayerTree S_Equi M_Plscan S_Plscan P_Plscan S_LayerLeaf.
Import ListNotations.
Local Open Scope nat_scope.

(** ** Labellings by families of sets *)
Definition labelled_by (n : nat) (I : list nat) (B : nat -> nat -> Prop) (ls : list Z) : Prop :=
  (forall c x, In c I -> x < n -> (nth x ls 0%Z = Z.of_nat (position I c) <-> B c x)) /\
  (forall x, x < n -> nth x ls 0%Z <> (-1)%Z -> exists c, In c I /\ B c x).
Lemma families_same n I I' B B' ls ls' : labelled_by n I B ls -> labelled_by n I' B' ls' ->
  (forall c, In c I -> exists c', In c' I' /\ forall x, B c x <-> B' c' x) -> (forall c', In c' I' -> exists c, In c I /\ forall x, B c x <-> B' c' x) ->
  same_partition n ls ls'.
Proof.
  intros [H1 H2] [H1' H2'] F G.
  assert (N : forall x, x < n -> (nth x ls 0%Z = (-1)%Z <-> nth x ls' 0%Z = (-1)%Z)).
  { intros x Hx. split; intro E.
    - destruct (Z.eq_dec (nth x ls' 0%Z) (-1)) as [|Hne]; auto. exfalso. destruct (H2' x Hx Hne) as (c' & Hc' & Hb). destruct (G c' Hc') as (c & Hc & HB).
      apply HB in Hb. apply H1 in Hb; auto. lia.
    - destruct (Z.eq_dec (nth x ls 0%Z) (-1)) as [|Hne]; auto. exfalso. destruct (H2 x Hx Hne) as (c & Hc & Hb). destruct (F c Hc) as (c' & Hc' & HB).
      apply HB in Hb. apply H1' in Hb; auto. lia. }
  split; auto. intros x y Hx Hy. split; intro E.
  - destruct (Z.eq_dec (nth x ls 0%Z) (-1)) as [Ex|Hne].
    + rewrite (proj1 (N x Hx) Ex). symmetry. apply N; auto. congruence.
    + destruct (H2 x Hx Hne) as (c & Hc & Hb). destruct (F c Hc) as (c' & Hc' & HB). assert (Hy' : B c y) by (apply H1; auto; rewrite <- E; now apply H1).
      transitivity (Z.of_nat (position I' c')); [|symmetry]; apply H1'; auto; now apply HB.
  - destruct (Z.eq_dec (nth x ls' 0%Z) (-1)) as [Ex|Hne].
    + rewrite (proj2 (N x Hx) Ex). symmetry. apply N; auto. congruence.
    + destruct (H2' x Hx Hne) as (c' & Hc' & Hb). destruct (G c' Hc') as (c & Hc & HB). assert (Hy' : B' c' y) by (apply H1'; auto; rewrite <- E; now apply H1').
      transitivity (Z.of_nat (position I c)); [|symmetry]; apply H1; auto; now apply HB.
Qed.

(** ** Without ties there is one linkage tree *)
Lemma ren_id {V : WOrd} {Sz : SOrd} n (T : list (crow V Sz)) : map (ren (rho n (fun x => x))) T = T.
Proof.
  induction T as [|[a b c d] T IH]; [reflexivity|]. cbn [map]. rewrite IH. f_equal. unfold ren, rho. cbn [c_parent c_child c_lam c_size]. destruct (a <? n), (b <? n); reflexivity.
Qed.
Lemma faithful_other {W V : WOrd} {Sz : SOrd} n (wt : nat -> Sz) (M : list (edge W)) L L' m (lam : W -> V) T : linkage_of n wt M L -> linkage_of n wt M L' -> distinct_weights M -> 2 <= n ->
  condensed n wt m T -> faithful n L' wt m None lam T -> faithful n L wt m None lam T.
Proof.
  intros HL HL' HW Hn HT HF. set (p := fun x : nat => x). assert (Hp : reorders n p) by (split; auto).
  assert (HS : same_hierarchy n p M M) by (intros P HP x y Hx Hy; tauto).
  pose proof (same_linkage n p wt wt M M L L' Hp (fun x _ => eq_refl) HL HL' (Permutation_refl _) HS HW) as HLL.
  pose proof (ren_faithful n p Hp wt wt m T HT (fun x _ => eq_refl) L L' lam HLL Hn HF) as H. unfold p in H. now rewrite ren_id in H.
Qed.

Lemma faithful_same {W V : WOrd} {Sz : SOrd} n (wt : nat -> Sz) (M : list (edge W)) L L' m (lam : W -> V) T : linkage_of n wt M L -> linkage_of n wt M L' -> distinct_weights M \/ L' = L -> 2 <= n ->
  condensed n wt m T -> faithful n L' wt m None lam T -> faithful n L wt m None lam T.
Proof. intros HL HL' [HW| ->] Hn HT HF; auto. eapply faithful_other; eauto. Qed.

Section Layer.
  Context {W V V' : WOrd} (LA : LamArith V) (LA' : LamArith V').
  Variables (lam : W -> V) (lam' : W -> V') (n : nat) (M : list (edge W)) (L : list (lrow W NatSize)).
  Notation one := (fun _ : nat => (1 : NatSize)).
  Hypothesis Hn : 2 <= n.
  Hypothesis HL : linkage_of n one M L.
  Hypothesis Hfin : forall r, In r L -> wle (lam (l_d r)) (la_zero LA) = false.
  Hypothesis Hpos' : forall e, In e M -> wlt (la_zero LA') (lam' (ewt e)) = true.
  (** A layer of the tree for [m] that holds the leaf clusters for [k]. *)
  Variables (m k : nat) (T : list (crow V NatSize)) (top : nat -> nat) (Sel : list nat) (ls : list Z) (ps : list V).
  Hypothesis Hm : 2 <= m.
  Hypothesis Hmk : m <= k.
  Hypothesis Ht : tree_of lam n L m T.
  Hypothesis HR : right_layer LA n T Sel ls ps.
  Hypothesis Hroot : ~ In n Sel.
  Hypothesis top_root : top n = 2 * n - 2.
  Hypothesis top_below : forall c x, is_cluster n T c -> (below n T c x <-> under n L (top c) x).
  Hypothesis top_clusters : forall q, In q T -> n <= c_child q ->
    exists i r, segment n L one (m : NatSize) None (top (c_parent q)) (n + i) /\ nth_error L i = Some r /\ true_split n L one (m : NatSize) None r /\
      c_lam q = lam (l_d r) /\ (top (c_child q) = l_a r \/ top (c_child q) = l_b r) /\ weight_of n L one (top (c_child q)) (c_size q).
  Hypothesis HSel : forall c, In c Sel <-> is_cluster n T c /\ leaf_node n L one (k : NatSize) (top c).
  Hypothesis Hhead : forall v, leaf_node n L one (k : NatSize) v -> exists c, is_cluster n T c /\ top c = v.
  (** A run with 'leaf' and [k]. *)
  Variables (st : settings V' NatSize) (ls' : list Z) (ps' : list V') (T' T0' : list (crow V' NatSize)) (L' : list (lrow W NatSize)) (ch fin : list nat).
  Hypothesis Hk : min_cluster_size st = k.
  Hypothesis HX : explained lam' LA' st n one M ls' ps' T' L' T0' ch fin.
  Hypothesis HW : distinct_weights M \/ L' = L.
  Hypothesis Hleaf : cluster_selection_method st = Leaf.
  Hypothesis Heps : cluster_selection_epsilon st = None.
  Hypothesis Hper : cluster_selection_persistence st = None.

  Lemma layer_labelled : labelled_by n Sel (below n T) ls.
  Proof.
    pose proof (ssorted_NoDup _ (ly_sorted _ _ _ _ _ _ HR)) as HN.
    assert (HI : forall c x, In c Sel -> below n T c x -> nth x ls 0%Z = Z.of_nat (position Sel c)).
    { intros c x Hc Hb. apply (label_inside LA lam n L Hn Hfin m T Sel ls ps Hm Ht HR); auto. congruence. }
    split.
    - intros c x Hc Hx. split; [|now apply HI]. intro E. destruct (layer_label LA lam n L Hn Hfin m T Hm Ht Sel ls ps x HR Hx) as [E'|(s & Hs & Hb & E')]; [lia|].
      assert (s = c) as -> by (apply (position_inj Sel); auto; lia). auto.
    - intros x Hx Hne. destruct (layer_label LA lam n L Hn Hfin m T Hm Ht Sel ls ps x HR Hx) as [E'|(s & Hs & Hb & E')]; [contradiction|eauto].
  Qed.

  Lemma layer_same : Sel <> [] -> same_partition n ls ls'.
  Proof.
    intro HSne. pose proof HL as (HD & HSz & _). pose proof (xp_linkage _ _ _ _ _ _ _ _ _ _ _ _ _ HX) as HL'.
    pose proof (xp_persistence _ _ _ _ _ _ _ _ _ _ _ _ _ HX) as ET. rewrite Hper in ET. pose proof (xp_condensed _ _ _ _ _ _ _ _ _ _ _ _ _ HX) as HT'. pose proof (xp_faithful _ _ _ _ _ _ _ _ _ _ _ _ _ HX) as HF'.
    rewrite <- ET, Hk in HT', HF'. apply (faithful_same n one M L L' _ lam' T' HL HL' HW Hn HT') in HF'. destruct HF' as (top' & G1 & G2 & G3 & G4).
    pose proof (leaf_node_cluster n L one k lam' T' HD HSz Hn HT' top' G1 G2 G3 G4) as HLN.
    assert (F : forall c, In c Sel -> exists c', leaf_cluster n T' c' /\ (forall x, below n T c x <-> below n T' c' x) /\ top' c' = top c).
    { intros c Hc. apply HSel in Hc as [Hc Hl]. apply HLN in Hl as (c' & Hc' & E). exists c'. split; auto. split; auto. intro x. rewrite (top_below c x Hc), (G2 c' x (proj1 Hc')), E. tauto. }
    assert (HRw : cluster_rows n T' <> []).
    { destruct Sel as [|c l] eqn:ES; [contradiction|]. destruct (F c (or_introl eq_refl)) as (c' & [Hc' _] & _ & E). intro E0.
      destruct Hc' as [->|(Hge & q & Hq & Eq)].
      - assert (Hcn : c <> n) by (intros ->; apply Hroot; now left). assert (Hc : is_cluster n T c) by (apply HSel; now left). rewrite G1, <- top_root in E.
        apply Hcn. symmetry. apply (top_inj n L one m lam T HD Hn (proj1 (proj2 Ht)) top top_root top_below top_clusters); auto. now left.
      - apply (in_nil (a := q)). rewrite <- E0. apply (in_ct n T'); auto. lia. }
    assert (Ef : fin = ch) by (eapply final_chosen; eauto). assert (Hnf : ~ In n fin) by (eapply root_not_final; eauto).
    assert (Hfin' : forall c, In c fin <-> leaf_cluster n T' c) by (intro c; rewrite Ef; apply (xp_leaf _ _ _ _ _ _ _ _ _ _ _ _ _ HX Hleaf HRw)).
    apply (families_same n Sel fin (below n T) (below n T')); auto.
    - apply layer_labelled.
    - split.
      + intros c x Hc Hx. eapply (final_member lam' LA' st n one M ls' ps' T' L' T0' ch fin); eauto.
      + intros x Hx Hne. eapply (labelled_final lam' LA' st n one M ls' ps' T' L' T0' ch fin); eauto.
    - intros c Hc. destruct (F c Hc) as (c' & Hc' & HB & _). exists c'. split; auto. now apply Hfin'.
    - intros c' Hc'. apply Hfin' in Hc'. pose proof (proj1 (leaf_top n L one k lam' T' HD HSz Hn HT' top' G1 G2 G3 G4 c' (proj1 Hc')) Hc') as Hl.
      destruct (Hhead _ Hl) as (c & Hc & E). exists c. split; [apply HSel; rewrite E; auto|]. intro x. rewrite (top_below c x Hc), (G2 c' x (proj1 Hc')), E. tauto.
  Qed.
End Layer.
