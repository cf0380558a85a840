(** Layers of one hierarchy; the number of leaves falls with the minimum size. *)
From Coq Require Import List Arith Lia Bool ZArith QArith Sorted Permutation.
From Verif Require Import Prelude Order Size Forest M_Linkage S_Linkage P_Dendro M_Condense S_Condense P_Condense P_CondenseTop M_Select S_Select P_CTree P_Below P_SelectTop
  M_Labels S_Labels P_Labels P_LabelsTop P_LabelsProps P_LabelsEx M_Layers S_Layers P_DendroNodes P_Barcode P_LayerSets P_TopNodes.
Import ListNotations.
Local Open Scope nat_scope.

Lemma relate_length {A B} (R : A -> B -> Prop) : (forall a a' b, R a b -> R a' b -> a = a') -> (forall b b' : B, {b = b'} + {b <> b'}) ->
  forall (l : list A) (m : list B), NoDup l -> (forall a, In a l -> exists b, In b m /\ R a b) -> length l <= length m.
Proof.
  intros Hinj dec. induction l as [|a l IH]; intros m HN H; [cbn; lia|].
  apply NoDup_cons_iff in HN as [Ha HN]. destruct (H a (or_introl eq_refl)) as (b & Hb & Hr).
  apply in_split in Hb as (m1 & m2 & ->). specialize (IH (m1 ++ m2) HN). rewrite app_length in *. cbn. 
  assert (length l <= length m1 + length m2); [|lia]. apply IH. intros a' Ha'. destruct (H a' (or_intror Ha')) as (b' & Hb' & Hr'). exists b'. split; auto.
  apply in_app_or in Hb' as [Hb'|[<-|Hb']]; [apply in_or_app; auto| |apply in_or_app; auto]. exfalso. assert (a' = a) by eauto. congruence.
Qed.

Lemma ssorted_NoDup l : StronglySorted lt l -> NoDup l.
Proof.
  induction 1 as [|a l H IH Hf]; constructor; auto. intro Hi. rewrite Forall_forall in Hf. specialize (Hf a Hi). lia.
Qed.

Lemma one_lt m : 2 <= m -> slt (S := NatSize) sone m = true.
Proof. intro H. unfold slt. apply negb_true_iff, Nat.leb_gt. cbn. lia. Qed.

Section Run.
  Context {W V : WOrd} (LA : LamArith V).
  Variables (lam : W -> V) (n : nat) (L : list (lrow W NatSize)).
  Hypothesis HG : dendrogram n L.
  Hypothesis HS : sizes_are (Sz := NatSize) n (fun _ => 1) L.
  Hypothesis HH : heights_sorted L.
  Hypothesis Hlam : forall x y, wle x y = true -> wle (lam y) (lam x) = true.
  Hypothesis Hpos : forall x, wle (la_zero LA) (lam x) = true.
  Hypothesis HLL : LamLaws LA.
  Hypothesis Hn : 2 <= n.
  Notation one := (fun _ : nat => (1 : NatSize)).

  Notation tree_of := (S_Layers.tree_of lam n L).

  Lemma tree_at m : 2 <= m -> exists T, tree_of m T.
  Proof.
    intro Hm. destruct (c24 W V NatSize n L one m None lam HG HS HH Hlam) as (T & H1 & H2 & H3 & H4); auto.
    { intros x _. apply Nat.leb_gt. lia. }
    exists T. split; auto.
  Qed.
  Lemma tree_det m T T' : tree_of m T -> tree_of m T' -> T = T'.
  Proof. intros [H1 _] [H2 _]. congruence. Qed.

  Lemma lam_pos m T r : tree_of m T -> In r T -> wle (la_zero LA) (c_lam r) = true.
  Proof.
    intros (_ & _ & (top & _ & _ & F1 & F2) & _) Hr. destruct (le_lt_dec n (c_child r)) as [H|H].
    - destruct (F2 r Hr H) as (i & q & _ & _ & _ & -> & _). apply Hpos.
    - destruct (F1 r Hr H) as (i & q & v & _ & _ & -> & _). apply Hpos.
  Qed.

  Lemma layer_of m T S : tree_of m T -> 2 <= m -> (forall c, In c S -> is_cluster n T c) -> StronglySorted lt S -> disjoint_clusters n T S ->
    S = [n] \/ (~ In n S /\ 2 <= length S) ->
    exists ls ps, get_cluster_label_vector LA T S None n = Ok ls /\ get_point_membership_strength_vector LA T S ls = Ok ps /\ right_layer LA n T S ls ps.
  Proof.
    intros Ht Hm HC Hsort HD Hnum. pose proof Ht as (_ & HT & _). pose proof (condensed_ordered _ _ _ _ HT) as HO. pose proof (ssorted_NoDup _ Hsort) as HN.
    assert (Hne : S <> []) by (destruct Hnum as [->|[_ H]]; [discriminate|intros ->; cbn in H; lia]).
    assert (H1 : length S = 1 -> S = [n]) by (destruct Hnum as [->|[_ H]]; auto; lia).
    destruct (labels_ok LA n T S HO ltac:(lia) HC HN None Hne H1) as (ls & Els & Hlen & Hls).
    destruct (c29_condensed V NatSize LA n one m T S None ls HLL HT (one_lt m Hm) ltac:(lia) HC HN (fun r => lam_pos m T r Ht) Hne H1 Els) as (ps & Eps & Hp1 & Hp2 & Hp3 & _).
    exists ls, ps. split; auto. split; auto. constructor; auto. split; auto. split; auto. split; auto.
    intros r Hr Hx Hne'. eapply (c29_condensed_values V NatSize LA n one m T S None ls ps); eauto; [now apply one_lt|lia|intros q Hq; now apply (lam_pos m T)].
  Qed.

  Lemma leaves_number m T S : tree_of m T -> StronglySorted lt S -> (forall c, In c S <-> leaf_cluster n T c) -> S = [n] \/ (~ In n S /\ 2 <= length S).
  Proof.
    intros (_ & HT & _ & HSO) Hsort HSi.
    assert (HD : disjoint_clusters n T S) by (apply (leaves_disjoint n one m T HT); apply HSi).
    destruct (in_dec Nat.eq_dec n S) as [Hin|Hout].
    - left. assert (Hall : forall c, In c S -> c = n).
      { intros c Hc. destruct (Nat.eq_dec c n) as [|Hne]; auto. exfalso. apply (HD n c Hin Hc).
        apply (descends_sub n one m T HT). split; auto. apply (sub_root n one m T HT). apply HSi in Hc as [Hc _]. now apply (is_cluster_iff n one m T HT) in Hc. }
      pose proof (ssorted_NoDup _ Hsort) as HN. destruct S as [|x [|y l]]; [destruct Hin| |].
      + now rewrite (Hall x (or_introl eq_refl)).
      + exfalso. apply NoDup_cons_iff in HN as [HN _]. apply HN. left. rewrite (Hall x), (Hall y); auto; [right; now left|now left].
    - right. split; auto.
      destruct (cluster_rows n T) as [|r0 l0] eqn:E.
      { destruct Hout. apply HSi. split; [now left|]. intros r Hr Hge. exfalso. assert (H : In r (cluster_rows n T)) by now apply in_ct. rewrite E in H. destruct H. }
      assert (H0 : In r0 (cluster_rows n T)) by (rewrite E; now left).
      destruct (row_pair n one m T HT r0 H0) as (j & r & q & Hp & _).
      destruct (pair_facts n one m T HT _ _ _ Hp) as (C1 & C2 & P1 & _ & _ & I1 & I2).
      assert (Kr : is_cluster n T (c_child r)) by (right; split; [lia|]; exists r; split; auto; eapply ct_in; eauto).
      assert (Kq : is_cluster n T (c_child q)) by (right; split; [lia|]; exists q; split; auto; eapply ct_in; eauto).
      destruct (leaf_below n one m T HT _ Kr) as (e & He & Her). destruct (leaf_below n one m T HT _ Kq) as (f & Hf & Hfr).
      assert (Hsub : forall v u, u = v \/ descends n T v u -> In u (sub (children_of (cluster_rows n T)) (top_id n T) v)).
      { intros v u [->|H]; [apply (sub_self _ _ (ct_up n one m T HT) (ct_bound n one m T HT))|]. now apply (descends_sub n one m T HT) in H. }
      apply (two_in S e f); [now apply HSi|now apply HSi|]. intros ->. assert (c_child r = c_child q); [|lia].
      apply (sub_siblings (children_of (cluster_rows n T)) (top_id n T) (ct_up n one m T HT) (ct_bound n one m T HT) (ct_one n one m T HT) (c_parent q) _ _ f); auto.
      + apply ch_in. exists r. auto.
      + apply ch_in. exists q. auto.
  Qed.

  Lemma leaves_ok m T : 2 <= m -> tree_of m T -> exists S, extract_leaves T = Ok S /\ StronglySorted lt S /\ (forall c, In c S <-> leaf_cluster n T c).
  Proof. intros Hm (_ & HT & _). apply (extract_leaves_ok n one m T HT); auto; [now apply one_lt|lia]. Qed.

  (** The leaves at one minimum size: a layer. *)
  Lemma leaf_layer m : 2 <= m -> exists T S ls ps, tree_of m T /\ extract_leaves T = Ok S /\ (forall c, In c S <-> leaf_cluster n T c) /\
    get_cluster_label_vector LA T S None n = Ok ls /\ get_point_membership_strength_vector LA T S ls = Ok ps /\ right_layer LA n T S ls ps.
  Proof.
    intro Hm. destruct (tree_at m Hm) as (T & Ht). destruct (leaves_ok m T Hm Ht) as (S & E & Hs & HSi).
    destruct (layer_of m T S Ht Hm) as (ls & ps & E1 & E2 & HL); auto.
    - intros c Hc. apply HSi in Hc. apply Hc.
    - destruct Ht as (_ & HT & _). apply (leaves_disjoint n one m T HT). apply HSi.
    - eapply leaves_number; eauto.
    - exists T, S, ls, ps. auto 8.
  Qed.

  (** ** Falling number of leaves *)
  Lemma leaf_nodes_apart m u v : leaf_node n L one (m : NatSize) u -> leaf_node n L one (m : NatSize) v -> reach n L u v -> u = v.
  Proof.
    intros [_ Hu] [Hv _] H. destruct (Nat.eq_dec u v) as [|Hne]; auto. exfalso.
    destruct Hv as [->|(i & r & Hi & Hsp & Hc)].
    - assert (Hle : u <= 2 * n - 2); [|apply reach_le in H; auto; lia].
      destruct (reach_first n L u (2 * n - 2) H Hne) as (i & r & c & -> & Hi & _). eapply row_node_le; eauto.
    - destruct (reach_strict n L u v H Hne) as (j & q & Hj & Hcq & Hr). assert (i = j) as <- by (eapply (one_parent n L HG); eauto). apply (Hu i r); auto.
  Qed.

  Lemma split_larger m m' r : m <= m' -> true_split n L one (m' : NatSize) None r -> true_split n L one (m : NatSize) None r.
  Proof.
    intros Hle H. apply split_iff in H. apply split_iff. destruct H as [(a & H1 & H2) (b & H3 & H4)]. apply Nat.leb_le in H2, H4.
    split; [exists a|exists b]; (split; auto); apply Nat.leb_le; lia.
  Qed.

  Lemma leaf_inside m m' v : 2 <= m -> m <= m' -> leaf_node n L one (m' : NatSize) v -> exists u, leaf_node n L one (m : NatSize) u /\ reach n L v u.
  Proof.
    intros Hm Hle [Hv _]. destruct (tree_at m Hm) as (T & Ht). pose proof Ht as (_ & HT & (top & F1 & F2 & F3 & F4) & _).
    assert (Hh : head n L one (m : NatSize) v).
    { destruct Hv as [->|(i & r & Hi & Hsp & Hc)]; [now left|]. right. exists i, r. split; auto. split; auto. now apply (split_larger m m'). }
    apply (head_cluster n L one m lam T HG HS Hn HT top F1 F2 F3 F4) in Hh as (c & Hc & <-).
    destruct (leaf_below n one m T HT c Hc) as (l & Hl & Hor). exists (top l). split.
    - apply (leaf_top n L one m lam T HG HS Hn HT top F1 F2 F3 F4); auto. apply Hl.
    - destruct Hor as [->|Hd]; [constructor|]. now apply (desc_top n L one m lam T HG Hn top F1 F4) in Hd.
  Qed.

  Lemma leaves_fall m m' T T' S S' : 2 <= m -> m <= m' -> tree_of m T -> tree_of m' T' -> extract_leaves T = Ok S -> extract_leaves T' = Ok S' -> length S' <= length S.
  Proof.
    intros Hm Hle Ht Ht' E E'. destruct (leaves_ok m T Hm Ht) as (S0 & E0 & Hs & HSi). assert (S0 = S) as -> by congruence.
    destruct (leaves_ok m' T' ltac:(lia) Ht') as (S1 & E1 & Hs' & HSi'). assert (S1 = S') as -> by congruence.
    pose proof Ht as (_ & HT & (top & F1 & F2 & F3 & F4) & _). pose proof Ht' as (_ & HT' & (top' & G1 & G2 & G3 & G4) & _).
    apply (relate_length (fun a b => leaf_cluster n T' a /\ leaf_cluster n T b /\ reach n L (top' a) (top b))).
    - intros a a' b (A1 & B1 & R1) (A2 & _ & R2).
      pose proof (proj1 (leaf_top n L one m' lam T' HG HS Hn HT' top' G1 G2 G3 G4 a (proj1 A1)) A1) as N1.
      pose proof (proj1 (leaf_top n L one m' lam T' HG HS Hn HT' top' G1 G2 G3 G4 a' (proj1 A2)) A2) as N2.
      apply (top_inj n L one m' lam T' HG Hn HT' top' G1 G2 G4); [apply A1|apply A2|].
      destruct (reach_chain n L HG _ _ R1 _ R2) as [H|H]; [|symmetry]; eapply leaf_nodes_apart; eauto.
    - apply Nat.eq_dec.
    - now apply ssorted_NoDup.
    - intros a Ha. apply HSi' in Ha. pose proof (proj1 (leaf_top n L one m' lam T' HG HS Hn HT' top' G1 G2 G3 G4 a (proj1 Ha)) Ha) as N1.
      destruct (leaf_inside m m' _ Hm Hle N1) as (u & Hu & Hr).
      apply (leaf_node_cluster n L one m lam T HG HS Hn HT top F1 F2 F3 F4) in Hu as (c & Hc & <-). exists c. split; [now apply HSi|auto].
  Qed.

  (** ** The clusters alive at a size are the leaves for that size plus one *)
  Lemma alive_leaves {D} (death_of : V -> D) zero b m s T T' : 2 <= m <= s -> s < n -> tree_of m T -> tree_of (S s) T' -> right_barcode n T death_of zero m b ->
    (forall c, In c (map (fun i => i + n) (alive b s)) -> exists l, leaf_cluster n T' l /\ forall x, below n T c x <-> below n T' l x) /\
    (forall l, leaf_cluster n T' l -> exists c, In c (map (fun i => i + n) (alive b s)) /\ forall x, below n T c x <-> below n T' l x).
  Proof.
    intros Hm Hs Ht Ht' HB. pose proof Ht as (_ & HT & (top & F1 & F2 & F3 & F4) & HSO). pose proof Ht' as (_ & HT' & (top' & G1 & G2 & G3 & G4) & _).
    assert (Hal : forall c, In c (map (fun i => i + n) (alive b s)) <-> is_cluster n T c /\ leaf_node n L one (S s : NatSize) (top c)).
    { intro c. rewrite (alive_iff n one m T HT death_of zero m b HB s (proj2 Hm) c). split; intros [H1 H2]; (split; [auto|]).
      - now apply (leaf_for_top n L one m lam T HG HS Hn HT top F1 F2 F3 F4 s c).
      - now apply (leaf_for_top n L one m lam T HG HS Hn HT top F1 F2 F3 F4 s c). }
    split.
    - intros c Hc. apply Hal in Hc as [Hc Hl]. pose proof Hl as Hl'.
      apply (leaf_node_cluster n L one (S s) lam T' HG HS Hn HT' top' G1 G2 G3 G4) in Hl' as (l & Hll & E). exists l. split; auto.
      intro x. rewrite (F2 c x Hc), (G2 l x (proj1 Hll)), E. tauto.
    - intros l Hl. pose proof (proj1 (leaf_top n L one (S s) lam T' HG HS Hn HT' top' G1 G2 G3 G4 l (proj1 Hl)) Hl) as Hn'.
      assert (Hh : head n L one (m : NatSize) (top' l)).
      { destruct Hn' as [[->|(i & r & Hi & Hsp & Hc)] _]; [now left|]. right. exists i, r. split; auto. split; auto. apply (split_larger m (S s)); auto. lia. }
      apply (head_cluster n L one m lam T HG HS Hn HT top F1 F2 F3 F4) in Hh as (c & Hc & E).
      exists c. split; [apply Hal; rewrite E; auto|]. intro x. rewrite (F2 c x Hc), (G2 l x (proj1 Hl)), E. tauto.
  Qed.
End Run.
