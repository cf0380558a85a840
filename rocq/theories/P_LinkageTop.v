(** The property-level lemmas for C21 and C22. *)
From Coq Require Import List Arith Lia Bool Permutation Sorted ZArith.
From Verif Require Import Prelude Order Graph UF Size M_DisjointSet M_Linkage S_Linkage P_Dendro P_Linkage P_Cut.
Import ListNotations.

Lemma sorted_heights {W : WOrd} {Sz} (M : list (edge W)) (L : list (lrow W Sz)) :
  sorted_by ewt M -> map l_d L = map ewt M -> heights_sorted L.
Proof.
  intros HS E. unfold heights_sorted. rewrite E. clear E.
  induction HS as [|e M HS IH HF]; simpl; constructor; auto.
  rewrite Forall_forall in *. intros w Hw. apply in_map_iff in Hw as (f & <- & Hf). auto.
Qed.

Lemma c21 (W : WOrd) n (M : list (edge W)) : spanning_tree n M -> sorted_by ewt M ->
  exists L, mst_to_linkage_tree M = Ok L /\
    dendrogram n L /\ sizes_are (Sz := NatSize) n (fun _ => 1) L /\ heights_sorted L /\
    map l_d L = map ewt M /\
    (forall i r, nth_error L i = Some r -> l_b r < l_a r) /\
    (forall i e x, nth_error M i = Some e ->
       (under n L (n + i) x <-> x < n /\ connected (firstn (S i) M) (esrc e) x)).
Proof.
  intros HT HS. pose proof (st_count _ _ HT) as HN.
  destruct (linkage_tree_ok (Sz := NatSize) n (fun _ => 1) M (repeat 1 (length M + 1)) HT)
    as (L & E & H1 & H2 & H3 & H4 & H5).
  - rewrite repeat_length. lia.
  - intros i Hi. assert (H : forall k, i < k -> nth i (repeat 1 k) 0 = 1).
    { clear. revert i. induction i; intros [|k] H; simpl; auto; try lia. apply IHi. lia. }
    apply H. lia.
  - exists L. split; [exact E|]. split; [auto|split; [auto|split; [eapply sorted_heights; eauto|auto]]].
Qed.

Lemma c21_weighted (W : WOrd) (Sz : SOrd) n (M : list (edge W)) (ws : list Sz) :
  spanning_tree n M -> sorted_by ewt M -> length ws = n ->
  exists L, mst_to_linkage_tree_w_sample_weights M ws = Ok L /\
    dendrogram n L /\ sizes_are n (fun x => nth x ws szero) L /\ heights_sorted L /\
    map l_d L = map ewt M /\
    (forall i r, nth_error L i = Some r -> l_b r < l_a r) /\
    (forall i e x, nth_error M i = Some e ->
       (under n L (n + i) x <-> x < n /\ connected (firstn (S i) M) (esrc e) x)).
Proof.
  intros HT HS Hlen.
  destruct (linkage_tree_ok n (fun x => nth x ws szero) M ws HT)
    as (L & E & H1 & H2 & H3 & H4 & H5); auto.
  exists L. split; [exact E|]. split; [auto|split; [auto|split; [eapply sorted_heights; eauto|auto]]].
Qed.

Lemma c22 (W : WOrd) n (M : list (edge W)) (cut : W) m : spanning_tree n M -> sorted_by ewt M ->
  exists L labels, mst_to_linkage_tree M = Ok L /\ get_cluster_labelling_at_cut L cut m = Ok labels /\
    component_clustering n (passing (fun w => wlt w cut) M) m labels.
Proof.
  intros HT HS. destruct (c21 W n M HT HS) as (L & E & H1 & H2 & H3 & H4 & H5 & H6).
  destruct (cut_ok n cut m L M H1 H4 HS H6 (st_range _ _ HT)) as (labels & E2 & HC).
  exists L, labels. auto.
Qed.
