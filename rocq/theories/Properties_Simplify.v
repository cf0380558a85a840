(** Theorems about cluster_selection_persistence. *)
From Coq Require Import List Arith Lia Bool ZArith QArith Qcanon.
From Verif Require Import Prelude Order Size Num M_Linkage S_Linkage M_Condense S_Condense M_Select M_Labels P_CTree P_CondenseTop
  P_SelectTop P_EpsilonTop M_Simplify S_Simplify P_SimplifyTop.
Import ListNotations.
Local Open Scope nat_scope.

(** C31.  On a condensed tree with at least one split, simplification succeeds
    and returns a condensed tree again (every sample once, sizes, order, densities
    growing downwards).  Its clusters are the root and the clusters both sides of
    whose split last at least the threshold, renumbered in the same order and with
    the same samples.  Every remaining row hangs from the lowest remaining cluster
    above its old parent; cluster rows keep density and size; sample rows keep
    their density unless their cluster is the lesser side of a removed split whose
    other side still splits, where it becomes the density of that split.  Every
    cluster of the result contains a sample whose density exceeds the cluster's
    birth by at least the threshold.  If all clusters are persistent the tree is
    unchanged. *)
Theorem C31_persistence_simplification :
  forall (V : WOrd) (Sz : SOrd) (persists : V -> V -> bool) (garbage : nat -> V) (n : nat) (wt : nat -> Sz)
    (min_cluster_size : Sz) (T : list (crow V Sz)),
  condensed n wt min_cluster_size T -> splits_once n T ->
  slt sone min_cluster_size = true -> sle (s := Sz) szero sone = true ->
  cluster_rows n T <> [] ->
  (forall b b' d d', wle b b' = true -> wle d' d = true -> persists b d = true -> persists b' d' = true) ->
  exists T' (new : nat -> nat),
    simplify_hierarchy persists garbage T = Ok T' /\ condensed n wt min_cluster_size T' /\ splits_once n T' /\
    new n = n /\
    (forall c d, c = n \/ kept persists n T c -> c < d -> new c < new d) /\
    (forall c', is_cluster n T' c' <-> exists c, (c = n \/ kept persists n T c) /\ new c = c') /\
    (forall c x, c = n \/ kept persists n T c -> (below n T' (new c) x <-> below n T c x)) /\
    (forall r, In r T -> kept persists n T (c_child r) ->
       exists r' c, In r' T' /\ c_child r' = new (c_child r) /\ c_lam r' = c_lam r /\ c_size r' = c_size r /\
         stays_at persists n T (c_parent r) c /\ c_parent r' = new c) /\
    (forall r, In r T -> c_child r < n ->
       exists r' c, In r' T' /\ c_child r' = c_child r /\
         stays_at persists n T (c_parent r) c /\ c_parent r' = new c /\
         (~ lowered persists n T (c_parent r) -> c_lam r' = c_lam r) /\
         (lowered persists n T (c_parent r) -> forall o, In o T -> c_child o = c_parent r -> c_lam r' = c_lam o)) /\
    (forall o', In o' T' -> n <= c_child o' ->
       exists r', In r' T' /\ c_child r' < n /\ below n T' (c_child o') (c_child r') /\ persists (c_lam r') (c_lam o') = true) /\
    ((forall c, is_cluster n T c -> c <> n -> persistent persists n T c) -> T' = T).
Proof. exact @c31. Qed.
Print Assumptions C31_persistence_simplification.

(** C31.  The comparison [birth - death >= threshold] over exact numbers meets the
    hypothesis above, for every threshold. *)
Theorem C31_exact_comparison :
  forall (threshold : Qc) (b b' d d' : QInf), wle b b' = true -> wle d' d = true ->
  exact_persists threshold b d = true -> exact_persists threshold b' d' = true.
Proof. exact exact_persists_mono. Qed.
Print Assumptions C31_exact_comparison.

(** C31.  Raising the threshold only removes clusters. *)
Theorem C31_higher_threshold_keeps_fewer :
  forall (Sz : SOrd) n (T : list (crow QInf Sz)) (t t' : Qc) c,
  (t <= t')%Qc -> kept (V := QInf) (exact_persists t') n T c -> kept (V := QInf) (exact_persists t) n T c.
Proof. exact c31_monotone. Qed.
Print Assumptions C31_higher_threshold_keeps_fewer.

(** C31.  Without a split the code reads the last entry of an empty array: three
    samples that form one cluster. *)
Theorem C31_unsplit_tree_refuted :
  exists (L : list (lrow QInf NatSize)) T,
    dendrogram 3 L /\ sizes_are (Sz := NatSize) 3 (fun _ => 1) L /\ heights_sorted L /\
    condense_tree L hdbscan_lambda_value (2 : NatSize) None (fun _ => 1) = Ok T /\ T <> [] /\
    forall garbage, simplify_hierarchy (V := QInf) (exact_persists (Q2Qc (1 # 2))) garbage T = Err IndexError.
Proof. exact c31_refuted. Qed.
Print Assumptions C31_unsplit_tree_refuted.

(** ** Non-vacuity: ten samples; the splits at distances 8, 6, 2 and 2 reach density 1. *)
Definition shape (x : res (list (crow QInf NatSize))) : list (nat * nat) :=
  match x with Ok T => map (fun r => (c_parent r, c_child r)) T | Err _ => [] end.
Example C31_example_before : shape (Ok (cluster_rows 10 eT)) = [(10, 11); (10, 12); (11, 13); (11, 14); (12, 15); (12, 16); (15, 17); (15, 18)].
Proof. vm_compute. reflexivity. Qed.
Example C31_example_simplified : (* 1 - 1/2 is below 3/5, 1 - 1/6 is not *)
  shape (simplify_hierarchy (V := QInf) (exact_persists (Q2Qc (3 # 5))) (fun _ => None) eT) =
  [(10, 11); (10, 12); (12, 13); (12, 14); (11, 0); (11, 1); (11, 2); (11, 3); (14, 8); (14, 9); (13, 4); (13, 5); (13, 6); (13, 7)].
Proof. vm_compute. reflexivity. Qed.
Example C31_example_hypotheses :
  condensed (Sz := NatSize) 10 (fun _ => 1) (2 : NatSize) eT /\ splits_once 10 eT /\ cluster_rows 10 eT <> [].
Proof. destruct ed_run_condensed as (_ & H1 & H2). split; auto. split; auto. vm_compute. discriminate. Qed.
