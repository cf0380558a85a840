(** C23, C24: the condensed tree. *)
From Coq Require Import List Arith Bool ZArith QArith Qcanon Permutation Sorted.
From Verif Require Import Prelude Order Size Num M_Linkage S_Linkage M_Condense S_Condense P_CondenseTop.
Import ListNotations.
Local Open Scope nat_scope.

(** C23.  Condensing never fails and lists every sample exactly once, provided no
    single sample reaches the minimum cluster size. *)
Theorem C23_every_sample_exactly_once :
  forall (W V : WOrd) (Sz : SOrd) (n : nat) (L : list (lrow W Sz)) (wt : nat -> Sz)
    (min_cluster_size : Sz) (max_cluster_size : option Sz) (lambda : W -> V),
  dendrogram n L -> sizes_are n wt L -> heights_sorted L ->
  (forall x y, wle x y = true -> wle (lambda y) (lambda x) = true) ->
  (forall x, x < n -> sle min_cluster_size (wt x) = false) -> 2 <= n ->
  exists T, condense_tree L lambda min_cluster_size max_cluster_size wt = Ok T /\
    Permutation (map c_child (sample_rows n T)) (seq 0 n) /\
    (forall r, In r (sample_rows n T) -> c_size r = sone).
Proof. exact c23. Qed.
Print Assumptions C23_every_sample_exactly_once.

(** C24.  The condensed tree is well formed (see [condensed]); every row says what
    the dendrogram says (see [faithful]); without a maximum size each cluster
    splits at most once. *)
Theorem C24_condensed_tree_well_formed :
  forall (W V : WOrd) (Sz : SOrd) (n : nat) (L : list (lrow W Sz)) (wt : nat -> Sz)
    (min_cluster_size : Sz) (max_cluster_size : option Sz) (lambda : W -> V),
  dendrogram n L -> sizes_are n wt L -> heights_sorted L ->
  (forall x y, wle x y = true -> wle (lambda y) (lambda x) = true) ->
  (forall x, x < n -> sle min_cluster_size (wt x) = false) -> 2 <= n ->
  exists T, condense_tree L lambda min_cluster_size max_cluster_size wt = Ok T /\
    condensed n wt min_cluster_size T /\
    faithful n L wt min_cluster_size max_cluster_size lambda T /\
    (max_cluster_size = None -> splits_once n T).
Proof. exact c24. Qed.
Print Assumptions C24_condensed_tree_well_formed.

(** Without a maximum size the rows of every cluster are listed in order of
    density, so the last one is the densest. *)
Theorem C24_rows_in_order_of_density :
  forall (W V : WOrd) (Sz : SOrd) (n : nat) (L : list (lrow W Sz)) (wt : nat -> Sz)
    (min_cluster_size : Sz) (lambda : W -> V) T,
  dendrogram n L -> sizes_are n wt L -> heights_sorted L ->
  (forall x y, wle x y = true -> wle (lambda y) (lambda x) = true) ->
  (forall x, x < n -> sle min_cluster_size (wt x) = false) -> 2 <= n ->
  condense_tree L lambda min_cluster_size None wt = Ok T ->
  forall T1 r T2, T = T1 ++ r :: T2 -> forall q, In q T1 -> c_parent q = c_parent r -> wle (c_lam q) (c_lam r) = true.
Proof. exact c24_ascending. Qed.
Print Assumptions C24_rows_in_order_of_density.

(** The lambda of HDBSCAN meets the hypothesis on [lambda]. *)
Theorem C24_hdbscan_lambda_antitone :
  forall x y : QInf, wle x y = true -> wle (hdbscan_lambda_value y) (hdbscan_lambda_value x) = true.
Proof. exact hdbscan_lambda_antitone. Qed.
Print Assumptions C24_hdbscan_lambda_antitone.

(** The hypothesis on the minimum size is needed: with minimum cluster size 1,
    which the parameter checks accept, a sample gets lost. *)
Theorem C23_min_cluster_size_one_refuted :
  exists (L : list (lrow QInf NatSize)) T,
    dendrogram 2 L /\ sizes_are (Sz := NatSize) 2 (fun _ => 1) L /\ heights_sorted L /\
    condense_tree L hdbscan_lambda_value (1 : NatSize) None (fun _ => 1) = Ok T /\
    ~ In 0 (map c_child T).
Proof. exact c23_refuted. Qed.
Print Assumptions C23_min_cluster_size_one_refuted.

(** Non-vacuity: eight samples in two groups, one of which splits again. *)
Definition q (z : Z) : QInf := Some (Q2Qc (inject_Z z)).
Definition row (a b : nat) (d : QInf) (s : nat) : lrow QInf NatSize :=
  {| l_a := a; l_b := b; l_d := d; l_n := s |}.
Definition exc : list (lrow QInf NatSize) :=
  [row 1 0 (q 1) 2; row 3 2 (q 1) 2; row 5 4 (q 2) 2; row 6 10 (q 2) 3; row 9 8 (q 4) 4;
   row 12 11 (q 5) 7; row 13 7 None 8].

Example C24_example_dendrogram : dendrogram 8 exc.
Proof. apply dendrogram_checked. reflexivity. Qed.
Example C24_example_sizes : sizes_are (Sz := NatSize) 8 (fun _ => 1) exc.
Proof. apply sizes_checked; reflexivity. Qed.
Example C24_example_heights : heights_sorted exc.
Proof. repeat constructor. Qed.
Example C24_example_run :
  (let* T := condense_tree exc hdbscan_lambda_value (2 : NatSize) None (fun _ => 1) in
   Ok (map (fun r => (c_parent r, c_child r, option_map this (c_lam r), c_size r)) T))
  = Ok [(8, 7, Some 0%Q, 1); (8, 9, Some (1 # 5)%Q, 4); (8, 10, Some (1 # 5)%Q, 3);
        (9, 11, Some (1 # 4)%Q, 2); (9, 12, Some (1 # 4)%Q, 2); (10, 6, Some (1 # 2)%Q, 1);
        (11, 3, Some 1%Q, 1); (11, 2, Some 1%Q, 1); (12, 1, Some 1%Q, 1); (12, 0, Some 1%Q, 1);
        (10, 5, Some (1 # 2)%Q, 1); (10, 4, Some (1 # 2)%Q, 1)].
Proof. vm_compute. reflexivity. Qed.
