(** C48: complete runs with labelled samples. *)
From Coq Require Import List Arith Bool ZArith QArith Qcanon Permutation.
From Verif Require Import Prelude Order Graph Size Num S_Kruskal S_Precomputed M_Kruskal M_KruskalEntry M_Precomputed M_Linkage S_Linkage M_Condense S_Condense
  M_Select S_Select M_Labels S_Labels M_Epsilon P_EpsilonTop M_Pipeline S_Pipeline P_PipelineEx M_BCubed S_BCubed P_BCScore P_SemiTop.
Import ListNotations.
Local Open Scope nat_scope.

(** C48.  For every spanning tree, every partial labelling, every arithmetic of
    stabilities that does not put a leaf below zero, every arithmetic of BCubed
    scores with the sign rules [BLaws] and every combination of settings: the run
    ends with a clustering, or fails because of a persistence threshold on a
    hierarchy without splits. *)
Theorem C48_labelled_runs_complete :
  forall (W V : WOrd) (lam : W -> V) (LA : LamArith V) (A : Arith V NatSize) (B : BArith) (N : bscore B -> Prop) (garbage : nat -> V)
    (by_parent : list (crow V NatSize) -> list (crow V NatSize)) (listed : list nat -> list nat) (st : settings V NatSize)
    (data_labels : list Z) (virtual : bool) (n : nat) (M : list (edge W)),
  setting_ok lam LA A by_parent st -> BLaws B N -> (forall l, Permutation (listed l) l) -> length data_labels = n ->
  leaves_ok A (la_zero LA) n (fun _ => 1) (min_cluster_size st) -> spanning_tree n M -> 2 <= n ->
  completes LA st n (fun _ => 1) (semi_clusters_from_spanning_tree lam LA A B garbage by_parent listed st data_labels virtual M).
Proof. exact @c48_total. Qed.
Print Assumptions C48_labelled_runs_complete.

(** C48.  Finite distances: every reported cluster has the minimum size and the
    labels are 0, 1, ..., k - 1. *)
Theorem C48_labelled_runs_report_large_clusters :
  forall (W V : WOrd) (lam : W -> V) (LA : LamArith V) (A : Arith V NatSize) (B : BArith) (N : bscore B -> Prop) (garbage : nat -> V)
    (by_parent : list (crow V NatSize) -> list (crow V NatSize)) (listed : list nat -> list nat) (st : settings V NatSize)
    (data_labels : list Z) (virtual : bool) (n : nat) (M : list (edge W)),
  setting_ok lam LA A by_parent st -> BLaws B N -> (forall l, Permutation (listed l) l) -> length data_labels = n ->
  leaves_ok A (la_zero LA) n (fun _ => 1) (min_cluster_size st) -> spanning_tree n M -> 2 <= n ->
  forall ls ps T,
  semi_clusters_from_spanning_tree lam LA A B garbage by_parent listed st data_labels virtual M = Ok (ls, ps, T) ->
  (forall e, In e M -> wlt (la_zero LA) (lam (ewt e)) = true) -> root_ok st ->
  large_clusters (Sz := NatSize) n (fun _ => 1) (min_cluster_size st) ls /\ numbered n ls.
Proof. exact @c48_sizes. Qed.
Print Assumptions C48_labelled_runs_report_large_clusters.

(** C48.  The labels are those of the clusters selected with the given labels
    (which C40 describes), merged up to epsilon. *)
Theorem C48_labels_follow_the_selection :
  forall (W V : WOrd) (lam : W -> V) (LA : LamArith V) (A : Arith V NatSize) (B : BArith) (N : bscore B -> Prop) (garbage : nat -> V)
    (by_parent : list (crow V NatSize) -> list (crow V NatSize)) (listed : list nat -> list nat) (st : settings V NatSize)
    (data_labels : list Z) (virtual : bool) (n : nat) (M : list (edge W)),
  setting_ok lam LA A by_parent st -> BLaws B N -> (forall l, Permutation (listed l) l) -> length data_labels = n ->
  leaves_ok A (la_zero LA) n (fun _ => 1) (min_cluster_size st) -> spanning_tree n M -> 2 <= n ->
  forall ls ps T,
  semi_clusters_from_spanning_tree lam LA A B garbage by_parent listed st data_labels virtual M = Ok (ls, ps, T) ->
  exists R E,
    semi_selected_clusters_of A B listed st data_labels virtual T n = Ok R /\
    condensed (Sz := NatSize) n (fun _ => 1) (min_cluster_size st) T /\ epsilon_clusters_of by_parent st T R = Ok E /\
    NoDup E /\ (forall c, In c E -> is_cluster n T c) /\ disjoint_clusters n T E /\ (cluster_selection_epsilon st = None -> E = R) /\
    (E = [] -> ls = repeat (-1)%Z n) /\
    (E <> [] -> forall r, In r T -> c_child r < n ->
       right_label (la_zero LA) n T E (option_map snd (cluster_selection_epsilon st)) r (nth (c_child r) ls 0%Z)).
Proof. exact @c48_meaning. Qed.
Print Assumptions C48_labels_follow_the_selection.

(** C48 in exact arithmetic: no hypothesis on the scores is left. *)
Theorem C48_exact_labelled_runs_complete :
  forall (garbage : nat -> QInf) (by_parent : list (crow QInf NatSize) -> list (crow QInf NatSize)) (listed : list nat -> list nat)
    (mcs : nat) (m : selection_method) (allow_single : bool) (epsilon persistence : Qc) (data_labels : list Z) (virtual : bool)
    (n : nat) (M : list (edge QInf)),
  sorts_by_parent by_parent -> (forall l, Permutation (listed l) l) -> 2 <= mcs -> spanning_tree n M -> 2 <= n -> length data_labels = n ->
  completes ExactLam (exact_settings (Sz := NatSize) mcs m allow_single epsilon persistence) n (fun _ => 1)
    (exact_semi_clusters garbage by_parent listed (exact_settings (Sz := NatSize) mcs m allow_single epsilon persistence) data_labels virtual M).
Proof. exact @c48_exact. Qed.
Print Assumptions C48_exact_labelled_runs_complete.

Theorem C48_exact_clusters_are_large :
  forall (garbage : nat -> QInf) (by_parent : list (crow QInf NatSize) -> list (crow QInf NatSize)) (listed : list nat -> list nat)
    (mcs : nat) (m : selection_method) (allow_single : bool) (epsilon persistence : Qc) (data_labels : list Z) (virtual : bool)
    (n : nat) (M : list (edge QInf)),
  sorts_by_parent by_parent -> (forall l, Permutation (listed l) l) -> 2 <= mcs -> spanning_tree n M -> 2 <= n -> length data_labels = n ->
  forall ls ps T,
  exact_semi_clusters garbage by_parent listed (exact_settings (Sz := NatSize) mcs m allow_single epsilon persistence) data_labels virtual M
    = Ok (ls, ps, T) ->
  (forall x, In x M -> wfinite (ewt x) = true) ->
  (allow_single = true -> m = Eom -> (epsilon <= 0)%Qc /\ (persistence <= 0)%Qc) ->
  numbered n ls /\
  forall x, x < n -> nth x ls 0%Z <> (-1)%Z ->
    exists ys, NoDup ys /\ (forall y, In y ys <-> y < n /\ nth y ls 0%Z = nth x ls 0%Z) /\ mcs <= length ys.
Proof. exact @c48_exact_sizes. Qed.
Print Assumptions C48_exact_clusters_are_large.

(** C48.  When no sample is labelled, the run without an epsilon returns the labels,
    strengths and condensed tree of the unsupervised run. *)
Theorem C48_no_labels_same_run :
  forall (garbage : nat -> QInf) (by_parent : list (crow QInf NatSize) -> list (crow QInf NatSize)) (listed : list nat -> list nat)
    (mcs : nat) (m : selection_method) (allow_single : bool) (epsilon persistence : Qc) (data_labels : list Z) (virtual : bool)
    (n : nat) (M : list (edge QInf)),
  sorts_by_parent by_parent -> (forall l, Permutation (listed l) l) -> 2 <= mcs -> spanning_tree n M -> 2 <= n -> length data_labels = n ->
  forall ls ps T,
  exact_semi_clusters garbage by_parent listed (exact_settings (Sz := NatSize) mcs m allow_single epsilon persistence) data_labels virtual M
    = Ok (ls, ps, T) ->
  (forall x, x < n -> (nth x data_labels (-1) < 0)%Z) -> (epsilon <= 0)%Qc -> all_finite T ->
  exact_clusters garbage by_parent (exact_settings (Sz := NatSize) mcs m allow_single epsilon persistence) M = Ok (ls, ps, T).
Proof. exact @c48_unlabelled. Qed.
Print Assumptions C48_no_labels_same_run.

(** With labelled samples a cannot-link pair can get the same label, although no
    sample of the pair is labelled (C08 holds without labels). *)
Theorem C48_cannot_link_with_labels_refuted :
  exists entries X cl M nbrs core given ls ps T x y,
    in_range 6 entries /\ valid_constraints 6 (Some X) None /\
    resolve_cl_params 6 (Some X) true None = Ok cl /\
    precomputed_kruskal (Some 0%Qc : QInf) entries 6 1 cl = Ok (M, nbrs, core) /\
    exact_semi_clusters (fun _ => None) by_parent_of (fun l => l) (exact_settings (Sz := NatSize) 2 Eom false 0%Qc 0%Qc) given true M = Ok (ls, ps, T) /\
    user_constraints (Some (sp_entries X)) None x y /\ nth x given (-1)%Z = (-1)%Z /\ nth y given (-1)%Z = (-1)%Z /\
    nth x ls 0%Z = nth y ls 0%Z /\ nth x ls 0%Z <> (-1)%Z.
Proof. exact semi_constraints_refuted. Qed.
Print Assumptions C48_cannot_link_with_labels_refuted.

(** Non-vacuity: eight samples on a line, {0,1},{2,3} close together, {4,...,7}
    apart; minimum size 2.  The labels decide whether the left group is split. *)
Definition line_of_eight : list (edge QInf) :=
  [(0, 1, ex_q 4); (1, 2, ex_q 7); (2, 3, ex_q 4); (3, 4, ex_q 60); (4, 5, ex_q 4); (5, 6, ex_q 5); (6, 7, ex_q 4)].
Definition labelled_run (data_labels : list Z) (epsilon : Qc) : option (list Z) :=
  match exact_semi_clusters (fun _ => None) by_parent_of (fun l => l) (exact_settings (Sz := NatSize) 2 Eom false epsilon 0%Qc) data_labels true line_of_eight with
  | Ok (ls, _, _) => Some ls
  | Err _ => None
  end.
Example C48_example_finite : forallb (fun e => wfinite (ewt e)) line_of_eight = true.
Proof. vm_compute. reflexivity. Qed.
Example C48_example_unlabelled : labelled_run [-1; -1; -1; -1; -1; -1; -1; -1]%Z 0%Qc = Some [0; 0; 0; 0; 1; 1; 1; 1]%Z.
Proof. vm_compute. reflexivity. Qed.
Example C48_example_labelled : labelled_run [5; -1; 7; -1; -1; -1; -1; -1]%Z 0%Qc = Some [2; 2; 1; 1; 0; 0; 0; 0]%Z.
Proof. vm_compute. reflexivity. Qed.
(** An epsilon above the distance 7 merges what the labels separate. *)
Example C48_example_epsilon : labelled_run [5; -1; 7; -1; -1; -1; -1; -1]%Z (Q2Qc 8) = Some [0; 0; 0; 0; 1; 1; 1; 1]%Z.
Proof. vm_compute. reflexivity. Qed.
