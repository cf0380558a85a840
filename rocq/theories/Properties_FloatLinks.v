(** C64: constraints and stored distances in machine numbers. *)
From Coq Require Import List Arith Bool ZArith Lia Permutation.
From Flocq Require Import Core.Core IEEE754.BinarySingleNaN.
From Verif Require Import Prelude Order Size Num Graph S_Kruskal S_Precomputed M_Kruskal M_KruskalEntry M_Precomputed M_Linkage M_Condense S_Condense M_Select M_Labels
  M_Pipeline S_Pipeline P_PipelineEx M_Estimator S_Estimator M_Constrained M_CoreGraph S_CoreGraph S_Dbscan S_Level S_GraphCut
  M_Float P_FloatOrd P_FloatLaws M_FloatRun P_FloatScores P_FloatLinks.
Import ListNotations.
Local Open Scope nat_scope.

(** C64.  Stabilities in float32 respect zero and the sign, with overflow and
    underflow; this is what C08, C71 and C73 ask of them. *)
Theorem C64_machine_scores :
  ScoreLaws (float_lambda : Double -> Double) (float_scores : Arith Double NatSize) (dzero : Double) score_zero score_nonneg score_pos.
Proof. exact float_score_laws. Qed.
Print Assumptions C64_machine_scores.

(** C64.  A fit on the computed distances [dist] of the rows, with cannot-link
    constraints that number the complete rows, separates what they separate. *)
Theorem C64_machine_constraints :
  forall (garbage : nat -> Double) (by_parent : list (crow Double NatSize) -> list (crow Double NatSize)) (mcs : nat) (method : selection_method)
    (allow_single : bool) (epsilon persistence : double),
  sorts_by_parent by_parent -> 2 <= mcs -> dle persistence dzero = true ->
  forall (Row : Type) (finite : Row -> bool) (set_list : list nat -> list nat) (dist : Row -> Row -> Double) min_samples (X : list Row) pairs groups,
  (forall l, Permutation (set_list l) l) -> (if forallb finite X then 2 else 3) <= length (filter finite X) ->
  valid_constraints (length (filter finite X)) pairs groups ->
  exists r, fit (dzero : Double) finite set_list (fast_hdbscan (float_lambda : Double -> Double) FloatLam garbage
      (constrained_mst (brute_tree (dzero : Double) dist min_samples) pairs true groups) (float_scores : Arith Double NatSize) by_parent
      (float_settings mcs method allow_single epsilon persistence)) X = Ok r /\
    length (f_labels r) = length X /\
    forall pos, places finite X pos -> forall i j, i < length (filter finite X) -> j < length (filter finite X) ->
    user_constraints (option_map sp_entries pairs) groups i j ->
    nth (pos i) (f_labels r) 0%Z = nth (pos j) (f_labels r) 0%Z -> nth (pos i) (f_labels r) 0%Z = (-1)%Z.
Proof. exact @machine_fit. Qed.
Print Assumptions C64_machine_constraints.

(** C64.  The same for stored distances. *)
Theorem C64_machine_constraints_precomputed :
  forall (garbage : nat -> Double) (by_parent : list (crow Double NatSize) -> list (crow Double NatSize)) (mcs : nat) (method : selection_method)
    (allow_single : bool) (epsilon persistence : double),
  sorts_by_parent by_parent -> 2 <= mcs -> dle persistence dzero = true ->
  forall (entries : list (edge Double)) (n min_samples : nat) (pairs : option sparse) (groups : option (list Z)),
  2 <= n -> in_range n entries -> valid_constraints n pairs groups ->
  exists cl M nbrs core ls ps T, resolve_cl_params n pairs true groups = Ok cl /\
    precomputed_kruskal (dzero : Double) entries n min_samples cl = Ok (M, nbrs, core) /\
    float_clusters garbage by_parent (float_settings mcs method allow_single epsilon persistence) M = Ok (ls, ps, T) /\
    clustering (dzero : Double) (done : Double) n ls ps /\
    forall x y, x < n -> y < n -> user_constraints (option_map sp_entries pairs) groups x y ->
      nth x ls 0%Z = nth y ls 0%Z -> nth x ls 0%Z = (-1)%Z.
Proof. exact machine_precomputed. Qed.
Print Assumptions C64_machine_constraints_precomputed.

(** C64.  And clusters of stored distances are density-connected groups, as in C71. *)
Theorem C64_machine_stored_graph :
  forall (garbage : nat -> Double) (by_parent : list (crow Double NatSize) -> list (crow Double NatSize)) (mcs : nat) (method : selection_method)
    (allow_single : bool) (epsilon persistence : double),
  sorts_by_parent by_parent -> 2 <= mcs -> dle persistence dzero = true ->
  let st := float_settings mcs method allow_single epsilon persistence in
  forall (huge : Double) (round : Double -> Double) (entries : list (edge Double)) n min_samples D T,
  2 <= n -> in_range n entries -> graph_distance n entries D -> (forall e, In e entries -> wle (dzero : Double) (ewt e) = true) ->
  precomputed_tree (dzero : Double) huge round entries n min_samples T -> mcs <= n -> root_ok st ->
  forall ls ps C, float_clusters garbage by_parent st T = Ok (ls, ps, C) ->
  forall x, x < n -> nth x ls 0%Z <> (-1)%Z -> exists d, dense_group D n min_samples (fun y => y < n /\ nth y ls 0%Z = nth x ls 0%Z) d.
Proof. exact machine_groups. Qed.
Print Assumptions C64_machine_stored_graph.

(** ** Examples: three pairs; samples 0 and 2 must not be together. *)
Example C64_example_free : machine_labels 0 None = Ok [2; 2; 1; 1; 0; 0]%Z.
Proof. vm_compute. reflexivity. Qed.
Example C64_example_constrained : machine_labels 0 (Some ex_pairs) = Ok [0; 0; 2; 2; 1; 1]%Z.
Proof. vm_compute. reflexivity. Qed.
Example C64_example_constraints_hypotheses : valid_constraints 6 (Some ex_pairs) None /\ in_range 6 (machine_entries 0) /\ dle dzero dzero = true /\
  (forall e, In e (machine_entries 0) -> wle (dzero : Double) (ewt e) = true) /\
  sorts_by_parent (fun ct : list (crow Double NatSize) => nsort c_parent ct).
Proof.
  split; [exact ex_valid|]. split; [|split; [reflexivity|split]].
  - intros e H. cbn [machine_entries In] in H. repeat destruct H as [<-|H]; try tauto; unfold esrc, edst; cbn [fst snd]; lia.
  - intros e H. cbn [machine_entries In] in H. repeat destruct H as [<-|H]; try tauto; vm_compute; reflexivity.
  - exact nsort_by_parent.
Qed.

(** ** Not true of the code: densities are float32.  Stored distances from about 2^150
    on have density zero, so that everything is noise, and those below 2^-128 have
    infinite density, so that they look equal.  Rescaling by a power of two, which
    is exact, changes the clusters. *)
Theorem C64_scale_refuted :
  machine_labels 0 None = Ok [2; 2; 1; 1; 0; 0]%Z /\ machine_labels 150 None = Ok (repeat (-1)%Z 6) /\
  machine_labels (-150) None = Ok [0; 0; 0; 0; 1; 1]%Z /\
  (forall e, In e (machine_entries 150) \/ In e (machine_entries (-150)) -> f_finite 53 1024 (ewt e) = true /\ wlt (dzero : Double) (ewt e) = true).
Proof.
  split; [vm_compute; reflexivity|]. split; [vm_compute; reflexivity|]. split; [vm_compute; reflexivity|].
  intros e [H|H]; cbn [machine_entries In] in H; repeat destruct H as [<-|H]; try tauto; split; vm_compute; reflexivity.
Qed.
Print Assumptions C64_scale_refuted.
