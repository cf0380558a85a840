(** C68: the density at which a sample leaves the hierarchy, and its strength. *)
From Coq Require Import List Arith Lia Bool ZArith Permutation QArith Qcanon.
From Verif Require Import Prelude Order Graph Size Num S_Kruskal M_Kruskal M_KruskalEntry M_Linkage M_Condense S_Condense M_Select M_Labels P_LabelsEx
  M_Pipeline S_Pipeline P_PipelineEx M_TreeQuery M_Boruvka S_SpaceTree S_Boruvka M_Estimator S_Estimator P_EstimatorEx P_Sort S_Dbscan P_EpsilonTop S_Level S_Join P_JoinTop
  Properties_SpaceTree Properties_Dbscan Properties_Level.
Import ListNotations.
Local Open Scope nat_scope.

(** Every sample without missing values has one row in the condensed tree, whose
    lambda is the density of the distance [d] beyond which, and only beyond which,
    at least min_cluster_size samples are density-connected to it.  So this number
    depends only on the samples: not on how ties are ordered, on the selection
    method or on which cluster the sample ends in. *)
Theorem C68_leaving_density :
  forall (W V : WOrd) (Row : Type) (lam : W -> V) (LA : LamArith V) (garbage : nat -> V) (zero : W) (dist : Row -> Row -> W) (min_samples : nat)
    (finite : Row -> bool) (set_list : list nat -> list nat) (X : list Row) (A : Arith V NatSize)
    (by_parent : list (crow V NatSize) -> list (crow V NatSize)) (st : settings V NatSize) r,
  (forall l, Permutation (set_list l) l) -> setting_ok lam LA A by_parent st ->
  (forall a b, dist a b = dist b a) -> (forall a b, wle (dist a a) (dist a b) = true) -> (forall a b, wle zero (dist a b) = true) ->
  (if forallb finite X then 2 else 3) <= length (filter finite X) ->
  min_cluster_size st <= length (filter finite X) -> cluster_selection_persistence st = None ->
  fit (la_zero LA) finite set_list (fast_hdbscan lam LA garbage (pairs_mst zero dist min_samples) A by_parent st) X = Ok r ->
  forall p a, nth_error X p = Some a -> finite a = true ->
  exists d, joins_at (row_distance finite dist X) (length X) min_samples (min_cluster_size st) p d /\
    (exists q, In q (f_condensed r) /\ c_child q = p) /\ forall q, In q (f_condensed r) -> c_child q = p -> c_lam q = lam d.
Proof. exact @fit_density. Qed.
Print Assumptions C68_leaving_density.

(** The distance is unique. *)
Theorem C68_distance_unique :
  forall (W : WOrd) (D : nat -> nat -> W) (n min_samples k x : nat) (d d' : W),
  joins_at D n min_samples k x d -> joins_at D n min_samples k x d' -> wle d d' = true.
Proof. exact @joins_at_le. Qed.
Print Assumptions C68_distance_unique.

(** The strength of a labelled sample is the ratio (see [relative]) of its own
    leaving density to one density [m] of its cluster.  [m] is zero or the leaving
    density of a member; with 'leaf' it is the highest of the members. *)
Theorem C68_strengths :
  forall (W V : WOrd) (Row : Type) (lam : W -> V) (LA : LamArith V) (garbage : nat -> V) (zero : W) (dist : Row -> Row -> W) (min_samples : nat)
    (finite : Row -> bool) (set_list : list nat -> list nat) (X : list Row) (A : Arith V NatSize)
    (by_parent : list (crow V NatSize) -> list (crow V NatSize)) (st : settings V NatSize) r,
  (forall l, Permutation (set_list l) l) -> setting_ok lam LA A by_parent st ->
  (forall a b, dist a b = dist b a) -> (forall a b, wle (dist a a) (dist a b) = true) -> (forall a b, wle zero (dist a b) = true) ->
  (if forallb finite X then 2 else 3) <= length (filter finite X) ->
  min_cluster_size st <= length (filter finite X) -> cluster_selection_persistence st = None ->
  fit (la_zero LA) finite set_list (fast_hdbscan lam LA garbage (pairs_mst zero dist min_samples) A by_parent st) X = Ok r ->
  cluster_selection_epsilon st = None -> allow_single_cluster st = false -> min_samples < length (filter finite X) ->
  (forall a b, In a X -> In b X -> finite a = true -> finite b = true -> wlt (la_zero LA) (lam (dist a b)) = true) ->
  forall p, p < length X -> nth p (f_labels r) 0%Z <> (-1)%Z ->
  exists d m, joins_at (row_distance finite dist X) (length X) min_samples (min_cluster_size st) p d /\
    relative LA m (lam d) (nth p (f_probabilities r) (la_zero LA)) /\
    (m = la_zero LA \/ exists q e, q < length X /\ nth q (f_labels r) 0%Z = nth p (f_labels r) 0%Z /\
       joins_at (row_distance finite dist X) (length X) min_samples (min_cluster_size st) q e /\ m = lam e) /\
    (cluster_selection_method st = Leaf -> m <> la_zero LA /\
       forall q e, q < length X -> nth q (f_labels r) 0%Z = nth p (f_labels r) 0%Z ->
         joins_at (row_distance finite dist X) (length X) min_samples (min_cluster_size st) q e -> wle (lam e) m = true).
Proof. exact @fit_strength. Qed.
Print Assumptions C68_strengths.

(** The leaving densities with the spanning tree of the parallel search over a
    space tree, on any number of threads. *)
Theorem C68_leaving_density_boruvka :
  forall (W V : WOrd) (lam : W -> V) (LA : LamArith V) (garbage : nat -> V) (A : Arith V NatSize)
    (by_parent : list (crow V NatSize) -> list (crow V NatSize)) (st : settings V NatSize) t n (rd lb : nat -> nat -> W) zero root mode min_samples,
  setting_ok lam LA A by_parent st -> min_cluster_size st <= n -> cluster_selection_persistence st = None ->
  tree_shape t n -> lower_bounds t rd lb ->
  (forall i j, i < n -> j < n -> rd i j = rd j i) ->
  (forall i j, i < n -> j < n -> wfinite (rd i j) = true) ->
  wfinite zero = true -> (forall i, i < n -> wle (rd i i) zero = true) ->
  (forall x y, wle x y = true -> wle (root x) (root y) = true) ->
  2 <= n -> min_samples < n -> threads_available mode ->
  (forall i j, i < n -> j < n -> wle zero (rd i j) = true) ->
  exists M nbrs core, parallel_boruvka t n rd lb zero root mode min_samples = Ok (M, nbrs, core) /\
    forall ls ps T, clusters_from_spanning_tree lam LA A garbage by_parent st M = Ok (ls, ps, T) ->
    forall q, In q T -> c_child q < n ->
    exists d, joins_at (fun i j => root (rd i j)) n min_samples (min_cluster_size st) (c_child q) d /\ c_lam q = lam d.
Proof. exact @boruvka_density. Qed.
Print Assumptions C68_leaving_density_boruvka.

(** For any spanning tree, whatever it was computed from. *)
Theorem C68_leaving_density_of_a_spanning_tree :
  forall (W V : WOrd) (lam : W -> V) (LA : LamArith V) (A : Arith V NatSize) (garbage : nat -> V)
    (by_parent : list (crow V NatSize) -> list (crow V NatSize)) (st : settings V NatSize) (n : nat) (M : list (edge W))
    (ls : list Z) (ps : list V) (T : list (crow V NatSize)),
  setting_ok lam LA A by_parent st -> spanning_tree n M -> 2 <= n -> min_cluster_size st <= n ->
  clusters_from_spanning_tree lam LA A garbage by_parent st M = Ok (ls, ps, T) -> cluster_selection_persistence st = None ->
  forall q, In q T -> c_child q < n ->
  exists d, joins_by (Sz := NatSize) n (fun _ => 1) (min_cluster_size st) M (c_child q) d /\ c_lam q = lam d.
Proof. exact @plain_density. Qed.
Print Assumptions C68_leaving_density_of_a_spanning_tree.

(** The same with sample weights: the group must weigh at least min_cluster_size. *)
Theorem C68_weighted_leaving_density_of_a_spanning_tree :
  forall (W V : WOrd) (lam : W -> V) (LA : LamArith V) (Sz : SOrd) (A : Arith V Sz) (garbage : nat -> V)
    (by_parent : list (crow V Sz) -> list (crow V Sz)) (st : settings V Sz) (n : nat) (M : list (edge W)) (ws : list Sz)
    (ls : list Z) (ps : list V) (T : list (crow V Sz)),
  setting_ok lam LA A by_parent st -> spanning_tree n M -> 2 <= n -> length ws = n -> sle (s := Sz) szero sone = true ->
  (forall w, In w ws -> sle szero w = true /\ slt w (min_cluster_size st) = true) -> sle (min_cluster_size st) (ssum ws) = true ->
  clusters_from_spanning_tree_weighted lam LA A garbage by_parent st M ws = Ok (ls, ps, T) -> cluster_selection_persistence st = None ->
  forall q, In q T -> c_child q < n ->
  exists d, joins_by n (fun x => nth x ws szero) (min_cluster_size st) M (c_child q) d /\ c_lam q = lam d.
Proof. exact @weighted_density. Qed.
Print Assumptions C68_weighted_leaving_density_of_a_spanning_tree.

Theorem C68_strengths_of_a_spanning_tree :
  forall (W V : WOrd) (lam : W -> V) (LA : LamArith V) (A : Arith V NatSize) (garbage : nat -> V)
    (by_parent : list (crow V NatSize) -> list (crow V NatSize)) (st : settings V NatSize) (n : nat) (M : list (edge W))
    (ls : list Z) (ps : list V) (T : list (crow V NatSize)),
  setting_ok lam LA A by_parent st -> spanning_tree n M -> 2 <= n -> min_cluster_size st <= n ->
  clusters_from_spanning_tree lam LA A garbage by_parent st M = Ok (ls, ps, T) ->
  cluster_selection_persistence st = None -> cluster_selection_epsilon st = None -> allow_single_cluster st = false ->
  (forall e, In e M -> wlt (la_zero LA) (lam (ewt e)) = true) ->
  forall x, x < n -> nth x ls 0%Z <> (-1)%Z ->
  exists d m, joins_by (Sz := NatSize) n (fun _ => 1) (min_cluster_size st) M x d /\ relative LA m (lam d) (nth x ps (la_zero LA)) /\
    (m = la_zero LA \/ exists y e, y < n /\ nth y ls 0%Z = nth x ls 0%Z /\ joins_by (Sz := NatSize) n (fun _ => 1) (min_cluster_size st) M y e /\ m = lam e) /\
    (cluster_selection_method st = Leaf -> m <> la_zero LA /\
       forall y e, y < n -> nth y ls 0%Z = nth x ls 0%Z -> joins_by (Sz := NatSize) n (fun _ => 1) (min_cluster_size st) M y e -> wle (lam e) m = true).
Proof. exact @plain_strength. Qed.
Print Assumptions C68_strengths_of_a_spanning_tree.

(** ** Examples *)

(** Samples 0 1 2 3 | 10 11 12 | 20 on a line and a missing row 1, two neighbours,
    clusters of two: sample 20 is 9 from its second neighbour, so it leaves at 1/9;
    sample 0 is 2 from its second neighbour, so it leaves at 1/2; samples 1 and 2
    have two neighbours at distance 1. *)
Example C68_example : exists r, level_line 2 Eom false 0 2 dense_rows = Ok r /\
  map (fun q => match c_lam q with Some l => (c_child q, this l) | None => (c_child q, 0%Q) end) (filter (fun q => c_child q <? 9) (f_condensed r))
    = [(1%nat, 0); (8%nat, 1 # 9); (7%nat, 1 # 2); (4%nat, 1 # 2); (6%nat, 1 # 2); (5%nat, 1 # 2); (0%nat, 1 # 2); (3%nat, 1); (2%nat, 1)]%Q /\
  map (fun p => match p with Some l => this l | None => 0%Q end) (f_probabilities r) = [(1 # 2); 0; 1; 1; (1 # 2); 1; 1; 1; 0]%Q.
Proof. eexists. split; [vm_compute; reflexivity|]. split; vm_compute; reflexivity. Qed.
(** The hypotheses about the settings and the sizes; those about the distances are
    in C66_example_hypotheses and C67_example_hypotheses. *)
Example C68_example_hypotheses :
  cluster_selection_persistence (exact_settings (Sz := NatSize) 2 Eom false 0%Qc 0%Qc) = None /\
  cluster_selection_epsilon (exact_settings (Sz := NatSize) 2 Eom false 0%Qc 0%Qc) = None /\
  2 < length (filter present dense_rows) /\ length (filter present dense_rows) = 8.
Proof. split; [vm_compute; reflexivity|]. split; [vm_compute; reflexivity|]. split; [vm_compute; lia|vm_compute; reflexivity]. Qed.
(** Sample 0 joins one other sample exactly beyond distance 2, by the definition alone. *)
Example C68_joins_example : joins_at (W := QInf) (row_distance present line_dist dense_rows) 9 2 2 0 (Some (Q2Qc (inject_Z 2))).
Proof.
  intro eps. set (D := row_distance present line_dist dense_rows). split.
  - intros (xs & N & L & U). destruct xs as [|x [|y [|]]]; cbn [length] in L; try lia. inversion_clear N as [|? ? N1 _].
    assert (H : exists z, z <> 0 /\ density_connected D 9 2 eps 0 z).
    { destruct (Nat.eq_dec x 0) as [->|Hx]; [exists y; split; [intros ->; apply N1; now left|apply U; cbn; auto]|exists x; split; [auto|apply U; cbn; auto]]. }
    destruct H as (z & Hz & K). assert (C : core_sample D 9 2 eps 0).
    { clear -K Hz. induction K as [|y z K IH Hy Hz' Cy Cz Lw]; [congruence|]. destruct (Nat.eq_dec y 0) as [->|]; auto. }
    destruct C as [C|(near & N & Ln & U')]; [lia|]. destruct near as [|j [|k [|]]]; cbn [length] in Ln; try lia. inversion_clear N as [|? ? N2 _].
    destruct (U' j ltac:(cbn; auto)) as (J1 & J2 & J3). destruct (U' k ltac:(cbn; auto)) as (K1 & K2 & K3).
    assert (Q : forallb (fun j => (j =? 0) || (j =? 2) || wle (w := QInf) (Some (Q2Qc (inject_Z 2))) (D 0 j)) (seq 0 9) = true) by (vm_compute; reflexivity).
    rewrite forallb_forall in Q. pose proof (Q j ltac:(apply in_seq; lia)) as Qj. pose proof (Q k ltac:(apply in_seq; lia)) as Qk.
    apply orb_true_iff in Qj as [Qj|Qj]; [|eapply wle_lt_trans; [exact Qj|exact J3]].
    apply orb_true_iff in Qj as [Qj|Qj]; apply Nat.eqb_eq in Qj; [congruence|].
    apply orb_true_iff in Qk as [Qk|Qk]; [|eapply wle_lt_trans; [exact Qk|exact K3]].
    apply orb_true_iff in Qk as [Qk|Qk]; apply Nat.eqb_eq in Qk; [congruence|]. exfalso. apply N2. left. congruence.
  - intro H. assert (Hlt : forall i j, wle (w := QInf) (D i j) (Some (Q2Qc (inject_Z 2))) = true -> wlt (W := QInf) (D i j) eps = true)
      by (intros; eapply wle_lt_trans; [eassumption|exact H]).
    assert (Hc : forall i a b, a <> b -> a <> i -> b <> i -> a < 9 -> b < 9 -> wlt (W := QInf) (D i a) eps = true -> wlt (W := QInf) (D i b) eps = true -> core_sample D 9 2 eps i).
    { intros i a b Hab Ha Hb La Lb Wa Wb. right. exists [a; b]. split; [constructor; [intros [|[]]; congruence|constructor; [intros []|constructor]]|].
      split; auto. intros j [<-|[<-|[]]]; auto. }
    exists [0; 2]. split; [constructor; [intros [|[]]; congruence|constructor; [intros []|constructor]]|]. split; auto.
    intros y [<-|[<-|[]]]; (split; [lia|]); [constructor|]. eapply dc_next; [constructor|lia|lia| | |apply Hlt; vm_compute; reflexivity].
    + apply (Hc 0 2 3); try lia; apply Hlt; vm_compute; reflexivity.
    + apply (Hc 2 0 3); try lia; apply Hlt; vm_compute; reflexivity.
Qed.
