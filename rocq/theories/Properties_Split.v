(** C75: which data have clusters. *)
From Coq Require Import List Arith Lia Bool ZArith Permutation QArith Qcanon.
From Verif Require Import Prelude Order Graph Size Num S_Kruskal M_Kruskal M_KruskalEntry M_Linkage M_Condense S_Condense M_Select M_Labels P_LabelsEx
  M_Pipeline S_Pipeline P_PipelineEx M_TreeQuery M_Boruvka S_SpaceTree S_Boruvka M_Estimator S_Estimator P_EstimatorEx P_Sort S_Dbscan P_EpsilonTop S_Unique S_Join P_UniqueEx S_Split P_SplitTop P_SplitEx
  Properties_SpaceTree Properties_Dbscan Properties_Level.
Import ListNotations.
Local Open Scope nat_scope.

(** If at some distance two groups of min_cluster_size samples are
    density-connected within themselves but not to each other, fit reports at
    least two clusters. *)
Theorem C75_two_clusters :
  forall (W V : WOrd) (Row : Type) (lam : W -> V) (LA : LamArith V) (garbage : nat -> V) (zero : W) (dist : Row -> Row -> W) (min_samples : nat)
    (finite : Row -> bool) (set_list : list nat -> list nat) (X : list Row) (A : Arith V NatSize)
    (by_parent : list (crow V NatSize) -> list (crow V NatSize)) (st : settings V NatSize),
  (forall l, Permutation (set_list l) l) -> setting_ok lam LA A by_parent st ->
  (forall a b, dist a b = dist b a) -> (forall a b, wle (dist a a) (dist a b) = true) -> (forall a b, wle zero (dist a b) = true) ->
  (if forallb finite X then 2 else 3) <= length (filter finite X) ->
  cluster_selection_persistence st = None -> cluster_selection_epsilon st = None ->
  allow_single_cluster st = false \/ cluster_selection_method st = Leaf -> min_samples < length (filter finite X) ->
  (forall a b, In a X -> In b X -> finite a = true -> finite b = true -> wlt (la_zero LA) (lam (dist a b)) = true) ->
  forall r, fit (la_zero LA) finite set_list (fast_hdbscan lam LA garbage (pairs_mst zero dist min_samples) A by_parent st) X = Ok r ->
  parted (row_distance finite dist X) (length X) min_samples (min_cluster_size st) ->
  exists p q, p < length X /\ q < length X /\ nth p (f_labels r) 0%Z <> (-1)%Z /\ nth q (f_labels r) 0%Z <> (-1)%Z /\
    nth p (f_labels r) 0%Z <> nth q (f_labels r) 0%Z.
Proof. exact @fit_parted. Qed.
Print Assumptions C75_two_clusters.

(** If there are no two such groups, every row is noise, whatever
    allow_single_cluster, the selection method and cluster_selection_epsilon are.
    This needs a spanning tree without ties. *)
Theorem C75_all_noise :
  forall (W V : WOrd) (Row : Type) (lam : W -> V) (LA : LamArith V) (garbage : nat -> V) (zero : W) (dist : Row -> Row -> W) (min_samples : nat)
    (finite : Row -> bool) (set_list : list nat -> list nat) (X : list Row) (A : Arith V NatSize)
    (by_parent : list (crow V NatSize) -> list (crow V NatSize)) (st : settings V NatSize),
  (forall l, Permutation (set_list l) l) -> setting_ok lam LA A by_parent st ->
  (forall a b, dist a b = dist b a) -> (forall a b, wle (dist a a) (dist a b) = true) -> (forall a b, wle zero (dist a b) = true) ->
  (if forallb finite X then 2 else 3) <= length (filter finite X) ->
  forall r, fit (la_zero LA) finite set_list (fast_hdbscan lam LA garbage (pairs_mst zero dist min_samples) A by_parent st) X = Ok r ->
  cluster_selection_persistence st = None ->
  (forall M, pairs_mst zero dist min_samples (filter finite X) = Ok M -> distinct_weights M) ->
  ~ parted (row_distance finite dist X) (length X) min_samples (min_cluster_size st) ->
  f_labels r = repeat (-1)%Z (length X).
Proof. exact @fit_unparted. Qed.
Print Assumptions C75_all_noise.

(** With allow_single_cluster=False or 'leaf', and no cluster_selection_epsilon,
    the number of clusters is never one. *)
Theorem C75_never_one :
  forall (W V : WOrd) (Row : Type) (lam : W -> V) (LA : LamArith V) (garbage : nat -> V) (zero : W) (dist : Row -> Row -> W) (min_samples : nat)
    (finite : Row -> bool) (set_list : list nat -> list nat) (X : list Row) (A : Arith V NatSize)
    (by_parent : list (crow V NatSize) -> list (crow V NatSize)) (st : settings V NatSize),
  (forall l, Permutation (set_list l) l) -> setting_ok lam LA A by_parent st ->
  (forall a b, dist a b = dist b a) -> (forall a b, wle (dist a a) (dist a b) = true) -> (forall a b, wle zero (dist a b) = true) ->
  (if forallb finite X then 2 else 3) <= length (filter finite X) ->
  cluster_selection_persistence st = None -> cluster_selection_epsilon st = None ->
  allow_single_cluster st = false \/ cluster_selection_method st = Leaf -> min_samples < length (filter finite X) ->
  (forall a b, In a X -> In b X -> finite a = true -> finite b = true -> wlt (la_zero LA) (lam (dist a b)) = true) ->
  forall r p, fit (la_zero LA) finite set_list (fast_hdbscan lam LA garbage (pairs_mst zero dist min_samples) A by_parent st) X = Ok r ->
  p < length X -> nth p (f_labels r) 0%Z <> (-1)%Z ->
  exists q, q < length X /\ nth q (f_labels r) 0%Z <> (-1)%Z /\ nth q (f_labels r) 0%Z <> nth p (f_labels r) 0%Z.
Proof. exact @fit_never_one. Qed.
Print Assumptions C75_never_one.

(** C42 for the data: a persistence threshold makes fit fail if and, without ties,
    only if there are no two such groups. *)
Theorem C42_fit_fails_on_one_group :
  forall (W V : WOrd) (Row : Type) (lam : W -> V) (LA : LamArith V) (garbage : nat -> V) (zero : W) (dist : Row -> Row -> W) (min_samples : nat)
    (finite : Row -> bool) (set_list : list nat -> list nat) (X : list Row) (A : Arith V NatSize)
    (by_parent : list (crow V NatSize) -> list (crow V NatSize)) (st : settings V NatSize),
  (forall l, Permutation (set_list l) l) -> setting_ok lam LA A by_parent st ->
  (forall a b, dist a b = dist b a) -> (forall a b, wle (dist a a) (dist a b) = true) -> (forall a b, wle zero (dist a b) = true) ->
  (if forallb finite X then 2 else 3) <= length (filter finite X) ->
  forall persists, cluster_selection_persistence st = Some persists ->
  (parted (row_distance finite dist X) (length X) min_samples (min_cluster_size st) ->
     exists r, fit (la_zero LA) finite set_list (fast_hdbscan lam LA garbage (pairs_mst zero dist min_samples) A by_parent st) X = Ok r) /\
  ((forall M, pairs_mst zero dist min_samples (filter finite X) = Ok M -> distinct_weights M) ->
     ~ parted (row_distance finite dist X) (length X) min_samples (min_cluster_size st) ->
     fit (la_zero LA) finite set_list (fast_hdbscan lam LA garbage (pairs_mst zero dist min_samples) A by_parent st) X = Err IndexError).
Proof. exact @fit_persistence. Qed.
Print Assumptions C42_fit_fails_on_one_group.

(** ** Any spanning tree *)
Theorem C75_two_clusters_of_a_spanning_tree :
  forall (W V : WOrd) (lam : W -> V) (LA : LamArith V) (A : Arith V NatSize) (garbage : nat -> V)
    (by_parent : list (crow V NatSize) -> list (crow V NatSize)) (st : settings V NatSize) (n : nat) (M : list (edge W)),
  setting_ok lam LA A by_parent st -> spanning_tree n M -> 2 <= n ->
  forall ls ps T, clusters_from_spanning_tree lam LA A garbage by_parent st M = Ok (ls, ps, T) ->
  cluster_selection_persistence st = None -> cluster_selection_epsilon st = None ->
  allow_single_cluster st = false \/ cluster_selection_method st = Leaf -> (forall e, In e M -> wlt (la_zero LA) (lam (ewt e)) = true) ->
  parted_by (Sz := NatSize) n (fun _ => 1) (min_cluster_size st) M ->
  exists x y, x < n /\ y < n /\ nth x ls 0%Z <> (-1)%Z /\ nth y ls 0%Z <> (-1)%Z /\ nth x ls 0%Z <> nth y ls 0%Z.
Proof. exact @parted_two. Qed.
Print Assumptions C75_two_clusters_of_a_spanning_tree.

Theorem C75_all_noise_of_a_spanning_tree :
  forall (W V : WOrd) (lam : W -> V) (LA : LamArith V) (A : Arith V NatSize) (garbage : nat -> V)
    (by_parent : list (crow V NatSize) -> list (crow V NatSize)) (st : settings V NatSize) (n : nat) (M : list (edge W)),
  setting_ok lam LA A by_parent st -> spanning_tree n M -> 2 <= n ->
  forall ls ps T, clusters_from_spanning_tree lam LA A garbage by_parent st M = Ok (ls, ps, T) ->
  cluster_selection_persistence st = None -> distinct_weights M ->
  ~ parted_by (Sz := NatSize) n (fun _ => 1) (min_cluster_size st) M -> ls = repeat (-1)%Z n.
Proof. exact @unparted_noise. Qed.
Print Assumptions C75_all_noise_of_a_spanning_tree.

(** With sample weights the groups must weigh min_cluster_size. *)
Theorem C75_weighted_two_clusters_of_a_spanning_tree :
  forall (W V : WOrd) (Sz : SOrd) (lam : W -> V) (LA : LamArith V) (A : Arith V Sz) (garbage : nat -> V)
    (by_parent : list (crow V Sz) -> list (crow V Sz)) (st : settings V Sz) (n : nat) (M : list (edge W)) (ws : list Sz) (ls : list Z) (ps : list V) (T : list (crow V Sz)),
  setting_ok lam LA A by_parent st -> spanning_tree n M -> 2 <= n -> length ws = n -> sle (s := Sz) szero sone = true ->
  (forall w, In w ws -> sle szero w = true /\ slt w (min_cluster_size st) = true) ->
  clusters_from_spanning_tree_weighted lam LA A garbage by_parent st M ws = Ok (ls, ps, T) ->
  cluster_selection_persistence st = None -> cluster_selection_epsilon st = None ->
  allow_single_cluster st = false \/ cluster_selection_method st = Leaf -> (forall e, In e M -> wlt (la_zero LA) (lam (ewt e)) = true) ->
  parted_by n (fun x => nth x ws szero) (min_cluster_size st) M ->
  exists x y, x < n /\ y < n /\ nth x ls 0%Z <> (-1)%Z /\ nth y ls 0%Z <> (-1)%Z /\ nth x ls 0%Z <> nth y ls 0%Z.
Proof. exact @weighted_two. Qed.
Print Assumptions C75_weighted_two_clusters_of_a_spanning_tree.

Theorem C75_weighted_all_noise_of_a_spanning_tree :
  forall (W V : WOrd) (Sz : SOrd) (lam : W -> V) (LA : LamArith V) (A : Arith V Sz) (garbage : nat -> V)
    (by_parent : list (crow V Sz) -> list (crow V Sz)) (st : settings V Sz) (n : nat) (M : list (edge W)) (ws : list Sz) (ls : list Z) (ps : list V) (T : list (crow V Sz)),
  setting_ok lam LA A by_parent st -> spanning_tree n M -> 2 <= n -> length ws = n -> sle (s := Sz) szero sone = true ->
  (forall w, In w ws -> sle szero w = true /\ slt w (min_cluster_size st) = true) ->
  clusters_from_spanning_tree_weighted lam LA A garbage by_parent st M ws = Ok (ls, ps, T) ->
  cluster_selection_persistence st = None -> distinct_weights M ->
  ~ parted_by n (fun x => nth x ws szero) (min_cluster_size st) M -> ls = repeat (-1)%Z n.
Proof. exact @weighted_noise. Qed.
Print Assumptions C75_weighted_all_noise_of_a_spanning_tree.

(** With the spanning tree of the parallel search over a space tree. *)
Theorem C75_clusters_boruvka :
  forall (W V : WOrd) (lam : W -> V) (LA : LamArith V) (garbage : nat -> V) (A : Arith V NatSize)
    (by_parent : list (crow V NatSize) -> list (crow V NatSize)) (st : settings V NatSize) t n (rd lb : nat -> nat -> W) zero root mode min_samples,
  setting_ok lam LA A by_parent st -> cluster_selection_persistence st = None ->
  tree_shape t n -> lower_bounds t rd lb ->
  (forall i j, i < n -> j < n -> rd i j = rd j i) ->
  (forall i j, i < n -> j < n -> wfinite (rd i j) = true) ->
  wfinite zero = true -> (forall i, i < n -> wle (rd i i) zero = true) ->
  (forall x y, wle x y = true -> wle (root x) (root y) = true) ->
  2 <= n -> min_samples < n -> threads_available mode ->
  (forall i j, i < n -> j < n -> wle zero (rd i j) = true) ->
  exists M nbrs core, parallel_boruvka t n rd lb zero root mode min_samples = Ok (M, nbrs, core) /\
    forall ls ps T, clusters_from_spanning_tree lam LA A garbage by_parent st M = Ok (ls, ps, T) ->
    (cluster_selection_epsilon st = None -> allow_single_cluster st = false \/ cluster_selection_method st = Leaf ->
     (forall e, In e M -> wlt (la_zero LA) (lam (ewt e)) = true) -> parted (fun i j => root (rd i j)) n min_samples (min_cluster_size st) ->
     exists x y, x < n /\ y < n /\ nth x ls 0%Z <> (-1)%Z /\ nth y ls 0%Z <> (-1)%Z /\ nth x ls 0%Z <> nth y ls 0%Z) /\
    (distinct_weights M -> ~ parted (fun i j => root (rd i j)) n min_samples (min_cluster_size st) -> ls = repeat (-1)%Z n).
Proof. exact @boruvka_parted. Qed.
Print Assumptions C75_clusters_boruvka.

(** ** Examples *)

(** Two pairs and a missing row: apart at distance 2, two clusters. *)
Definition two_pairs : list (option Z) := [Some 0; None; Some 1; Some 10; Some 11]%Z.
Example C75_example : exists r, level_line 2 Eom false 0 1 two_pairs = Ok r /\ f_labels r = [1; -1; 1; 0; 0]%Z.
Proof. eexists. split; vm_compute; reflexivity. Qed.
Example C75_example_parted : parted (W := QInf) (row_distance present line_dist two_pairs) 5 1 2.
Proof.
  set (D := row_distance present line_dist two_pairs). exists (Some (Q2Qc (inject_Z 2))), 0, 3. split; [lia|]. split; [lia|].
  assert (HG : forall a b, a < 5 -> b < 5 -> a <> b -> wlt (W := QInf) (D a b) (Some (Q2Qc (inject_Z 2))) = true -> gathered D 5 1 2 (Some (Q2Qc (inject_Z 2))) a).
  { intros a b Ha Hb Hab Hw. exists [a; b]. split; [constructor; [intros [|[]]; congruence|constructor; [intros []|constructor]]|]. split; auto.
    intros y [<-|[<-|[]]]; (split; [auto|]); [constructor|]. eapply dc_next; [constructor|auto|auto|left; lia|left; lia|exact Hw]. }
  split; [apply (HG 0 2); try lia; vm_compute; reflexivity|]. split; [apply (HG 3 4); try lia; vm_compute; reflexivity|].
  intro K. assert (I : forall z, density_connected D 5 1 (Some (Q2Qc (inject_Z 2))) 0 z -> z = 0 \/ z = 2).
  { intros z H. induction H as [|y z H IH Hy Hz _ _ L]; auto.
    assert (Q : forallb (fun a => forallb (fun b => negb (wlt (W := QInf) (D a b) (Some (Q2Qc (inject_Z 2)))) || (b =? 0) || (b =? 2)) (seq 0 5)) [0; 2] = true) by (vm_compute; reflexivity).
    rewrite forallb_forall in Q. specialize (Q y ltac:(destruct IH as [->| ->]; cbn; auto)). rewrite forallb_forall in Q. specialize (Q z ltac:(apply in_seq; lia)).
    rewrite L in Q. cbn [negb orb] in Q. apply orb_true_iff in Q as [Q|Q]; apply Nat.eqb_eq in Q; auto. }
  destruct (I 3 K) as [E|E]; discriminate E.
Qed.
Example C75_example_hypotheses :
  (forall a b, In a two_pairs -> In b two_pairs -> present a = true -> present b = true ->
     wlt (W := QInf) (la_zero ExactLam) (hdbscan_lambda_value (line_dist a b)) = true) /\
  3 <= length (filter present two_pairs) /\ 1 < length (filter present two_pairs).
Proof.
  split; [|vm_compute; lia]. intros a b Ha Hb Pa Pb. assert (K : forallb (fun a => forallb (fun b => negb (present a && present b) ||
    wlt (W := QInf) (la_zero ExactLam) (hdbscan_lambda_value (line_dist a b))) two_pairs) two_pairs = true) by (vm_compute; reflexivity).
  rewrite forallb_forall in K. specialize (K a Ha). rewrite forallb_forall in K. specialize (K b Hb). rewrite Pa, Pb in K. exact K.
Qed.

(** Growing gaps: no two groups are apart, and the spanning tree has no ties. *)
Definition growing_gaps : list (option Z) := map Some [0; 1; 3; 6; 10]%Z.
Example C75_example_one_group : ~ parted (W := QInf) (row_distance present line_dist growing_gaps) 5 1 2 /\
  exists M, pairs_mst (W := QInf) (Some 0%Qc) line_dist 1 (filter present growing_gaps) = Ok M /\ distinct_weights M.
Proof.
  split.
  - apply (one_group_unparted _ 5 1 2 pred); try lia; [|vm_compute; reflexivity]. intros i j. apply row_distance_sym. apply C66_example_hypotheses.
  - eexists. split; [vm_compute; reflexivity|]. apply distinct_by. vm_compute. reflexivity.
Qed.

(** ** Findings *)

(** allow_single_cluster=True does not report the single group that these data are:
    everything is noise. *)
Theorem C75_allow_single_cluster_refuted :
  exists r, level_line 2 Eom true 0 1 growing_gaps = Ok r /\ f_labels r = [-1; -1; -1; -1; -1]%Z.
Proof. eexists. split; vm_compute; reflexivity. Qed.
Print Assumptions C75_allow_single_cluster_refuted.

(** allow_single_cluster=False does not prevent a single cluster of all samples if
    cluster_selection_epsilon exceeds the distance of the last split. *)
Theorem C75_single_cluster_not_allowed_refuted :
  exists r, level_line 2 Leaf false 20 1 (map Some [0; 1; 10; 11]%Z) = Ok r /\ f_labels r = [0; 0; 0; 0]%Z.
Proof. eexists. split; vm_compute; reflexivity. Qed.
Print Assumptions C75_single_cluster_not_allowed_refuted.

(** With ties the order of the rows decides: evenly spaced samples are one group at
    every distance that joins any of them, yet one order gives two clusters and
    another only noise. *)
Theorem C75_ties_refuted :
  ~ parted (W := QInf) (row_distance present line_dist (map Some [0; 3; 1; 2]%Z)) 4 1 2 /\
  (exists r, level_line 2 Eom false 0 1 (map Some [0; 3; 1; 2]%Z) = Ok r /\ f_labels r = [1; 0; 1; 0]%Z) /\
  (exists r, level_line 2 Eom false 0 1 (map Some [0; 1; 2; 3]%Z) = Ok r /\ f_labels r = [-1; -1; -1; -1]%Z).
Proof.
  split; [|split; eexists; split; vm_compute; reflexivity].
  apply (one_group_unparted _ 4 1 2 (fun i => match i with 1 => 3 | 3 => 2 | _ => 0 end)); try lia; [|vm_compute; reflexivity].
  intros i j. apply row_distance_sym. apply C66_example_hypotheses.
Qed.
Print Assumptions C75_ties_refuted.
