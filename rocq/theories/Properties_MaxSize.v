(** C76: max_cluster_size. *)
From Coq Require Import List Arith Lia Bool ZArith Permutation QArith Qcanon.
From Verif Require Import Prelude Order Graph Size Num S_Kruskal M_Kruskal M_KruskalEntry M_Linkage M_Condense S_Condense M_Select M_Labels P_LabelsEx
  M_Pipeline S_Pipeline P_PipelineEx M_Estimator S_Estimator P_EstimatorEx P_Sort S_Dbscan P_EpsilonTop S_MaxSize P_MaxSizeTop P_MaxSizeMissing
  Properties_SpaceTree Properties_Dbscan Properties_Level.
Import ListNotations.
Local Open Scope nat_scope.

(** fit with 'eom', no cluster_selection_epsilon and a maximum size reports no
    cluster of more rows, except with allow_single_cluster and a maximum that is
    one less than the number of rows without missing values.  Any spanning tree,
    any persistence threshold, and densities of zero are allowed. *)
Theorem C76_no_cluster_exceeds_the_maximum :
  forall (W V : WOrd) (Row : Type) (lam : W -> V) (LA : LamArith V) (garbage : nat -> V) (mst_of : list Row -> res (list (edge W)))
    (finite : Row -> bool) (set_list : list nat -> list nat) (X : list Row) (A : Arith V NatSize)
    (by_parent : list (crow V NatSize) -> list (crow V NatSize)) (st : settings V NatSize) (m : nat),
  setting_ok lam LA A by_parent (unbounded st) ->
  (forall M, 2 <= length (filter finite X) -> mst_of (filter finite X) = Ok M -> spanning_tree (length (filter finite X)) M) ->
  cluster_selection_method st = Eom -> cluster_selection_epsilon st = None -> max_cluster_size st = Some m ->
  allow_single_cluster st = false \/ m + 1 <> length (filter finite X) ->
  forall r, fit (la_zero LA) finite set_list (fast_hdbscan lam LA garbage mst_of A by_parent st) X = Ok r ->
  forall p, p < length X -> nth p (f_labels r) 0%Z <> (-1)%Z ->
  exists ys, NoDup ys /\ (forall q, In q ys <-> q < length X /\ nth q (f_labels r) 0%Z = nth p (f_labels r) 0%Z) /\ length ys <= m.
Proof. exact @fit_bounded. Qed.
Print Assumptions C76_no_cluster_exceeds_the_maximum.

(** With sample weights: the total weight of a cluster. *)
Theorem C76_no_cluster_outweighs_the_maximum :
  forall (W V : WOrd) (Sz : SOrd) (lam : W -> V) (LA : LamArith V) (A : Arith V Sz) (garbage : nat -> V)
    (by_parent : list (crow V Sz) -> list (crow V Sz)) (st : settings V Sz) (n : nat) (M : list (edge W)) (ws : list Sz) (m : Sz),
  setting_ok lam LA A by_parent (unbounded st) -> spanning_tree n M -> 2 <= n -> length ws = n -> sle (s := Sz) szero sone = true ->
  (forall w, In w ws -> sle szero w = true /\ slt w (min_cluster_size st) = true) ->
  cluster_selection_method st = Eom -> cluster_selection_epsilon st = None -> max_cluster_size st = Some m -> allow_single_cluster st = false ->
  forall ls ps T, clusters_from_spanning_tree_weighted lam LA A garbage by_parent st M ws = Ok (ls, ps, T) ->
  bounded_clusters n (fun x => nth x ws szero) m ls.
Proof. exact @weighted_bounded. Qed.
Print Assumptions C76_no_cluster_outweighs_the_maximum.

(** What fit does with a maximum [m], from the condensed tree of a fit without one.
    1. It fails with KeyError, or reports the same condensed tree and a clustering
       with labels 0, 1, ..., each cluster of at least min_cluster_size and at most
       [m] rows and equal to a cluster of the tree that fits; every cluster of the
       tree that fits meets a reported one.
    2. No cluster of the tree fits: all rows are noise.
    3. Some fit, and of any two that do one contains the other: fit fails.
    4. Two fit, and nothing that fits contains both: fit reports two clusters. *)
Theorem C76_fit_with_a_maximum :
  forall (W V : WOrd) (Row : Type) (lam : W -> V) (LA : LamArith V) (garbage : nat -> V) (mst_of : list Row -> res (list (edge W)))
    (finite : Row -> bool) (set_list : list nat -> list nat) (X : list Row) (A : Arith V NatSize)
    (by_parent : list (crow V NatSize) -> list (crow V NatSize)) (st : settings V NatSize) (m : nat),
  setting_ok lam LA A by_parent (unbounded st) ->
  (forall M, 2 <= length (filter finite X) -> mst_of (filter finite X) = Ok M -> spanning_tree (length (filter finite X)) M) ->
  cluster_selection_method st = Eom -> cluster_selection_epsilon st = None -> max_cluster_size st = Some m ->
  forallb finite X = true -> 2 <= length X -> cluster_selection_persistence st = None ->
  (forall M, mst_of X = Ok M -> forall e, In e M -> wlt (la_zero LA) (lam (ewt e)) = true) ->
  allow_single_cluster st = false \/ m + 1 < length X ->
  let n := length X in
  let go st := fit (la_zero LA) finite set_list (fast_hdbscan lam LA garbage mst_of A by_parent st) X in
  forall r0, go (unbounded st) = Ok r0 ->
  let T := f_condensed r0 in
  (go st = Err KeyError \/
     exists r, go st = Ok r /\ f_condensed r = T /\ clustering (la_zero LA) (la_one LA) n (f_labels r) (f_probabilities r) /\
       numbered n (f_labels r) /\ large_clusters (Sz := NatSize) n (fun _ => 1) (min_cluster_size st) (f_labels r) /\
       bounded_clusters (Sz := NatSize) n (fun _ => 1) m (f_labels r) /\ from_fitting (Sz := NatSize) n T m (f_labels r)) /\
  ((forall c, ~ fitting (Sz := NatSize) n T m c) -> exists r, go st = Ok r /\ f_labels r = repeat (-1)%Z n) /\
  ((exists c, fitting (Sz := NatSize) n T m c) ->
   (forall c d, fitting (Sz := NatSize) n T m c -> fitting (Sz := NatSize) n T m d -> within n T c d \/ within n T d c) -> go st = Err KeyError) /\
  (forall a b, fitting (Sz := NatSize) n T m a -> fitting (Sz := NatSize) n T m b ->
     (forall c, fitting (Sz := NatSize) n T m c -> ~ (within n T c a /\ within n T c b)) ->
     exists r, go st = Ok r /\ exists x y, below n T a x /\ below n T b y /\
       nth x (f_labels r) 0%Z <> (-1)%Z /\ nth y (f_labels r) 0%Z <> (-1)%Z /\ nth x (f_labels r) 0%Z <> nth y (f_labels r) 0%Z).
Proof. exact @fit_outcomes. Qed.
Print Assumptions C76_fit_with_a_maximum.

(** Missing values: fit does what it does for the other rows.  It fails when they
    fail, and otherwise gives them their labels and the rest noise. *)
Theorem C76_missing_rows_with_a_maximum :
  forall (W V : WOrd) (Row : Type) (lam : W -> V) (LA : LamArith V) (garbage : nat -> V) (mst_of : list Row -> res (list (edge W)))
    (finite : Row -> bool) (set_list : list nat -> list nat) (X : list Row) (A : Arith V NatSize)
    (by_parent : list (crow V NatSize) -> list (crow V NatSize)) (st : settings V NatSize) (m : nat),
  setting_ok lam LA A by_parent (unbounded st) ->
  (forall M, mst_of (filter finite X) = Ok M -> spanning_tree (length (filter finite X)) M) ->
  cluster_selection_method st = Eom -> cluster_selection_epsilon st = None -> max_cluster_size st = Some m ->
  (forall l, Permutation (set_list l) l) -> forallb finite X = false -> 3 <= length (filter finite X) ->
  cluster_selection_persistence st = None ->
  (forall M, mst_of (filter finite X) = Ok M -> forall e, In e M -> wlt (la_zero LA) (lam (ewt e)) = true) ->
  allow_single_cluster st = false \/ m + 1 < length (filter finite X) ->
  match fit (la_zero LA) finite set_list (fast_hdbscan lam LA garbage mst_of A by_parent st) (filter finite X) with
  | Err e => fit (la_zero LA) finite set_list (fast_hdbscan lam LA garbage mst_of A by_parent st) X = Err e
  | Ok r0 => exists r pos others,
      fit (la_zero LA) finite set_list (fast_hdbscan lam LA garbage mst_of A by_parent st) X = Ok r /\
      other_rows finite X others /\ places finite X pos /\ extends (la_zero LA) finite X (fun _ => 1 : NatSize) (min_cluster_size st) r0 r pos others
  end.
Proof. exact @missing_rows. Qed.
Print Assumptions C76_missing_rows_with_a_maximum.

(** The same for any spanning tree with sample weights. *)
Theorem C76_weighted_clusters_with_a_maximum :
  forall (W V : WOrd) (Sz : SOrd) (lam : W -> V) (LA : LamArith V) (A : Arith V Sz) (garbage : nat -> V)
    (by_parent : list (crow V Sz) -> list (crow V Sz)) (st : settings V Sz) (n : nat) (M : list (edge W)) (ws : list Sz) (m : Sz),
  setting_ok lam LA A by_parent (unbounded st) -> spanning_tree n M -> 2 <= n -> length ws = n -> sle (s := Sz) szero sone = true ->
  (forall w, In w ws -> sle szero w = true /\ slt w (min_cluster_size st) = true) ->
  cluster_selection_method st = Eom -> cluster_selection_epsilon st = None -> max_cluster_size st = Some m -> allow_single_cluster st = false ->
  let go st := clusters_from_spanning_tree_weighted lam LA A garbage by_parent st M ws in
  forall ls0 ps0 T, go (unbounded st) = Ok (ls0, ps0, T) -> cluster_selection_persistence st = None ->
  (forall e, In e M -> wlt (la_zero LA) (lam (ewt e)) = true) ->
  (go st = Err KeyError \/
     exists ls ps, go st = Ok (ls, ps, T) /\ clustering (la_zero LA) (la_one LA) n ls ps /\
       numbered n ls /\ large_clusters n (fun x => nth x ws szero) (min_cluster_size st) ls /\
       bounded_clusters n (fun x => nth x ws szero) m ls /\ from_fitting n T m ls) /\
  ((forall c, ~ fitting n T m c) -> exists ps, go st = Ok (repeat (-1)%Z n, ps, T)) /\
  ((exists c, fitting n T m c) -> (forall c d, fitting n T m c -> fitting n T m d -> within n T c d \/ within n T d c) -> go st = Err KeyError) /\
  (forall a b, fitting n T m a -> fitting n T m b -> (forall c, fitting n T m c -> ~ (within n T c a /\ within n T c b)) ->
     exists ls ps, go st = Ok (ls, ps, T) /\ exists x y, below n T a x /\ below n T b y /\
       nth x ls 0%Z <> (-1)%Z /\ nth y ls 0%Z <> (-1)%Z /\ nth x ls 0%Z <> nth y ls 0%Z).
Proof. exact @weighted_outcomes. Qed.
Print Assumptions C76_weighted_clusters_with_a_maximum.

(** ** Examples *)
Definition max_settings (mcs m : nat) (method : selection_method) (single : bool) (epsilon : Z) : settings QInf NatSize :=
  {| min_cluster_size := (mcs : NatSize); cluster_selection_method := method; max_cluster_size := Some (m : NatSize); allow_single_cluster := single;
     cluster_selection_epsilon := cluster_selection_epsilon (exact_settings (Sz := NatSize) mcs method single (Q2Qc (inject_Z epsilon)) 0%Qc);
     cluster_selection_persistence := None |}.
Definition max_line (mcs m : nat) (method : selection_method) (single : bool) (epsilon : Z) (X : list (option Z)) : res (fitted QInf QInf NatSize) :=
  fit (W := QInf) (V := QInf) (Sz := NatSize) (la_zero ExactLam) present (fun l => l)
    (exact_run line_dist 1 (fun _ => None) by_parent_of (max_settings mcs m method single epsilon)) X.

(** Two pairs and a group of four (then with a missing row): at most three rows leaves the
    pairs.  The clusters of the tree that fit are the pairs, 11 and 12. *)
Definition pairs_and_four : list (option Z) := map Some [0; 1; 10; 11; 30; 31; 32; 33]%Z.
Example C76_example : exists r, max_line 2 3 Eom false 0 pairs_and_four = Ok r /\ f_labels r = [1; 1; 0; 0; -1; -1; -1; -1]%Z.
Proof. eexists. split; vm_compute; reflexivity. Qed.
Example C76_example_missing : exists r, max_line 2 3 Eom false 0 (None :: pairs_and_four) = Ok r /\ f_labels r = [-1; 1; 1; 0; 0; -1; -1; -1; -1]%Z.
Proof. eexists. split; vm_compute; reflexivity. Qed.
Example C76_example_fitting : exists r, level_line 2 Eom false 0 1 pairs_and_four = Ok r /\
  (forall c, fitting (Sz := NatSize) 8 (f_condensed r) 3 c <-> c = 11 \/ c = 12) /\
  (forall c, fitting (Sz := NatSize) 8 (f_condensed r) 3 c -> ~ (within 8 (f_condensed r) c 11 /\ within 8 (f_condensed r) c 12)).
Proof.
  eexists. split; [vm_compute; reflexivity|].
  match goal with |- (forall c, fitting _ ?t _ _ <-> _) /\ _ => set (T := t) end.
  assert (HF : forall c, fitting (Sz := NatSize) 8 T 3 c <-> c = 11 \/ c = 12).
  { intro c. rewrite (fit_list_iff (V := QInf)). replace (fit_list 8 T 3) with [11; 12] by (vm_compute; reflexivity). cbn. intuition congruence. }
  assert (HN : forall a b, descends 8 T a b -> a <> 11 /\ a <> 12).
  { assert (K : forallb (fun r => (c_child r <? 8) || negb (c_parent r =? 11) && negb (c_parent r =? 12)) T = true) by (vm_compute; reflexivity).
    rewrite forallb_forall in K. intros a b H. induction H as [r Hr Hc|a b c H1 IH1 H2 IH2]; auto. specialize (K r Hr).
    apply orb_true_iff in K as [K|K]; [apply Nat.ltb_lt in K; lia|]. apply andb_true_iff in K as [K1 K2]. apply negb_true_iff, Nat.eqb_neq in K1, K2. auto. }
  split; auto. intros c Hc [[E1|H1] [E2|H2]]; try congruence; apply HF in Hc.
  - apply HN in H2. intuition congruence. - apply HN in H1. intuition congruence. - apply HN in H1. intuition congruence.
Qed.
(** The hypotheses hold for these settings and data. *)
Example C76_example_hypotheses :
  setting_ok hdbscan_lambda_value ExactLam (ExactArith NatSize nat_as_q) by_parent_of (unbounded (max_settings 2 3 Eom false 0)) /\
  (forall M, pairs_mst (W := QInf) (Some 0%Qc) line_dist 1 pairs_and_four = Ok M -> forall e, In e M -> wlt (W := QInf) (la_zero ExactLam) (hdbscan_lambda_value (ewt e)) = true) /\
  forall X M, 2 <= length X -> pairs_mst (W := QInf) (Some 0%Qc) line_dist 1 X = Ok M -> spanning_tree (length X) M.
Proof.
  split; [|split].
  - apply (exact_ok (Sz := NatSize) nat_as_q by_parent_of (2 : NatSize) Eom false 0%Qc 0%Qc ex_sorts eq_refl).
  - intros M EM. vm_compute in EM. injection EM as <-. intros e He.
    match type of He with In _ ?l => assert (K : forallb (fun e => wlt (W := QInf) (la_zero ExactLam) (hdbscan_lambda_value (ewt e))) l = true) by (vm_compute; reflexivity) end.
    rewrite forallb_forall in K. auto.
  - intros X M H2 EM. destruct (pairs_ok (W := QInf) (Some 0%Qc) line_dist 1 X ltac:(lia)) as (M' & E & H). congruence.
Qed.

(** Those of the theorem for missing rows: C76_example_missing is such a fit that
    succeeds, and this one fails as in the first finding below. *)
Example C76_example_missing_hypotheses :
  filter present (None :: pairs_and_four) = pairs_and_four /\ forallb present (None :: pairs_and_four) = false /\ 3 <= length pairs_and_four /\
  max_line 2 3 Eom false 0 (None :: map Some [0; 1; 10; 11; 12; 13]%Z) = Err KeyError.
Proof. split; [reflexivity|]. split; [reflexivity|]. split; [cbn; lia|vm_compute; reflexivity]. Qed.

(** No cluster fits: noise. *)
Example C76_example_none_fits : exists r, max_line 2 1 Eom false 0 pairs_and_four = Ok r /\ f_labels r = repeat (-1)%Z 8.
Proof. eexists. split; vm_compute; reflexivity. Qed.

(** ** Findings *)

(** fit fails when one cluster fits: a pair and a group of four, at most three rows. *)
Theorem C76_fit_fails_refuted :
  max_line 2 3 Eom false 0 (map Some [0; 1; 10; 11; 12; 13]%Z) = Err KeyError /\
  exists r, max_line 2 4 Eom false 0 (map Some [0; 1; 10; 11; 12; 13]%Z) = Ok r /\ f_labels r = [1; 1; 0; 0; 0; 0]%Z.
Proof. split; [vm_compute; reflexivity|]. eexists. split; vm_compute; reflexivity. Qed.
Print Assumptions C76_fit_fails_refuted.

(** The exception in the first theorem is real: the root is counted without one row. *)
Theorem C76_root_off_by_one_refuted :
  exists r, max_line 2 3 Eom true 0 (map Some [0; 1; 3; 4]%Z) = Ok r /\ f_labels r = [0; 0; 0; 0]%Z.
Proof. eexists. split; vm_compute; reflexivity. Qed.
Print Assumptions C76_root_off_by_one_refuted.

(** cluster_selection_epsilon merges clusters beyond the maximum. *)
Theorem C76_epsilon_ignores_the_maximum_refuted :
  exists r, max_line 2 2 Eom false 3 (map Some [0; 1; 3; 4; 20; 21]%Z) = Ok r /\ f_labels r = [0; 0; 0; 0; 1; 1]%Z.
Proof. eexists. split; vm_compute; reflexivity. Qed.
Print Assumptions C76_epsilon_ignores_the_maximum_refuted.

(** 'leaf' ignores it. *)
Theorem C76_leaf_ignores_the_maximum_refuted :
  exists r, max_line 2 2 Leaf false 0 (map Some [0; 1; 3; 4; 5; 20; 21]%Z) = Ok r /\ f_labels r = [2; 2; 1; 1; 1; 0; 0]%Z.
Proof. eexists. split; vm_compute; reflexivity. Qed.
Print Assumptions C76_leaf_ignores_the_maximum_refuted.
