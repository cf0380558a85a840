(** C80: the scores of PLSCAN's layers. *)
From Coq Require Import List Arith Bool ZArith QArith Qcanon.
From Verif Require Import Prelude Order Graph Size Num S_Kruskal M_Kruskal M_KruskalEntry M_Linkage M_Condense M_Labels S_Labels P_LabelsEx M_Pipeline M_Layers S_Layers P_LayersEx
  S_LayerTree S_Equi M_Plscan S_Plscan P_Plscan P_PlscanTop M_Scores S_Scores P_Scores.
Import ListNotations.
Local Open Scope nat_scope.

(** C80.  If every living cluster adds to the score, the base layer has score
    zero, every other layer has a higher score and at least two clusters, and the
    labels reported are those of another layer if there is one. *)
Theorem C80_scores_of_the_layers :
  forall (V P : WOrd) (D : Type) (search_lam lam : QInf -> V) (LA : LamArith V) (death_of : V -> D) (dzero : D) (garbage : nat -> nat) (garbage_lambda : nat -> D)
         (pzero : P) (accumulate : P -> nat -> nat -> D -> P) (argsort : list P -> list nat) (argsort_counts argsort_labels : list Z -> list nat)
         (sort_edges : list (edge QInf) -> list (edge QInf)) (number : P -> Prop) (fraction : D -> Prop),
  scores_grow number fraction pzero accumulate -> (forall v, fraction (death_of v)) ->
  (forall x y : QInf, wle x y = true -> wle (lam y) (lam x) = true) -> (forall x, wle (la_zero LA) (lam x) = true) -> LamLaws LA ->
  argsorts argsort -> argsorts_Z argsort_counts -> argsorts_Z argsort_labels -> sorts_edges (W := QInf) sort_edges ->
  forall (n : nat) (M : list (edge QInf)) (core : list QInf), spanning_tree n M ->
  (forall x : Qc, wle (lam (Some x)) (la_zero LA) = false) -> (forall e, In e M -> ewt e <> None) ->
  forall (base_m : nat) (threshold : Q) (max_layers : nat), 2 <= n -> 2 <= base_m ->
  exists ys d y,
    plscan_fit search_lam lam LA death_of dzero garbage garbage_lambda pzero accumulate argsort argsort_counts argsort_labels sort_edges
      n base_m None threshold max_layers M core = Ok (ys, d, y) /\ right_scores pzero ys y.
Proof. exact @scores_ok. Qed.
Print Assumptions C80_scores_of_the_layers.

(** The same for a requested number of clusters. *)
Theorem C80_scores_for_a_number_of_clusters :
  forall (V P : WOrd) (D : Type) (search_lam lam : QInf -> V) (LA : LamArith V) (death_of : V -> D) (dzero : D) (garbage : nat -> nat) (garbage_lambda : nat -> D)
         (pzero : P) (accumulate : P -> nat -> nat -> D -> P) (argsort : list P -> list nat) (argsort_counts argsort_labels : list Z -> list nat)
         (sort_edges : list (edge QInf) -> list (edge QInf)) (number : P -> Prop) (fraction : D -> Prop),
  scores_grow number fraction pzero accumulate -> (forall v, fraction (death_of v)) ->
  (forall x y : QInf, wle x y = true -> wle (lam y) (lam x) = true) -> (forall x, wle (la_zero LA) (lam x) = true) -> LamLaws LA ->
  argsorts argsort -> argsorts_Z argsort_counts -> argsorts_Z argsort_labels -> sorts_edges (W := QInf) sort_edges ->
  forall (n : nat) (M : list (edge QInf)) (core : list QInf), spanning_tree n M ->
  (forall x : Qc, wle (lam (Some x)) (la_zero LA) = false) -> (forall e, In e M -> ewt e <> None) ->
  (forall x y : QInf, wle x y = true -> wle (search_lam y) (search_lam x) = true) -> (forall x, wle (la_zero LA) (search_lam x) = true) ->
  (forall x : Qc, wle (search_lam (Some x)) (la_zero LA) = false) ->
  forall (base_m k : nat) (threshold : Q) (max_layers : nat), 4 <= n ->
  exists ys d y,
    plscan_fit search_lam lam LA death_of dzero garbage garbage_lambda pzero accumulate argsort argsort_counts argsort_labels sort_edges
      n base_m (Some k) threshold max_layers M core = Ok (ys, d, y) /\ right_scores pzero ys y.
Proof. exact @scores_number_ok. Qed.
Print Assumptions C80_scores_for_a_number_of_clusters.

(** Every living cluster does add to the score, since densities become numbers
    between 0 and 1. *)
Theorem C80_living_clusters_add_to_the_score : scores_grow a_number qfraction (Some 0%Qc : QInf) add_persistence.
Proof. exact exact_scores. Qed.
Print Assumptions C80_living_clusters_add_to_the_score.

(** Denser clusters do not get a higher score: with the same births and deaths
    every score is at most as high if the clusters are denser. *)
Theorem C80_denser_clusters_score_lower :
  forall (b b' : barcode Qc) (s : nat), b_nodes b = b_nodes b' -> (forall i, b_births b i = b_births b' i) -> (forall i, b_deaths b i = b_deaths b' i) ->
  (forall i, (b_lambdas b i <= b_lambdas b' i)%Qc) ->
  wle (persistence_at (Some 0%Qc : QInf) add_persistence b' s) (persistence_at (Some 0%Qc : QInf) add_persistence b s) = true.
Proof. exact denser_scores. Qed.
Print Assumptions C80_denser_clusters_score_lower.

(** And lower for a cluster of a higher density that is born at any size. *)
Theorem C80_denser_clusters_refuted :
  forall (p : Qc) (birth death : nat) (d d' : Qc), 0 < birth -> (d < d')%Qc ->
  wlt (add_persistence (Some p) birth death d') (add_persistence (Some p) birth death d) = true.
Proof. exact denser_lower. Qed.
Print Assumptions C80_denser_clusters_refuted.

(** Samples on a line. *)
Definition scored_run (D : nat -> nat -> QInf) (n ms base_m : nat) (base_n : option nat) :=
  let* (r, core) := kruskal_mst_brute (W := QInf) (Some 0%Qc) D n ms CLNone in
  plscan_fit (P := QInf) hdbscan_lambda_value hdbscan_lambda_value ExactLam half_density 0%Qc (fun _ => 7) (fun _ => 0%Qc) (Some 0%Qc) add_persistence
    sort_indices sort_indices_Z sort_indices_Z (sort_mst (W := QInf)) n base_m base_n (1 # 5) 10 (fst r) core.
Example C80_example :
  match scored_run apart 13 2 2 None with
  | Ok (ys, d, y) => (map (fun y' => (y_labels y', wlt (W := QInf) (Some 0%Qc) (y_persistence y'))) ys, y_labels y)
  | Err _ => ([], [])
  end = ([([2; 2; 2; 1; 1; 1; 1; 0; 0; 0; 0; 0; 0]%Z, false); ([0; 0; 0; 0; 0; 0; 0; 1; 1; 1; 1; 1; 1]%Z, true)],
         [0; 0; 0; 0; 0; 0; 0; 1; 1; 1; 1; 1; 1]%Z).
Proof. vm_compute. reflexivity. Qed.
Example C80_example_fractions : forall v, qfraction (half_density v).
Proof. exact half_density_fraction. Qed.
