(** PLSCAN: complete runs, units, parameters and examples. *)
From Coq Require Import List Arith Lia Bool ZArith QArith Qcanon Permutation Sorted.
From Verif Require Import Prelude Order Graph Size Num S_Kruskal S_Precomputed M_Kruskal M_KruskalEntry P_KruskalRun P_KruskalEntry P_Precomputed2 P_PrecomputedTop M_Linkage S_Linkage M_Condense S_Condense
  M_Select S_Select M_Labels S_Labels M_Pipeline P_PipelineRun M_Layers S_Layers P_LayersEx M_LayerTree S_LayerTree
  S_Equi P_Scale P_KruskalMap M_Dispatch S_Dispatch P_Dispatch M_Plscan S_Plscan P_Plscan.
Import ListNotations.
Local Open Scope nat_scope.

(** ** From pairwise distances *)
Section Brute.
  Context {V P : WOrd} {D : Type}.
  Variables (search_lam lam : QInf -> V) (LA : LamArith V) (death_of : V -> D) (dzero : D) (garbage : nat -> nat) (garbage_lambda : nat -> D)
    (pzero : P) (accumulate : P -> nat -> nat -> D -> P) (argsort : list P -> list nat) (argsort_counts argsort_labels : list Z -> list nat)
    (sort_edges : list (edge QInf) -> list (edge QInf)).
  Notation build := (build_cluster_layers search_lam lam LA death_of dzero garbage garbage_lambda pzero accumulate argsort argsort_counts sort_edges).
  Notation fit := (plscan_fit search_lam lam LA death_of dzero garbage garbage_lambda pzero accumulate argsort argsort_counts argsort_labels sort_edges).
  Notation zero := (Some 0%Qc : QInf).

  Lemma brute_finite (Dist : nat -> nat -> QInf) n ms e : (forall i j, i < n -> j < n -> Dist i j <> None) -> ms < n -> In e (brute_edges zero Dist n ms) -> ewt e <> None.
  Proof.
    intros HD Hms He. destruct e as [[i j] w]. apply brute_edges_in in He as (H1 & H2 & ->). unfold ewt. cbn [snd].
    assert (C : forall x, x < n -> brute_core zero Dist n ms x <> None).
    { intros x Hx. destruct (brute_core_ok zero Dist n ms x) as (A1 & A2 & _). destruct (le_lt_dec ms 1) as [H|H]; [rewrite A1; [discriminate|auto]|].
      destruct (A2 H Hms) as (Hin & _). apply in_map_iff in Hin as (y & <- & Hy). apply in_seq in Hy. apply HD; lia. }
    destruct (mrd3_ok (brute_core zero Dist n ms i) (brute_core zero Dist n ms j) (Dist i j)) as ([E|[E|E]] & _); rewrite E; [apply C; lia|apply C; lia|apply HD; lia].
  Qed.

  Lemma plscan_brute (Dist : nat -> nat -> QInf) n ms base_m threshold max_layers :
    (forall x y : QInf, wle x y = true -> wle (lam y) (lam x) = true) -> (forall x, wle (la_zero LA) (lam x) = true) -> LamLaws LA ->
    argsorts argsort -> argsorts_Z argsort_counts -> argsorts_Z argsort_labels -> sorts_edges (W := QInf) sort_edges ->
    (forall x : Qc, wle (lam (Some x)) (la_zero LA) = false) ->
    (forall i j, i < n -> j < n -> Dist i j <> None) -> ms < n -> 2 <= n -> 2 <= base_m ->
    exists M nbrs core f L T S b base ys rows d y,
      kruskal_mst_brute zero Dist n ms CLNone = Ok (M, nbrs, core) /\
      spanning_tree n M /\ min_spanning_forest (brute_edges zero Dist n ms) M /\ core = map (brute_core zero Dist n ms) (seq 0 n) /\
      unit_of core f /\ linkage_tree_of (W := QInf) n M L /\
      fit n base_m None threshold max_layers M core = Ok (ys, d, y) /\
      tree_of (fun w : QInf => lam (f w)) n L base_m T /\ (forall c, In c S <-> leaf_cluster n T c) /\
      right_layer LA n T S (y_labels base) (y_strengths base) /\ y_persistence base = pzero /\
      (cluster_rows n T <> [] -> right_barcode n T death_of dzero base_m b) /\
      layer_stack LA pzero accumulate n T b threshold base_m max_layers base ys /\
      right_tree (map y_labels ys) rows /\ right_dictionary rows d /\ nested_rows (map y_labels ys) rows /\
      In y ys /\ forall y', In y' ys -> wle (y_persistence y') (y_persistence y) = true.
  Proof.
    intros Hlam Hpos HLL Hs1 Hs2 Hs3 Hs4 Hdense HD Hms Hn Hm.
    destruct (brute_ok zero Dist n ms CLNone no_constraint ltac:(lia)) as (M & nbrs & core & E & Ecore & HB). { intros x y []. }
    apply bridged_connected in HB as [HB1 HB2]; auto using brute_edges_range, brute_connected.
    assert (Hfin : forall e, In e M -> ewt e <> None).
    { intros e He. apply (brute_finite Dist n ms e HD Hms). destruct HB1 as [HI _ _]. apply HI, He. }
    destruct (plscan_layers search_lam lam LA death_of dzero garbage garbage_lambda pzero accumulate argsort argsort_counts sort_edges Hlam Hpos HLL Hs1 Hs2 Hs4 n M core HB2 base_m threshold max_layers Hn Hm)
      as (f & L & T & S & b & base & ys & R1 & R2 & K1 & R3 & R4 & R5 & R6 & R7 & R8).
    destruct (plscan_ends search_lam lam LA death_of dzero garbage garbage_lambda pzero accumulate argsort argsort_counts argsort_labels sort_edges Hlam Hpos HLL Hs1 Hs2 Hs3 Hs4 n M core HB2 Hdense Hfin base_m threshold max_layers Hn Hm)
      as (ys' & rows & d & y & K2 & K3 & rest).
    rewrite K1 in K3. injection K3 as <-. exists M, nbrs, core, f, L, T, S, b, base, ys, rows, d, y.
    do 13 (split; [assumption|]). exact rest.
  Qed.

  Lemma plscan_brute_constraints (Dist : nat -> nat -> QInf) n ms X base_m threshold max_layers :
    (forall x y : QInf, wle x y = true -> wle (lam y) (lam x) = true) -> (forall x, wle (la_zero LA) (lam x) = true) -> LamLaws LA ->
    argsorts argsort -> argsorts_Z argsort_counts -> sorts_edges (W := QInf) sort_edges ->
    valid_constraints n X None -> 2 <= n -> 2 <= base_m ->
    exists cl M nbrs core f L T S b base ys,
      resolve_cl_params n X true None = Ok cl /\ kruskal_mst_brute zero Dist n ms cl = Ok (M, nbrs, core) /\
      bridged_result n (user_constraints (option_map sp_entries X) None) (brute_edges zero Dist n ms) M /\
      unit_of core f /\ linkage_tree_of (W := QInf) n M L /\
      build n base_m None threshold max_layers M core = Ok ys /\
      tree_of (fun w : QInf => lam (f w)) n L base_m T /\ (forall c, In c S <-> leaf_cluster n T c) /\
      right_layer LA n T S (y_labels base) (y_strengths base) /\ y_persistence base = pzero /\
      (cluster_rows n T <> [] -> right_barcode n T death_of dzero base_m b) /\
      layer_stack LA pzero accumulate n T b threshold base_m max_layers base ys.
  Proof.
    intros Hlam Hpos HLL Hs1 Hs2 Hs4 HV Hn Hm. destruct (c09_brute (W := QInf) zero Dist n ms X None ltac:(lia) HV) as (cl & M & nbrs & core & E1 & E2 & HB).
    pose proof HB as (_ & _ & _ & _ & HM & _).
    destruct (plscan_layers search_lam lam LA death_of dzero garbage garbage_lambda pzero accumulate argsort argsort_counts sort_edges Hlam Hpos HLL Hs1 Hs2 Hs4 n M core HM base_m threshold max_layers Hn Hm)
      as (f & L & T & S & b & base & ys & rest).
    destruct rest as (R1 & R2 & K1 & rest). exists cl, M, nbrs, core, f, L, T, S, b, base, ys. do 6 (split; [assumption|]). exact rest.
  Qed.

  (** ** Units *)
  Lemma plscan_units c : (0 < c)%Qc -> forall (core : list QInf) (M : list (edge QInf)) n base_m base_n threshold max_layers x y,
    In (Some x) core -> In (Some y) core -> x <> y ->
    fit n base_m base_n threshold max_layers (map (map_edge (scale c)) M) (map (scale c) core) = fit n base_m base_n threshold max_layers M core.
  Proof.
    intros Hc core M n base_m base_n threshold max_layers x y Hx Hy Hne. unfold plscan_fit, build_cluster_layers. now rewrite (normalised_scale c Hc core M x y Hx Hy Hne).
  Qed.
  Lemma plscan_brute_units c (Dist : nat -> nat -> QInf) n ms X base_m base_n threshold max_layers i j a b : (0 < c)%Qc -> 0 < n -> valid_constraints n X None ->
    i < n -> j < n -> brute_core zero Dist n ms i = Some a -> brute_core zero Dist n ms j = Some b -> a <> b ->
    exists cl M M' nbrs core core', resolve_cl_params n X true None = Ok cl /\
      kruskal_mst_brute zero Dist n ms cl = Ok (M, nbrs, core) /\
      kruskal_mst_brute zero (fun i j => scale c (Dist i j)) n ms cl = Ok (M', nbrs, core') /\
      fit n base_m base_n threshold max_layers M' core' = fit n base_m base_n threshold max_layers M core.
  Proof.
    intros Hc Hn HV Hi Hj Ha Hb Hne. destruct (resolve_all n X None HV) as (cl & C & Hd).
    destruct (brute_ok zero Dist n ms cl _ Hn Hd) as (M & nbrs & core & E & Ecore & HB).
    exists cl, M, (map (map_edge (scale c)) M), nbrs, core, (map (scale c) core). split; auto. split; auto. split.
    - rewrite <- (scale_zero c) at 1. rewrite (kruskal_brute_map (W := QInf) (W' := QInf) (scale c) (scale_le c Hc) eq_refl), E. reflexivity.
    - apply (plscan_units c Hc core M n base_m base_n threshold max_layers a b); auto; subst core; [rewrite <- Ha|rewrite <- Hb]; apply in_map_iff;
        [exists i|exists j]; (split; [reflexivity|apply in_seq; lia]).
  Qed.
End Brute.

(** ** Parameters *)
Lemma graph_ok X : validate_precomputed_sparse_graph X = Ok tt <-> good_graph X.
Proof.
  unfold good_graph. destruct X as [|rows cols values]; cbn; [split; [discriminate|intros (n & v & [=] & _)]|].
  destruct (Nat.eqb_spec rows cols) as [->|Hne]; cbn [negb]; [|split; [discriminate|intros (n & v & E & _); injection E as E1 E2 _; congruence]].
  destruct (existsb _ values) eqn:E1.
  - split; [discriminate|]. intros (n & v & E & H). injection E as _ E. subst v. apply existsb_exists in E1 as (w & Hw & Ew). destruct (H w Hw) as (x & -> & _). discriminate.
  - destruct (existsb _ values) eqn:E2 in |- *.
    + split; [discriminate|]. intros (n & v & E & H). injection E as _ E. subst v. apply existsb_exists in E2 as (w & Hw & Ew). destruct (H w Hw) as (x & -> & Hx).
      apply Qcleb_le in Hx. rewrite Hx in Ew. discriminate.
    + split; [|auto]. intros _. exists cols, values. split; auto. intros v Hv.
      assert (A : (match v with Finite _ => false | _ => true end) = false) by (destruct v eqn:Ev; auto; rewrite <- E1; symmetry; apply existsb_exists; exists v; subst; auto).
      destruct v as [x| |]; try discriminate. exists x. split; auto. apply Qcleb_le. destruct (Qcleb 0 x) eqn:Ex; auto.
      assert (K : existsb (fun v => match v with Finite x => negb (Qcleb 0 x) | _ => false end) values = true) by (apply existsb_exists; exists (Finite x); rewrite Ex; auto). congruence.
Qed.
Lemma graph_unit X u : validate_precomputed_sparse_graph X = Ok u -> validate_precomputed_sparse_graph X = Ok tt.
Proof. destruct u. auto. Qed.
Lemma none_ok v : is_none v = true <-> v = PyNone.
Proof. destruct v; cbn; split; congruence. Qed.

Lemma plscan_accepts a : (exists p, plscan_dispatch a = Ok p) <-> plscan_values_ok a /\ combination_ok (spanning_tree_arguments a).
Proof.
  unfold plscan_dispatch. pose proof (choose_ok (spanning_tree_arguments a)) as HC. cbn [a_metric a_pynndescent a_weights a_method spanning_tree_arguments] in HC.
  split.
  - intros [p E]. unfold validate_params in E.
    destruct (positive_int (p_min_samples a)) eqn:E1; [|discriminate]. destruct (positive_int (p_max_layers a)) eqn:E2; [|discriminate].
    destruct (positive_int (p_base_min_cluster_size a)) eqn:E3; [|discriminate]. cbn [negb] in E.
    destruct (negb (is_none (p_base_n_clusters a)) && negb (positive_int (p_base_n_clusters a))) eqn:E4; [discriminate|].
    assert (B : p_base_n_clusters a = PyNone \/ is_positive_int (p_base_n_clusters a)).
    { destruct (is_none (p_base_n_clusters a)) eqn:E5; [left; now apply none_ok|]. right. apply positive_int_ok. now apply negb_false_iff. }
    destruct (match p_algorithm a with Kruskal => Ok tt | Boruvka => match p_cannot_link a with None => Ok tt | Some _ => Err ValueError end | OtherAlgorithm => Err ValueError end); [|discriminate].
    cbn [bind] in E. unfold check_data in E.
    assert (K : match p_metric a with Precomputed => good_graph (p_matrix a) | _ => p_matrix a = Dense end /\ (p_metric a <> OtherMetric \/ p_pynndescent a = true) /\ (p_metric a = Precomputed -> p_weights a = false)).
    { destruct (p_metric a).
      - destruct (p_matrix a); [|discriminate]. split; auto. split; [left|]; discriminate.
      - destruct (validate_precomputed_sparse_graph (p_matrix a)) as [[]|] eqn:Eg; [|discriminate]. apply graph_ok in Eg. cbn [bind] in E. destruct (p_weights a); [discriminate|].
        split; auto. split; auto. left. discriminate.
      - destruct (p_pynndescent a); [|discriminate]. destruct (p_matrix a); [|discriminate]. split; auto. split; auto. discriminate. }
    destruct K as (K1 & K2 & K3). split; [constructor; try (now apply positive_int_ok); auto|].
    apply HC; auto. split; [|discriminate]. destruct (match p_metric a with Euclidean => _ | Precomputed => _ | OtherMetric => _ end); [|discriminate]. eauto.
  - intros [[V1 V2 V3 V4 V5] C]. pose proof C as [C1 _ _ C4 C5 _ C7 _]. cbn [a_metric a_pynndescent a_weights a_algorithm spanning_tree_arguments] in *.
    assert (K2 : p_metric a <> OtherMetric \/ p_pynndescent a = true).
    { destruct (p_metric a) eqn:Em; [left; discriminate|left; discriminate|]. right. apply C7. left. exact Em. }
    assert (K3 : p_metric a = Precomputed -> p_weights a = false).
    { intro Em. destruct (p_weights a); auto. specialize (C5 eq_refl). congruence. }
    destruct (proj2 (HC K2 K3) C) as [[p Ep] _]. exists p. unfold validate_params. apply positive_int_ok in V1, V2, V3. rewrite V1, V2, V3. cbn [negb].
    replace (negb (is_none (p_base_n_clusters a)) && negb (positive_int (p_base_n_clusters a))) with false.
    2: { destruct V4 as [->|V4]; auto. apply positive_int_ok in V4. now rewrite V4, andb_false_r. }
    assert (A : match p_algorithm a with Kruskal => Ok tt | Boruvka => match p_cannot_link a with None => Ok tt | Some _ => Err ValueError end | OtherAlgorithm => Err ValueError end = Ok tt).
    { destruct (p_algorithm a); auto; [|congruence]. destruct (p_cannot_link a) eqn:Ecl; auto. assert (Boruvka = Kruskal); [|discriminate].
      apply C4. left. cbn. rewrite Ecl. discriminate. }
    rewrite A. cbn [bind]. replace (check_data a) with (Ok tt : res unit); [cbn [bind]; exact Ep|]. unfold check_data. destruct (p_metric a).
    + rewrite V5. reflexivity.
    + rewrite (proj2 (graph_ok _) V5). cbn [bind]. now rewrite K3.
    + destruct K2 as [K2|K2]; [contradiction|]. rewrite K2, V5. reflexivity.
Qed.

(** ** Examples: samples on a line *)
Definition places : list Z := [0; 1; 3; 20; 21; 23; 24; 60; 61; 63; 64; 66; 67]%Z.
Definition apart (i j : nat) : QInf := yq (Z.abs (nth i places 0 - nth j places 0))%Z.
Definition line_fit := plscan_fit (P := QInf) hdbscan_lambda_value hdbscan_lambda_value ExactLam y_death 0%Qc (fun _ => 7) (fun _ => 0%Qc) (yq 0) y_add
  sort_indices sort_indices_Z sort_indices_Z (sort_mst (W := QInf)).
Definition line_run (D : nat -> nat -> QInf) (n ms base_m : nat) (base_n : option nat) :=
  let* (r, core) := kruskal_mst_brute (W := QInf) (Some 0%Qc) D n ms CLNone in line_fit n base_m base_n (1 # 5) 10 (fst r) core.
Definition reported (r : list (layer QInf QInf) * list (cluster_name * list cluster_name) * layer QInf QInf) :=
  (map y_labels (fst (fst r)), snd (fst r), y_labels (snd r)).

Lemma sort_mst_sorts : sorts_edges (W := QInf) (sort_mst (W := QInf)).
Proof. intro l. split; [symmetry; apply sort_mst_perm|apply isort_sorted]. Qed.
Lemma lambda_dense (x : Qc) : wle (hdbscan_lambda_value (Some x)) (la_zero ExactLam) = false.
Proof.
  unfold hdbscan_lambda_value. destruct (Qcleb x 0) eqn:E; [reflexivity|]. apply Qcleb_gt in E. cbn. apply Qcleb_gt. now apply Qcinv_pos.
Qed.

(** Minimum cluster size 1. *)
Definition size_one : plscan_arguments :=
  {| p_rows := 13; p_features := 1; p_matrix := Dense; p_metric := Euclidean; p_algorithm := Kruskal; p_weights := false; p_min_samples := PyInt 2; p_max_layers := PyInt 10;
     p_base_min_cluster_size := PyInt 1; p_base_n_clusters := PyNone; p_knn_k := None; p_cannot_link := None; p_validate := true; p_pynndescent := false |}.
Lemma size_one_wrong :
  (exists p, plscan_dispatch size_one = Ok p) /\
  (exists r, line_run apart 13 2 2 None = Ok r /\ ~ In (-1)%Z (y_labels (snd r))) /\
  exists r, line_run apart 13 2 1 None = Ok r /\ countp (fun l => (l =? -1)%Z) (y_labels (snd r)) = 10 /\ ~ gap_free (nth 0 (map y_labels (fst (fst r))) []).
Proof.
  assert (G : forall (r : res (list (layer QInf QInf) * list (cluster_name * list cluster_name) * layer QInf QInf)) v, match r with Ok x => Some (reported x) | Err _ => None end = Some v ->
    exists x, r = Ok x /\ reported x = v) by (intros [x|] v H; [|discriminate]; injection H as H; eauto).
  split; [|split].
  - eexists. reflexivity.
  - destruct (G (line_run apart 13 2 2 None) _ ltac:(vm_compute; reflexivity)) as (r & E & Hr). exists r. split; auto. unfold reported in Hr. injection Hr as _ _ Hr. rewrite Hr.
    intro H. repeat (destruct H as [H|H]; [discriminate|]). contradiction.
  - destruct (G (line_run apart 13 2 1 None) _ ltac:(vm_compute; reflexivity)) as (r & E & Hr). exists r. split; auto. unfold reported in Hr. injection Hr as H1 _ H2. rewrite H1, H2.
    split; [reflexivity|]. intro K. destruct (K 2%Z ltac:(cbn; auto)) as [_ K1]. specialize (K1 0%Z ltac:(lia)). cbn in K1.
    repeat (destruct K1 as [K1|K1]; [discriminate|]). contradiction.
Qed.

Lemma single_sample {V P : WOrd} {D : Type} (search_lam lam : QInf -> V) (LA : LamArith V) (death_of : V -> D) (dzero : D) (garbage : nat -> nat) (garbage_lambda : nat -> D)
    (pzero : P) (accumulate : P -> nat -> nat -> D -> P) (argsort : list P -> list nat) (argsort_counts argsort_labels : list Z -> list nat)
    (sort_edges : list (edge QInf) -> list (edge QInf)) base_m threshold max_layers core :
  sorts_edges (W := QInf) sort_edges ->
  plscan_fit search_lam lam LA death_of dzero garbage garbage_lambda pzero accumulate argsort argsort_counts argsort_labels sort_edges 1 base_m None threshold max_layers [] core = Err ValueError.
Proof.
  intro Hs. unfold plscan_fit, build_cluster_layers. rewrite normalised_is. cbn [map].
  destruct (Hs []) as [H _]. apply Permutation_sym, Permutation_nil in H. rewrite H. reflexivity.
Qed.
