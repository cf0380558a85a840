(** C71: precomputed sparse distances are clustered by the distances they store. *)
From Coq Require Import List Arith Lia Bool ZArith Permutation QArith Qcanon.
From Verif Require Import Prelude Order Graph Size Num S_Kruskal M_Kruskal M_Precomputed S_Precomputed M_CoreGraph S_CoreGraph
  M_Linkage M_Condense S_Condense M_Select M_Labels P_LabelsEx M_Pipeline S_Pipeline P_EomValue P_PipelineEx S_Dbscan P_EpsilonTop S_Level S_Join S_GraphCut P_GraphCutTop.
Import ListNotations.
Local Open Scope nat_scope.

(** Whatever is stored, there is a distance that it describes (see
    [graph_distance]): the smallest entry of a pair in either direction, infinite
    without one. *)
Theorem C71_stored_distance :
  forall (W : WOrd) n (entries : list (edge W)), graph_distance n entries (stored_distance entries).
Proof. exact @stored_ok. Qed.
Print Assumptions C71_stored_distance.

(** A cut at any distance [eps] is DBSCAN* of that distance: pairs that are not
    stored are never nearer than [eps], whatever the stored graph looks like and
    however many components it has.  Stored distances must not be negative. *)
Theorem C71_cuts_of_a_stored_graph :
  forall (W : WOrd) (zero huge : W) (round : W -> W) (entries : list (edge W)) n min_samples (D : nat -> nat -> W) (T : list (edge W)),
  2 <= n -> in_range n entries -> graph_distance n entries D -> (forall e, In e entries -> wle zero (ewt e) = true) ->
  precomputed_tree zero huge round entries n min_samples T ->
  forall eps, exists L labels, mst_to_linkage_tree (sort_mst T) = Ok L /\
    get_cluster_labelling_at_cut L eps min_samples = Ok labels /\ dbscan_star D n min_samples eps labels.
Proof. exact @precomputed_cut. Qed.
Print Assumptions C71_cuts_of_a_stored_graph.

(** The density at which a sample leaves the hierarchy is that of the distance at
    which min_cluster_size samples are density-connected to it; that distance is
    infinite for samples of too small components. *)
Theorem C71_leaving_density_of_a_stored_graph :
  forall (W : WOrd) (zero huge : W) (round : W -> W) (entries : list (edge W)) n min_samples (D : nat -> nat -> W) (T : list (edge W)),
  2 <= n -> in_range n entries -> graph_distance n entries D -> (forall e, In e entries -> wle zero (ewt e) = true) ->
  precomputed_tree zero huge round entries n min_samples T ->
  forall (V : WOrd) (lam : W -> V) (LA : LamArith V) (A : Arith V NatSize) (garbage : nat -> V)
    (by_parent : list (crow V NatSize) -> list (crow V NatSize)) (st : settings V NatSize) ls ps C,
  setting_ok lam LA A by_parent st -> min_cluster_size st <= n -> cluster_selection_persistence st = None ->
  clusters_from_spanning_tree lam LA A garbage by_parent st T = Ok (ls, ps, C) ->
  forall q, In q C -> c_child q < n ->
  exists d, joins_at D n min_samples (min_cluster_size st) (c_child q) d /\ c_lam q = lam d.
Proof. exact @precomputed_density. Qed.
Print Assumptions C71_leaving_density_of_a_stored_graph.

(** Every reported cluster is one density-connected group of the stored distances
    at some finite distance (see [dense_group]).  Nothing is assumed about the
    stored values beyond their sign, so infinite entries are covered. *)
Theorem C71_clusters_of_a_stored_graph :
  forall (W : WOrd) (zero huge : W) (round : W -> W) (entries : list (edge W)) n min_samples (D : nat -> nat -> W) (T : list (edge W)),
  2 <= n -> in_range n entries -> graph_distance n entries D -> (forall e, In e entries -> wle zero (ewt e) = true) ->
  precomputed_tree zero huge round entries n min_samples T ->
  forall (V : WOrd) (lam : W -> V) (LA : LamArith V) (A : Arith V NatSize) (garbage : nat -> V)
    (by_parent : list (crow V NatSize) -> list (crow V NatSize)) (st : settings V NatSize) ls ps C,
  setting_ok lam LA A by_parent st -> min_cluster_size st <= n -> cluster_selection_persistence st = None ->
  clusters_from_spanning_tree lam LA A garbage by_parent st T = Ok (ls, ps, C) ->
  forall Z N P : num A -> Prop, ScoreLaws lam A (la_zero LA) Z N P -> root_ok st -> wle (lam winf) (la_zero LA) = true ->
  forall x, x < n -> nth x ls 0%Z <> (-1)%Z ->
  exists d, dense_group D n min_samples (fun y => y < n /\ nth y ls 0%Z = nth x ls 0%Z) d.
Proof. exact @precomputed_groups. Qed.
Print Assumptions C71_clusters_of_a_stored_graph.

(** The same for any spanning tree, with edges of any density: the members of a
    cluster hold together at a distance of positive density.  Theorem
    C67_clusters_of_a_spanning_tree needs every edge to have positive density. *)
Theorem C71_clusters_of_a_tree_with_bridges :
  forall (W V : WOrd) (lam : W -> V) (LA : LamArith V) (A : Arith V NatSize) (garbage : nat -> V)
         (by_parent : list (crow V NatSize) -> list (crow V NatSize)) (st : settings V NatSize) (n : nat) (M : list (edge W))
         (Z N P : num A -> Prop) ls ps T,
  setting_ok lam LA A by_parent st -> ScoreLaws lam A (la_zero LA) Z N P -> cluster_selection_persistence st = None -> root_ok st ->
  spanning_tree n M -> 2 <= n -> min_cluster_size st <= n ->
  clusters_from_spanning_tree lam LA A garbage by_parent st M = Ok (ls, ps, T) ->
  forall x, x < n -> nth x ls 0%Z <> (-1)%Z ->
  exists d, wlt (la_zero LA) (lam d) = true /\ level n M (fun y => y < n /\ nth y ls 0%Z = nth x ls 0%Z) d.
Proof. exact @plain_positive_level. Qed.
Print Assumptions C71_clusters_of_a_tree_with_bridges.

(** ** Examples *)

Definition stored (x : Z) : QInf := Some (Q2Qc (inject_Z x)).
(** Two triangles, one stored with two different distances for a pair, a pair that
    is too small to be a cluster, and a sample without entries. *)
Definition triangles : list (edge QInf) :=
  [(0, 1, stored 1); (1, 2, stored 2); (2, 0, stored 3); (0, 2, stored 2); (3, 4, stored 1); (4, 5, stored 1); (5, 3, stored 5); (7, 6, stored 1)].
Definition graph_run (epsilon : Z) (back_end : bool) : option (list Z * list (option QInf)) :=
  match (if back_end then precomputed_kruskal (stored 0) triangles 9 2 CLNone else precomputed_boruvka (stored 0) (stored 1000) (fun w => w) triangles 9 2) with
  | Err _ => None
  | Ok (M, _, _) =>
      match exact_clusters (fun _ => None) by_parent_of (exact_settings (Sz := NatSize) 3 Eom false (Q2Qc (inject_Z epsilon)) 0%Qc) M with
      | Err _ => None
      | Ok (ls, _, T) => Some (ls, map (fun x => option_map c_lam (find (fun r => c_child r =? x) T)) (seq 0 9))
      end
  end.
(** The two triangles are the clusters under both back ends, the rest is noise and
    leaves at density zero; the cuts are those of the stored distances. *)
Example C71_example : option_map fst (graph_run 0 true) = Some [1; 1; 1; 0; 0; 0; -1; -1; -1]%Z /\ option_map fst (graph_run 0 false) = Some [1; 1; 1; 0; 0; 0; -1; -1; -1]%Z /\
  option_map (fun p => map (option_map (fun l : QInf => option_map this l)) (skipn 6 (snd p))) (graph_run 0 true) = Some (repeat (Some (Some (0 # 1)%Q)) 3).
Proof. repeat split; vm_compute; reflexivity. Qed.

Example C71_example_hypotheses :
  in_range 9 triangles /\ (forall e, In e triangles -> wle (w := QInf) (stored 0) (ewt e) = true) /\ isolated_last 9 triangles /\
  (exists T, precomputed_tree (W := QInf) (stored 0) (stored 1000) (fun w => w) triangles 9 2 T) /\
  root_ok (exact_settings (Sz := NatSize) 3 Eom false 0%Qc 0%Qc) /\ wle (w := QInf) (hdbscan_lambda_value winf) (la_zero ExactLam) = true /\
  cluster_selection_persistence (exact_settings (Sz := NatSize) 3 Eom false 0%Qc 0%Qc) = None /\
  setting_ok hdbscan_lambda_value ExactLam (ExactArith NatSize nat_as_q) by_parent_of (exact_settings (Sz := NatSize) 3 Eom false 0%Qc 0%Qc) /\
  (exists Z N P, ScoreLaws hdbscan_lambda_value (ExactArith NatSize nat_as_q) (la_zero ExactLam) Z N P).
Proof.
  assert (HR : forall e, In e triangles -> esrc e < 9 /\ edst e < 9).
  { intros e He. simpl in He. repeat (destruct He as [<-|He]; [unfold esrc, edst; simpl; lia|]). destruct He. }
  split; [exact HR|]. split.
  { intros e He. simpl in He. repeat (destruct He as [<-|He]; [vm_compute; reflexivity|]). destruct He. }
  split.
  { intros i j Hij Hj Hi. exfalso.
    assert (K : forall e, In e triangles -> esrc e <> edst e -> i <> esrc e /\ i <> edst e) by (intros e He Hne; destruct (Hi e He Hne); auto).
    pose proof (K (0, 1, stored 1) (nth_error_In triangles 0 eq_refl)) as K1. pose proof (K (1, 2, stored 2) (nth_error_In triangles 1 eq_refl)) as K2. pose proof (K (3, 4, stored 1) (nth_error_In triangles 4 eq_refl)) as K3.
    pose proof (K (4, 5, stored 1) (nth_error_In triangles 5 eq_refl)) as K4. pose proof (K (7, 6, stored 1) (nth_error_In triangles 7 eq_refl)) as K5. unfold esrc, edst in *. cbn in *. lia. }
  split.
  { destruct (precomputed_kruskal (stored 0) triangles 9 2 CLNone) as [[[T nbrs] core]|] eqn:E; [exists T; left; eauto|]. exfalso.
    assert (K : match precomputed_kruskal (stored 0) triangles 9 2 CLNone with Ok _ => true | Err _ => false end = true) by (vm_compute; reflexivity). rewrite E in K. discriminate. }
  split; [intros H; discriminate H|]. split; [vm_compute; reflexivity|]. split; [apply exact_no_persistence; apply Qcle_refl|].
  split; [apply exact_ok; [apply ex_sorts|apply nat_mcs; lia]|]. do 3 eexists. apply exact_laws. apply nat_pos.
Qed.
(** Cuts at distances 2, 3, 6 and infinity. *)
Example C71_example_cuts : exists M nbrs core L, precomputed_kruskal (stored 0) triangles 9 2 CLNone = Ok (M, nbrs, core) /\ mst_to_linkage_tree (sort_mst M) = Ok L /\
  get_cluster_labelling_at_cut L (stored 2) 2 = Ok [-1; -1; -1; -1; -1; -1; -1; -1; -1]%Z /\
  get_cluster_labelling_at_cut L (stored 3) 2 = Ok [0; 0; 0; -1; -1; -1; -1; -1; -1]%Z /\
  get_cluster_labelling_at_cut L (stored 6) 2 = Ok [0; 0; 0; 1; 1; 1; -1; -1; -1]%Z /\
  get_cluster_labelling_at_cut L (winf : QInf) 2 = Ok [0; 0; 0; 1; 1; 1; -1; -1; -1]%Z.
Proof. do 4 eexists. split; [vm_compute; reflexivity|]. split; [vm_compute; reflexivity|]. repeat split; vm_compute; reflexivity. Qed.
