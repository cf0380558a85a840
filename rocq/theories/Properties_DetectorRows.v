(** C72: everything a detector reports about each row. *)
From Coq Require Import List Arith Bool ZArith Permutation QArith Qcanon.
From Verif Require Import Prelude Order Graph Size Num S_Kruskal M_Kruskal M_Precomputed M_Linkage M_Condense M_Select M_Labels M_CoreGraph M_Pipeline S_CoreGraph S_Labels
  S_Pipeline M_LayerTree S_LayerTree M_SubClusters S_SubClusters M_LensGraph M_Detector S_DetectorRows
  P_EpsilonTop P_PipelineEx P_EstimatorEx P_SubRun P_SubTop P_SubEx P_DetectorRows.
Import ListNotations.
Local Open Scope nat_scope.

(** C72.  SubClusterDetector.fit on rows without missing values, for a given lens
    (callback or values): it succeeds, and each of its outputs is what it should
    be: the clusters and strengths it was given, the samples of each cluster, the
    sub-clusters found in it and their strengths, the lens value of each sample,
    the combined labels, the averaged strengths. *)
Theorem C72_sub_clusters_reported :
  forall (W V : WOrd) (Row : Type) (Sz : SOrd) (round : W -> W) (sort_row : list (nat * W) -> list (nat * W)),
  (forall l, Permutation (sort_row l) l /\ sorted_by (fun cw : nat * W => snd cw) (sort_row l)) ->
  forall (lam : W -> V) (LA : LamArith V) (A : Arith V NatSize) (garbage : nat -> V) (by_parent : list (crow V NatSize) -> list (crow V NatSize))
         (st : settings V NatSize),
  setting_ok lam LA A by_parent st -> root_ok st -> cluster_selection_persistence st = None ->
  let cluster_of := cluster_tree lam LA A garbage by_parent st in
  forall (average : V -> V -> V) (no_lens : W) (propagate : joined V W * list (list nat * sub_result W V) -> res ((nat -> Z) * (nat -> Z)))
         (data : list Row) (T : list (crow V Sz)) (labels : list Z) (strengths : list V) (neighbors : list (list (option nat))) (mst : list (edge W))
         (lens : lens_input W V Row) (value : list nat -> list W) (K : nat),
  let lens_callback := fun k => value (members labels (Z.of_nat k)) in
  (forall r, In r T -> wlt (la_zero LA) (c_lam r) = true) ->
  lens_of no_lens lens (length data) None data strengths = Ok value ->
  length labels = length data -> in_range (length labels) mst -> sub_input labels neighbors mst lens_callback K ->
  (forall k a, k < K -> In a (lens_callback k) -> wlt (la_zero LA) (lam (round a)) = true) ->
  exists d,
    detect round sort_row average (la_zero LA) (la_one LA) no_lens cluster_of propagate false data T labels strengths neighbors mst lens = Ok d /\
    reports round average (la_zero LA) (la_one LA) no_lens cluster_of labels strengths neighbors mst lens_callback K d.
Proof. exact @rows_reported. Qed.
Print Assumptions C72_sub_clusters_reported.

(** C72.  BranchDetector.fit after that succeeds too.  It only changes labels and
    strengths: a connected cluster with few branches gets its one label and its
    strengths back. *)
Theorem C72_branches_reported :
  forall (W V : WOrd) (round : W -> W) (average : V -> V -> V) (zero one : V) (no_lens : W) (cluster_of : list (edge W) -> res (list Z * list V))
         (labels : list Z) (strengths : list V) (neighbors : list (list (option nat))) (mst : list (edge W)) (lens : nat -> list W) (K : nat) (d : detected W V),
  sub_input labels neighbors mst lens K ->
  reports round average zero one no_lens cluster_of labels strengths neighbors mst lens K d ->
  forall sides, exists b, branch_fit zero sides d = Ok b /\ reports_branches zero sides labels d b.
Proof. exact @branches_reported. Qed.
Print Assumptions C72_branches_reported.

(** ** Example: the clusters of C47 with a strength and a lens value per row. *)
Definition row_lens : list QInf := [q 1; q 1; q 1; q 5; q 2; q 2; q 2; q 8; q 1; q 1; q 1; q 1; q 7].
Definition row_strengths : list QInf := [q 1; q 0; q 1; q 1; q 0; q 1; q 1; q 1; q 1; q 1; q 0; q 0; q 0].
Definition row_value (pts : list nat) : list QInf := map (fun p => nth p row_lens (Some 0%Qc)) pts.
Definition row_table : list (crow QInf NatSize) := [{| c_parent := 13; c_child := 12; c_lam := q 1; c_size := 1 |}].
Definition row_run : res (detected QInf QInf) :=
  detect (fun w => w) exact_sort exact_average (Some 0%Qc) (Some 1%Qc) (Some 0%Qc) (exact_tree Eom 3)
    (fun _ => Err ValueError) false (repeat tt 13) row_table sub_labels row_strengths sub_neighbors sub_mst (LensValues row_lens).
Definition show (l : list QInf) : list (option Q) := map (fun v : QInf => match v with Some x => Some (this x) | None => None end) l.
Definition row_seen (r : res (detected QInf QInf)) :=
  match r with Ok d => Some (d_labels d, show (d_probs d), d_sub d, show (d_sub_probs d), show (d_lens d), d_points d) | Err _ => None end.

Example C72_example : row_seen row_run =
  Some ([1; 1; 1; 1; 2; 2; 2; 0; 3; 3; 4; 4; -1]%Z,
        [Some 1; Some (1 # 2); Some 1; Some (3 # 5); Some (1 # 2); Some 1; Some 1; Some (1 # 2); Some 1; Some 1; Some (1 # 2); Some (1 # 2); Some 0]%Q,
        [0; 0; 0; 0; 1; 1; 1; -1; 0; 0; 1; 1; 0]%Z,
        [Some 1; Some 1; Some 1; Some (1 # 5); Some 1; Some 1; Some 1; Some 0; Some 1; Some 1; Some 1; Some 1; Some 0]%Q,
        [Some 1; Some 1; Some 1; Some 5; Some 2; Some 2; Some 2; Some 8; Some 1; Some 1; Some 1; Some 1; Some 0]%Q,
        [[0; 1; 2; 3; 4; 5; 6; 7]; [8; 9; 10; 11]]).
Proof. vm_compute. reflexivity. Qed.
Example C72_example_branches : row_seen (let* d := row_run in branch_fit (Some 0%Qc : QInf) false d) =
  Some ([0; 0; 0; 0; 0; 0; 0; 0; 1; 1; 2; 2; -1]%Z,
        [Some 1; Some 0; Some 1; Some 1; Some 0; Some 1; Some 1; Some 1; Some 1; Some 1; Some (1 # 2); Some (1 # 2); Some 0]%Q,
        [0; 0; 0; 0; 1; 1; 1; -1; 0; 0; 1; 1; 0]%Z,
        [Some 1; Some 1; Some 1; Some (1 # 5); Some 1; Some 1; Some 1; Some 0; Some 1; Some 1; Some 1; Some 1; Some 0]%Q,
        [Some 1; Some 1; Some 1; Some 5; Some 2; Some 2; Some 2; Some 8; Some 1; Some 1; Some 1; Some 1; Some 0]%Q,
        [[0; 1; 2; 3; 4; 5; 6; 7]; [8; 9; 10; 11]]).
Proof. vm_compute. reflexivity. Qed.
Example C72_example_hypotheses :
  lens_of (Some 0%Qc : QInf) (LensValues row_lens) 13 None (repeat tt 13) row_strengths = Ok row_value /\
  in_range 13 sub_mst /\
  sub_input sub_labels sub_neighbors sub_mst (fun k => row_value (members sub_labels (Z.of_nat k))) 2 /\
  (forall k a, k < 2 -> In a (row_value (members sub_labels (Z.of_nat k))) -> wlt (la_zero ExactLam) (hdbscan_lambda_value a) = true) /\
  setting_ok hdbscan_lambda_value ExactLam (ExactArith NatSize nat_as_q) by_parent_of (exact_settings (Sz := NatSize) 3 Eom false 0%Qc 0%Qc).
Proof.
  split; [reflexivity|]. split.
  { intros e H. repeat (destruct H as [<-|H]; [vm_compute; split; repeat constructor|]). destruct H. }
  split; [apply sub_check_ok; vm_compute; reflexivity|]. split.
  { assert (H : forallb (fun k => forallb (fun a => wlt (la_zero ExactLam) (hdbscan_lambda_value a)) (row_value (members sub_labels (Z.of_nat k)))) (seq 0 2) = true)
      by (vm_compute; reflexivity).
    intros k a Hk Ha. rewrite forallb_forall in H. specialize (H k). rewrite forallb_forall in H. apply H; auto. apply in_seq. split; auto. apply Nat.le_0_l. }
  apply exact_ok; [exact ex_sorts|reflexivity].
Qed.
