(** C74: fitting with labelled rows of which some have missing values. *)
From Coq Require Import List Arith Bool ZArith QArith Qcanon Permutation.
From Verif Require Import Prelude Order Graph Size Num S_Kruskal M_Kruskal M_Linkage S_Linkage M_Condense S_Condense
  M_Select S_Select M_Labels S_Labels M_Epsilon P_LabelsEx P_EpsilonTop M_Pipeline S_Pipeline P_PipelineTop P_PipelineEx M_BCubed S_BCubed P_BCScore
  M_Estimator S_Estimator P_EstimatorEx P_Constrained M_SemiFit S_SemiFit P_SemiFit P_SemiFitTop.
Import ListNotations.
Local Open Scope nat_scope.

(** C74.  For every way to compute the spanning tree, all arithmetics, settings and
    rows: the label of a row with a missing value has no effect on anything that is
    reported.  A label that is not finite acts as -1. *)
Theorem C74_labels_of_missing_rows_do_not_matter :
  forall (W V : WOrd) (Row : Type) (lam : W -> V) (LA : LamArith V) (garbage : nat -> V) (mst_of : list Row -> res (list (edge W)))
    (ok : Row -> bool) (set_list : list nat -> list nat) (A : Arith V NatSize) (B : BArith)
    (by_parent : list (crow V NatSize) -> list (crow V NatSize)) (listed : list nat -> list nat) (st : settings V NatSize) (virtual : bool)
    (X : list Row) (y y' : list (option Z)),
  length y = length X -> length y' = length X -> labelled_somewhere y -> labelled_somewhere y' ->
  (forall p x, nth_error X p = Some x -> ok x = true -> nth_error (map clean_label y) p = nth_error (map clean_label y') p) ->
  let run := semi_fast_hdbscan lam LA garbage mst_of A B by_parent listed st virtual in
  semi_fit (la_zero LA) ok set_list run X y = semi_fit (la_zero LA) ok set_list run X y'.
Proof. exact @missing_labels. Qed.
Print Assumptions C74_labels_of_missing_rows_do_not_matter.

(** C74.  Labels are only names: renaming them one to one, and replacing negative
    labels by other negative ones, changes nothing. *)
Theorem C74_label_names_do_not_matter :
  forall (W V : WOrd) (Row : Type) (lam : W -> V) (LA : LamArith V) (garbage : nat -> V) (mst_of : list Row -> res (list (edge W)))
    (ok : Row -> bool) (set_list : list nat -> list nat) (A : Arith V NatSize) (B : BArith)
    (by_parent : list (crow V NatSize) -> list (crow V NatSize)) (listed : list nat -> list nat) (st : settings V NatSize) (virtual : bool)
    (X : list Row) (y y' : list (option Z)) (g : Z -> Z),
  length y = length X -> labelled_somewhere y -> labelled_somewhere y' ->
  map clean_label y' = map g (map clean_label y) -> renames g (map clean_label y) ->
  let run := semi_fast_hdbscan lam LA garbage mst_of A B by_parent listed st virtual in
  semi_fit (la_zero LA) ok set_list run X y' = semi_fit (la_zero LA) ok set_list run X y.
Proof. exact @fit_renamed. Qed.
Print Assumptions C74_label_names_do_not_matter.

(** C74.  Without a label other than -1, or with a wrong number of labels, the fit is
    refused. *)
Theorem C74_no_label_is_refused :
  forall (W V : WOrd) (Row : Type) (lam : W -> V) (LA : LamArith V) (garbage : nat -> V) (mst_of : list Row -> res (list (edge W)))
    (ok : Row -> bool) (set_list : list nat -> list nat) (A : Arith V NatSize) (B : BArith)
    (by_parent : list (crow V NatSize) -> list (crow V NatSize)) (listed : list nat -> list nat) (st : settings V NatSize) (virtual : bool)
    (X : list Row) (y : list (option Z)),
  ~ labelled_somewhere y ->
  semi_fit (la_zero LA) ok set_list (semi_fast_hdbscan lam LA garbage mst_of A B by_parent listed st virtual) X y = Err ValueError.
Proof. exact @semi_fit_unlabelled. Qed.
Print Assumptions C74_no_label_is_refused.

Theorem C74_wrong_number_of_labels_is_refused :
  forall (W V : WOrd) (Row : Type) (lam : W -> V) (LA : LamArith V) (garbage : nat -> V) (mst_of : list Row -> res (list (edge W)))
    (ok : Row -> bool) (set_list : list nat -> list nat) (A : Arith V NatSize) (B : BArith)
    (by_parent : list (crow V NatSize) -> list (crow V NatSize)) (listed : list nat -> list nat) (st : settings V NatSize) (virtual : bool)
    (X : list Row) (y : list (option Z)),
  length y <> length X ->
  semi_fit (la_zero LA) ok set_list (semi_fast_hdbscan lam LA garbage mst_of A B by_parent listed st virtual) X y = Err ValueError.
Proof. exact @semi_fit_lengths. Qed.
Print Assumptions C74_wrong_number_of_labels_is_refused.

(** C74.  At least three complete rows (two when none is missing): the fit succeeds.
    [r0] is the semi-supervised clustering (C48) of the complete rows, each with its
    own label; the report [r] places it at the positions of those rows and marks the
    others as noise ([extends], C52). *)
Theorem C74_rows_keep_their_own_labels :
  forall (W V : WOrd) (Row : Type) (lam : W -> V) (LA : LamArith V) (garbage : nat -> V) (mst_of : list Row -> res (list (edge W)))
    (ok : Row -> bool) (set_list : list nat -> list nat) (A : Arith V NatSize) (B : BArith)
    (by_parent : list (crow V NatSize) -> list (crow V NatSize)) (listed : list nat -> list nat) (st : settings V NatSize) (virtual : bool)
    (N : bscore B -> Prop) (X : list Row) (y : list (option Z)) (M : list (edge W)),
  (forall l, Permutation (set_list l) l) -> setting_ok lam LA A by_parent st -> BLaws B N -> (forall l, Permutation (listed l) l) ->
  leaves_ok A (la_zero LA) (length (filter ok X)) (fun _ => 1) (min_cluster_size st) -> length y = length X -> labelled_somewhere y ->
  (if forallb ok X then 2 else 3) <= length (filter ok X) -> mst_of (filter ok X) = Ok M -> spanning_tree (length (filter ok X)) M ->
  cluster_selection_persistence st = None ->
  exists given r0 r pos others, places ok X pos /\ length given = length (filter ok X) /\
    (forall i, i < length (filter ok X) -> nth_error given i = option_map clean_label (nth_error y (pos i))) /\
    semi_clusters_from_spanning_tree lam LA A B garbage by_parent listed st given virtual M = Ok (f_labels r0, f_probabilities r0, f_condensed r0) /\
    f_mst r0 = sort_mst M /\ other_rows ok X others /\
    semi_fit (la_zero LA) ok set_list (semi_fast_hdbscan lam LA garbage mst_of A B by_parent listed st virtual) X y = Ok r /\
    (forallb ok X = true -> r = r0) /\
    (forallb ok X = false -> extends (Sz := NatSize) (la_zero LA) ok X (fun _ => 1) (min_cluster_size st) r0 r pos others).
Proof. exact @fit_report. Qed.
Print Assumptions C74_rows_keep_their_own_labels.

(** C74.  Exact arithmetic, no epsilon, no persistence, no two complete rows at
    distance zero in the spanning tree: when only rows with missing values are
    labelled, the fit is the unsupervised one. *)
Theorem C74_labels_on_missing_rows_only :
  forall (Row : Type) (mst_of : list Row -> res (list (edge QInf))) (garbage : nat -> QInf)
    (by_parent : list (crow QInf NatSize) -> list (crow QInf NatSize)) (listed : list nat -> list nat) (mcs : nat) (m : selection_method)
    (allow_single : bool) (epsilon persistence : Qc) (virtual : bool) (ok : Row -> bool) (set_list : list nat -> list nat),
  sorts_by_parent by_parent -> (forall l, Permutation (listed l) l) -> 2 <= mcs ->
  forall (X : list Row) (y : list (option Z)) (M : list (edge QInf)),
  (epsilon <= 0)%Qc -> (persistence <= 0)%Qc -> length y = length X -> labelled_somewhere y -> 2 <= length (filter ok X) ->
  mst_of (filter ok X) = Ok M -> spanning_tree (length (filter ok X)) M -> (forall x, In x M -> wlt (Some 0%Qc : QInf) (ewt x) = true) ->
  (forall q x l, nth_error X q = Some x -> ok x = true -> nth_error y q = Some (Some l) -> (l < 0)%Z) ->
  exact_semi_fit mst_of garbage by_parent listed mcs m allow_single epsilon persistence virtual ok set_list X y =
  fit (la_zero ExactLam) ok set_list (exact_plain_run mst_of garbage by_parent mcs m allow_single epsilon persistence) X.
Proof. exact @unlabelled_fit. Qed.
Print Assumptions C74_labels_on_missing_rows_only.

(** The fit asks for "at least one label > -1", but it accepts data whose labels are
    all below -1, which it then treats as unlabelled. *)
Theorem C74_labels_below_minus_one_refuted : exists X y r,
  (forall l, In (Some l) y -> (l < 0)%Z) /\
  exact_semi_fit (pairs_mst (W := QInf) (Some 0%Qc) line_dist 1) (fun _ => None) by_parent_of (fun l => l) 2 Eom false 0%Qc 0%Qc true present (fun l => l) X y = Ok r /\
  exists x, nth x (f_labels r) 0%Z <> (-1)%Z.
Proof. exact negative_labels_accepted. Qed.
Print Assumptions C74_labels_below_minus_one_refuted.

(** Non-vacuity: a row with NaN and eight points on a line, minimum size 2. *)
Definition semi_rows : list (option Z) := [None; Some 0; Some 4; Some 11; Some 15; Some 75; Some 79; Some 84; Some 88]%Z.
(** Rows 1 and 3 have different labels. *)
Example C74_example_labelled : line_semi 2 semi_rows [Some 1; Some 5; None; Some 7; None; None; None; None; None]%Z = Ok [-1; 2; 2; 1; 1; 0; 0; 0; 0]%Z.
Proof. vm_compute. reflexivity. Qed.
Example C74_example_renamed : line_semi 2 semi_rows [None; Some 0; Some (-1); Some 9; Some (-3); None; None; None; None]%Z = Ok [-1; 2; 2; 1; 1; 0; 0; 0; 0]%Z.
Proof. vm_compute. reflexivity. Qed.
(** Only the row with NaN has a label. *)
Example C74_example_missing_only : line_semi 2 semi_rows [Some 1; None; None; None; None; None; None; None; None]%Z = Ok [-1; 0; 0; 0; 0; 1; 1; 1; 1]%Z.
Proof. vm_compute. reflexivity. Qed.
Example C74_example_unsupervised :
  labels_of (fit (la_zero ExactLam) present (fun l => l)
    (exact_plain_run (pairs_mst (W := QInf) (Some 0%Qc) line_dist 1) (fun _ => None) by_parent_of 2 Eom false 0%Qc 0%Qc) semi_rows)
  = Ok [-1; 0; 0; 0; 0; 1; 1; 1; 1]%Z.
Proof. vm_compute. reflexivity. Qed.
Example C74_example_no_label : line_semi 2 semi_rows [None; Some (-1); None; None; None; None; None; None; None]%Z = Err ValueError.
Proof. vm_compute. reflexivity. Qed.
(** The edges of the tree of the complete rows have positive length. *)
Example C74_example_positive :
  match pairs_mst (W := QInf) (Some 0%Qc) line_dist 1 (filter present semi_rows) with
  | Ok M => forallb (fun x => wlt (Some 0%Qc : QInf) (ewt x)) M = true /\ length (filter present semi_rows) = 8
  | Err _ => False
  end.
Proof. vm_compute. split; reflexivity. Qed.
Example C74_example_hypotheses :
  labelled_somewhere [Some 1; None; None; None; None; None; None; None; None]%Z /\
  renames (fun z => match z with 5 => 0 | 7 => 9 | _ => z end)%Z [1; 5; -1; 7; -1; -1; -1; -1; -1]%Z.
Proof.
  split; [exists 1%Z; split; [left; reflexivity|discriminate]|].
  split.
  - intros z H. cbn in H. repeat destruct H as [<-|H]; cbn; try tauto; split; intro K; (exact K || discriminate || (now apply Z.leb_le)).
  - intros a b Ha Hb _ _. cbn in Ha, Hb.
    repeat destruct Ha as [<-|Ha]; try tauto; repeat destruct Hb as [<-|Hb]; try tauto; cbn; intro K; (reflexivity || discriminate).
Qed.
