(** C86: estimator objects that are fitted to features, to features with labels and
    to graphs, for every history of calls, failing ones included. *)
From Coq Require Import List Arith Bool ZArith QArith Qcanon Permutation.
From Verif Require Import Prelude Order Graph Size Num M_Linkage M_Condense M_Select M_Labels M_Pipeline S_Pipeline M_BCubed S_BCubed M_Estimator M_SemiFit
  M_Session S_Session M_SessionMixed S_SessionMixed P_SessionMixed P_SessionMixedLabels P_SessionMixedEx.
Import ListNotations.
Local Open Scope nat_scope.

(** C86.  A call of fit succeeds exactly if the same fit of a new object does, with
    the same results or the same exception, whatever the object was used for. *)
Theorem C86_fit_does_not_depend_on_the_past :
  forall (P : Type) (W V : WOrd) (Sz : SOrd) (Row Graph : Type) (E : parts P W V Sz Row Graph) (o : mobject P W V Sz Row Graph) X y w,
  match moutcome E (m_params o) X y w with
  | Ok r => mfit E o X y w =
      ({| m_params := m_params o; m_raw_data := if q_precomputed E (m_params o) then None else Some X;
          m_raw_labels := if q_semi E (m_params o) then option_map (map clean_label) y else m_raw_labels o;
          m_all_finite := Some (match X with Features rows => forallb (q_isfinite E) rows | Distances _ => true end);
          m_results := Some r |}, None)
  | Err e => snd (mfit E o X y w) = Some e
  end.
Proof. exact @mfit_refines. Qed.
Print Assumptions C86_fit_does_not_depend_on_the_past.

(** A fit that fails leaves labels, strengths and trees as they were, unless it is
    given features with missing values in all rows but one. *)
Theorem C86_failed_fit_keeps_results :
  forall (P : Type) (W V : WOrd) (Sz : SOrd) (Row Graph : Type) (E : parts P W V Sz Row Graph), complete_parts E ->
  forall (o : mobject P W V Sz Row Graph) X y w e,
  moutcome E (m_params o) X y w = Err e -> ~ lone_input E X -> m_results (fst (mfit E o X y w)) = m_results o.
Proof. exact @mfailed_keeps. Qed.
Print Assumptions C86_failed_fit_keeps_results.

(** After any history the results are those of the last fit that succeeded, of
    whatever kind, under the parameters of that moment. *)
Theorem C86_results_of_the_last_success :
  forall (P : Type) (W V : WOrd) (Sz : SOrd) (Row Graph : Type) (E : parts P W V Sz Row Graph), complete_parts E ->
  forall (p : P) (h : list (mcall P Row Graph)), (forall X y w, In (MFit X y w) h -> ~ lone_input E X) ->
  let o := mplay E (new_mobject p) h in
  m_params o = mparams_after p h /\
  (forall r, m_results o = Some r <-> exists q X, mlast_success E p h q X r) /\
  (m_results o = None <-> mnever_fitted E p h).
Proof. exact @mafter_history. Qed.
Print Assumptions C86_results_of_the_last_success.

(** What the user then sees: a label and a strength for every sample of those data,
    their trees and DBSCAN clusterings.  The spanning tree is shown with the data
    that the last call remembered that got so far, not at all if that was a graph;
    it need not be the call that the tree is from. *)
Theorem C86_answers_after_a_history :
  forall (P : Type) (W V : WOrd) (Sz : SOrd) (Row Graph : Type) (E : parts P W V Sz Row Graph), complete_parts E ->
  forall (p : P) (h : list (mcall P Row Graph)) (cut_size : P -> nat), (forall X y w, In (MFit X y w) h -> ~ lone_input E X) ->
  let o := mplay E (new_mobject p) h in
  (forall q X r, mlast_success E p h q X r ->
     length (f_labels r) = samples E X /\ length (f_probabilities r) = samples E X /\
     m_condensed_tree o = Ok (f_condensed r, f_labels r) /\ m_single_linkage_tree o = Ok (f_linkage r) /\
     (forall eps, m_dbscan cut_size o eps = dbscan_clustering r eps (cut_size (mparams_after p h))) /\
     exists d, mlast_data E p h d /\ m_spanning_tree o = Ok (option_map (fun X => (f_mst r, X)) d)) /\
  (mnever_fitted E p h ->
     m_condensed_tree o = Err ValueError /\ m_single_linkage_tree o = Err ValueError /\ m_spanning_tree o = Err ValueError /\ forall eps, m_dbscan cut_size o eps = Err ValueError).
Proof. exact @mquestions. Qed.
Print Assumptions C86_answers_after_a_history.

(** A fit that succeeds makes the object forget its past: it answers as the object
    that was made with the current parameters and fitted once.  Only the labels of
    an earlier fit, which nothing reads, stay behind if this one has none. *)
Theorem C86_successful_fit_forgets_the_past :
  forall (P : Type) (W V : WOrd) (Sz : SOrd) (Row Graph : Type) (E : parts P W V Sz Row Graph) (p : P) (h : list (mcall P Row Graph)) X y w r,
  moutcome E (mparams_after p h) X y w = Ok r ->
  let o := mplay E (new_mobject p) (h ++ [MFit X y w]) in
  let o' := mplay E (new_mobject (mparams_after p h)) [MFit X y w] in
  m_params o = m_params o' /\ m_raw_data o = m_raw_data o' /\ m_all_finite o = m_all_finite o' /\ m_results o = m_results o' /\
  (q_semi E (mparams_after p h) = true -> o = o').
Proof. exact @mforgets. Qed.
Print Assumptions C86_successful_fit_forgets_the_past.

(** With semi_supervised=True a fit without labels, or whose labels are all missing
    or -1, is refused and changes no result; the exception is a ValueError unless a
    graph comes with weights. *)
Theorem C86_fit_without_labels_is_refused :
  forall (P : Type) (W V : WOrd) (Sz : SOrd) (Row Graph : Type) (E : parts P W V Sz Row Graph) (o : mobject P W V Sz Row Graph) X y w,
  q_semi E (m_params o) = true -> (forall labels l, y = Some labels -> In (Some l) labels -> l = (-1)%Z) ->
  m_results (fst (mfit E o X y w)) = m_results o /\
  exists e, snd (mfit E o X y w) = Some e /\ (w = false -> e = ValueError) /\ (q_precomputed E (m_params o) = false -> e = ValueError).
Proof. exact @labels_refused. Qed.
Print Assumptions C86_fit_without_labels_is_refused.

(** One label other than -1 is enough, 0 included: the fit then ends as the
    algorithm does, on features and on graphs. *)
Theorem C86_one_label_is_enough :
  forall (P : Type) (W V : WOrd) (Sz : SOrd) (Row Graph : Type) (E : parts P W V Sz Row Graph) (o : mobject P W V Sz Row Graph) rows y l w,
  q_semi E (m_params o) = true -> q_precomputed E (m_params o) = false ->
  In (Some l) y -> l <> (-1)%Z -> length y = length rows -> q_accepted E (Features rows) = true -> q_y_ok E y = true -> (w = true -> q_weights_ok E rows = true) ->
  match fit (q_zero E) (fun row => q_isfinite E (fst row)) (q_set_list E) (q_run_semi E (m_params o) w) (combine rows (map clean_label y)) with
  | Ok r => snd (mfit E o (Features rows) (Some y) w) = None /\ m_results (fst (mfit E o (Features rows) (Some y) w)) = Some r
  | Err e => snd (mfit E o (Features rows) (Some y) w) = Some e
  end.
Proof. exact @labels_taken. Qed.
Print Assumptions C86_one_label_is_enough.

Theorem C86_one_label_is_enough_for_graphs :
  forall (P : Type) (W V : WOrd) (Sz : SOrd) (Row Graph : Type) (E : parts P W V Sz Row Graph) (o : mobject P W V Sz Row Graph) g y l,
  q_semi E (m_params o) = true -> q_precomputed E (m_params o) = true ->
  In (Some l) y -> l <> (-1)%Z -> length y = q_nodes E g -> q_graph_ok E g = true -> q_labels_ok E y = true ->
  match q_run_graph E (m_params o) g (Some (map clean_label y)) with
  | Ok r => snd (mfit E o (Distances g) (Some y) false) = None /\ m_results (fst (mfit E o (Distances g) (Some y) false)) = Some r
  | Err e => snd (mfit E o (Distances g) (Some y) false) = Some e
  end.
Proof. exact @graph_labels_taken. Qed.
Print Assumptions C86_one_label_is_enough_for_graphs.

(** Two groups of points, labelled with nothing but -1, then with one 0. *)
Example C86_example_labels :
  let fit_with y := mfit example_parts (new_mobject with_labels) (Features [Some 0; Some 1; Some 10; Some 11]%Z) (Some y) false in
  snd (fit_with [Some (-1); None; Some (-1); None]%Z) = Some ValueError /\ snd (fit_with [Some 0; None; Some (-1); None]%Z) = None /\
  q_semi example_parts with_labels = true /\ q_precomputed example_parts with_labels = false.
Proof. vm_compute. repeat split. Qed.

(** The algorithm is complete also for labelled rows and for graphs, for every
    spanning tree back end (for features without labels: C79). *)
Theorem C86_labelled_rows_are_complete :
  forall (P : Type) (W V : WOrd) (Row : Type) (lam : W -> V) (LA : LamArith V) (garbage : nat -> V) (mst_of : P -> list Row -> res (list (edge W)))
    (A : Arith V NatSize) (B : BArith) (NN : bscore B -> Prop) (by_parent : list (crow V NatSize) -> list (crow V NatSize)) (listed : list nat -> list nat)
    (st : P -> settings V NatSize) (virtual valid : P -> bool),
  (forall p, valid p = true -> setting_ok lam LA A by_parent (st p)) -> BLaws B NN -> (forall l, Permutation (listed l) l) ->
  (forall p n, valid p = true -> 0 < n -> leaves_ok A (la_zero LA) n (fun _ => 1) (min_cluster_size (st p))) ->
  (forall p rows M, 2 <= length rows -> mst_of p rows = Ok M -> spanning_tree (length rows) M) ->
  complete_run (fun p rows => if valid p then semi_fast_hdbscan lam LA garbage (mst_of p) A B by_parent listed (st p) (virtual p) rows else Err ValueError).
Proof. exact @semi_complete. Qed.
Print Assumptions C86_labelled_rows_are_complete.

Theorem C86_graphs_are_complete :
  forall (P : Type) (W V : WOrd) (Graph : Type) (lam : W -> V) (LA : LamArith V) (garbage : nat -> V) (nodes : Graph -> nat) (graph_mst : P -> Graph -> res (list (edge W)))
    (A : Arith V NatSize) (B : BArith) (NN : bscore B -> Prop) (by_parent : list (crow V NatSize) -> list (crow V NatSize)) (listed : list nat -> list nat)
    (st : P -> settings V NatSize) (virtual valid : P -> bool),
  (forall p, valid p = true -> setting_ok lam LA A by_parent (st p)) -> BLaws B NN -> (forall l, Permutation (listed l) l) ->
  (forall p n, valid p = true -> 0 < n -> leaves_ok A (la_zero LA) n (fun _ => 1) (min_cluster_size (st p))) ->
  (forall p g M, 2 <= nodes g -> graph_mst p g = Ok M -> spanning_tree (nodes g) M) ->
  forall p g y r,
  (if valid p && match y with Some l => length l =? nodes g | None => true end
   then graph_fast_hdbscan lam LA garbage nodes (graph_mst p) A B by_parent listed (st p) (virtual p) g y else Err ValueError) = Ok r ->
  length (f_labels r) = nodes g /\ length (f_probabilities r) = nodes g /\
  (2 <= nodes g -> f_condensed r <> [] /\ f_linkage r <> [] /\ spanning_tree (nodes g) (f_mst r)).
Proof. exact @graph_complete. Qed.
Print Assumptions C86_graphs_are_complete.

(** Points on a line and graphs with Kruskal's algorithm. *)
Example C86_example_complete : complete_parts example_parts.
Proof. exact example_complete. Qed.
Definition mixed_history : list (mcall example_params (option Z) example_graph) :=
  [MFit (Features [Some 0; Some 1; Some 10; None; Some 11]%Z) None false;
   MSet graphs; MFit (Features [Some 0]%Z) None false; MFit (Distances four_nodes) None true; MFit (Distances four_nodes) None false;
   MSet labelled_graphs; MFit (Distances four_nodes) (Some [Some 1; None; None; None]%Z) false; MFit (Distances four_nodes) (Some [Some 1; Some 2; Some 3; Some 4]%Z) false;
   MSet with_labels; MFit (Distances four_nodes) (Some [Some 1; None; None; None]%Z) false;
   MFit (Features [Some 0; Some 4; Some 11; Some 15; Some 75; Some 79; Some 84; Some 88]%Z) (Some [Some 5; None; Some 7; None; None; None; None; None]%Z) false].
Example C86_example :
  map (fun k => example_labels (example_play features_only (firstn k mixed_history))) [0; 1; 4; 5; 7; 8; 10; 11] =
  [None; Some [1; 1; 0; -1; 0]%Z; Some [1; 1; 0; -1; 0]%Z; Some [1; 1; 0; 0]%Z; Some [1; 1; 0; 0]%Z; Some [1; 1; 0; 0]%Z; Some [1; 1; 0; 0]%Z; Some [2; 2; 1; 1; 0; 0; 0; 0]%Z].
Proof. vm_compute. reflexivity. Qed.
(** The exceptions of the calls of fit, in order. *)
Example C86_example_exceptions :
  (let step := fun (s : mobject _ _ _ _ _ _ * list (option err)) c =>
     match c with
     | MSet _ => (mperform example_parts (fst s) c, snd s)
     | MFit X y w => (mperform example_parts (fst s) c, snd s ++ [snd (mfit example_parts (fst s) X y w)])
     end in
   snd (fold_left step mixed_history (new_mobject features_only, []))) =
  [None; Some ValueError; Some NotImplementedError; None; Some ValueError; None; Some TypeError; None].
Proof. vm_compute. reflexivity. Qed.
Example C86_example_applies : forall X y w, In (MFit X y w) mixed_history -> ~ lone_input example_parts X.
Proof.
  intros X y w H. unfold mixed_history in H. cbn [In] in H.
  repeat (destruct H as [H|H]; [try discriminate H; injection H; intros _ _ <-; cbn [lone_input]; try (intros [K _]; discriminate K); try (intros [_ K]; discriminate K); exact (fun K => K)|]). destruct H.
Qed.

(** After a fit to a graph that failed, the spanning tree of the features fitted
    before is not shown any more, though all other results are. *)
Theorem C86_spanning_tree_withheld_refuted :
  exists h X r, mlast_success example_parts features_only h features_only X r /\ (exists rows, X = Features rows) /\
  m_spanning_tree (example_play features_only h) = Ok None /\ f_mst r <> [].
Proof. exact tree_withheld. Qed.
Print Assumptions C86_spanning_tree_withheld_refuted.

(** After a fit to features that failed, the spanning tree of a graph is shown with
    these features, in which its endpoints need not exist. *)
Theorem C86_tree_of_a_graph_with_features_refuted :
  exists h M X e, m_spanning_tree (example_play graphs h) = Ok (Some (M, Features X)) /\ In e M /\ length X <= esrc e.
Proof. exact graph_tree_with_features. Qed.
Print Assumptions C86_tree_of_a_graph_with_features_refuted.
