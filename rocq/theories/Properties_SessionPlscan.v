(** C87: PLSCAN objects, for every history of calls, failing ones included. *)
From Coq Require Import List Arith Bool ZArith QArith Qcanon.
From Verif Require Import Prelude Order Graph Size Num M_Linkage M_Labels M_Layers S_Layers P_LayersEx M_LayerTree M_Plscan S_Plscan M_SessionPlscan S_SessionPlscan P_SessionPlscan P_SessionPlscanRun P_SessionPlscanEx.
Import ListNotations.
Local Open Scope nat_scope.

(** C87.  The tree over the layers can always be built: labels from -1 upwards, one
    for every sample, are enough.  No sorting, no density and no numbering of the
    clusters makes it raise an error. *)
Theorem C87_layer_tree_never_fails :
  forall (argsort : list Z -> list nat) (labels : list (list Z)) (N : nat), labels <> [] -> 0 < N ->
  (forall l, In l labels -> length l = N) -> (forall l, In l labels -> forall z, In z l -> (-1 <= z)%Z) ->
  exists d, build_layer_cluster_tree argsort labels = Ok d.
Proof. exact layer_tree_never_fails. Qed.
Print Assumptions C87_layer_tree_never_fails.

(** C87.  The layers are of this kind, whatever the settings and whatever algorithm
    gave the n - 1 edges, infinite ones included. *)
Theorem C87_layers_are_proper :
  forall (A I E : Type) (V P : WOrd) (D : Type) (search_lam lam : QInf -> V) (LA : LamArith V) (death_of : V -> D) (dzero : D) (garbage : nat -> nat) (garbage_lambda : nat -> D)
         (pzero : P) (accumulate : P -> nat -> nat -> D -> P) (argsort : list P -> list nat) (argsort_counts : list Z -> list nat) (sort_edges : list (edge QInf) -> list (edge QInf))
         (samples : I -> nat) (mst_of : A -> I -> res (list (edge QInf) * list QInf)) (base_m : A -> nat) (base_n : A -> option nat) (threshold : A -> Q) (max_layers : A -> nat) (extra : A -> I -> E),
  argsorts_Z argsort_counts -> sorts_edges (W := QInf) sort_edges ->
  (forall a x M core, mst_of a x = Ok (M, core) -> length M + 1 = samples x) ->
  proper_layers (fun a x => let* (M, core) := mst_of a x in
    let* ys := build_cluster_layers search_lam lam LA death_of dzero garbage garbage_lambda pzero accumulate argsort argsort_counts sort_edges
      (samples x) (base_m a) (base_n a) (threshold a) (max_layers a) M core in Ok (ys, extra a x)) samples.
Proof. exact @plscan_proper. Qed.
Print Assumptions C87_layers_are_proper.

(** C87.  fit_predict succeeds exactly if it does on a new object with the same
    parameters.  Then it returns the labels, which are those of one of the layers,
    and all attributes are those of this fit.  Otherwise it raises the exception of
    the new object and changes no result. *)
Theorem C87_fit_does_not_depend_on_the_past :
  forall (A : Type) (V P : WOrd) (E I : Type) (precomputed : A -> bool) (check_data check_weights : A -> I -> res unit) (run : A -> I -> res (list (layer V P) * E))
         (argsort : list Z -> list nat) (samples : I -> nat), proper_layers run samples ->
  forall (o : pobject A V P E I) (x : I),
  let after := pfit_predict precomputed check_data check_weights run argsort o x in
  match poutcome check_data check_weights run argsort (po_params o) x with
  | Ok g => snd after = Ok (y_labels (g_best g)) /\ In (g_best g) (g_layers g) /\ shows (fst after) g /\ po_params (fst after) = po_params o /\
            po_raw_data (fst after) = Some (if precomputed (po_params o) then None else Some x)
  | Err e => snd after = Err e /\ same_results (fst after) o /\ po_params (fst after) = po_params o
  end.
Proof. exact @pfit_refines. Qed.
Print Assumptions C87_fit_does_not_depend_on_the_past.

(** fit does the same and hides the labels. *)
Theorem C87_fit_and_fit_predict :
  forall (A : Type) (V P : WOrd) (E I : Type) (precomputed : A -> bool) (check_data check_weights : A -> I -> res unit) (run : A -> I -> res (list (layer V P) * E))
         (argsort : list Z -> list nat) (o : pobject A V P E I) (x : I),
  fst (pfit precomputed check_data check_weights run argsort o x) = fst (pfit_predict precomputed check_data check_weights run argsort o x) /\
  snd (pfit precomputed check_data check_weights run argsort o x) =
    match snd (pfit_predict precomputed check_data check_weights run argsort o x) with Ok _ => None | Err e => Some e end.
Proof. exact @pfit_same. Qed.
Print Assumptions C87_fit_and_fit_predict.

(** C87.  After any history all result attributes are those of the last fit that
    succeeded, with the parameters in force when it was called; there are none if
    no fit succeeded. *)
Theorem C87_results_of_the_last_success :
  forall (A : Type) (V P : WOrd) (E I : Type) (precomputed : A -> bool) (check_data check_weights : A -> I -> res unit) (run : A -> I -> res (list (layer V P) * E))
         (argsort : list Z -> list nat) (samples : I -> nat), proper_layers run samples ->
  forall (a : A) (h : list (pcall A I)),
  let o := pplay precomputed check_data check_weights run argsort (pnew a) h in
  po_params o = pparams_after a h /\
  (forall b x g, plast_success check_data check_weights run argsort a h b x g -> shows o g) /\
  (pnever check_data check_weights run argsort a h -> shows_nothing o) /\
  (pnever check_data check_weights run argsort a h \/ exists b x g, plast_success check_data check_weights run argsort a h b x g).
Proof. exact @pafter. Qed.
Print Assumptions C87_results_of_the_last_success.

(** C87.  What a successful fit tells: the labels reported are those of one of the
    layers, and every layer has one label for every sample. *)
Theorem C87_one_label_for_every_sample :
  forall (A : Type) (V P : WOrd) (E I : Type) (check_data check_weights : A -> I -> res unit) (run : A -> I -> res (list (layer V P) * E))
         (argsort : list Z -> list nat) (samples : I -> nat), proper_layers run samples ->
  forall (a : A) (x : I) (g : findings V P E), poutcome check_data check_weights run argsort a x = Ok g ->
  In (g_best g) (g_layers g) /\ length (y_labels (g_best g)) = samples x /\ (forall y, In y (g_layers g) -> length (y_labels y) = samples x).
Proof. exact @pfindings. Qed.
Print Assumptions C87_one_label_for_every_sample.

(** C87.  A fit that succeeds makes the object forget its past. *)
Theorem C87_successful_fit_forgets_the_past :
  forall (A : Type) (V P : WOrd) (E I : Type) (precomputed : A -> bool) (check_data check_weights : A -> I -> res unit) (run : A -> I -> res (list (layer V P) * E))
         (argsort : list Z -> list nat) (samples : I -> nat), proper_layers run samples ->
  forall (a : A) (h : list (pcall A I)) (c : pcall A I) (x : I) (g : findings V P E),
  fits c x -> poutcome check_data check_weights run argsort (pparams_after a h) x = Ok g ->
  pplay precomputed check_data check_weights run argsort (pnew a) (h ++ [c]) = pplay precomputed check_data check_weights run argsort (pnew (pparams_after a h)) [c].
Proof. exact @pforgets. Qed.
Print Assumptions C87_successful_fit_forgets_the_past.

(** Points on a line; the parameter is the minimum cluster size.  The second and
    the last fit fail: one for its weights, the other for its single point. *)
Example C87_example_proper : proper_layers ex_run (fun x => length (fst x)).
Proof. exact ex_proper. Qed.
Definition ex_places : list Z := [0; 1; 3; 20; 21; 23; 24; 60; 61; 63; 64; 66; 67]%Z.
Definition ex_pscan_history : list (pcall nat (list Z * bool)) :=
  [PFit (ex_places, true); PFitPredict ([5; 6; 7]%Z, false); PSetParams 3; PFitPredict ([0; 1; 2; 50; 51; 52]%Z, true); PFit ([4]%Z, true)].
Example C87_example :
  map (fun k => let o := ex_play 2 (firstn k ex_pscan_history) in (po_labels o, option_map (fun y => map y_labels (fst y)) (po_layers o))) [0; 1; 2; 4; 5] =
  let fine := [2; 2; 2; 1; 1; 1; 1; 0; 0; 0; 0; 0; 0]%Z in
  let coarse := [0; 0; 0; 0; 0; 0; 0; 1; 1; 1; 1; 1; 1]%Z in
  let two := [1; 1; 1; 0; 0; 0]%Z in
  [(None, None); (Some coarse, Some [fine; coarse]); (Some coarse, Some [fine; coarse]); (Some two, Some [two]); (Some two, Some [two])].
Proof. vm_compute. reflexivity. Qed.
(** What is kept of the data is that of the last call that passed the first checks. *)
Example C87_example_data :
  map (fun k => po_raw_data (ex_play 2 (firstn k ex_pscan_history))) [0; 1; 2; 5] =
  [None; Some (Some (ex_places, true)); Some (Some ([5; 6; 7]%Z, false)); Some (Some ([4]%Z, true))].
Proof. vm_compute. reflexivity. Qed.
(** A tree over layers with gaps: the labels 0 and 3 in one layer. *)
Example C87_example_gaps : exists d, build_layer_cluster_tree sort_indices_Z [[0; 1; 2; 2]; [3; 3; 0; -1]]%Z = Ok d.
Proof. apply (C87_layer_tree_never_fails _ _ 4); [discriminate|repeat constructor| |]; intros l H; cbn in H; destruct H as [<-|[<-|[]]]; auto;
  intros z Hz; cbn in Hz; repeat (destruct Hz as [<-|Hz]; [discriminate|]); destruct Hz. Qed.
