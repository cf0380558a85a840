(** What a user expects of an estimator object that is fitted in different ways. *)
From Coq Require Import List Arith Bool ZArith.
From Verif Require Import Prelude Order Graph Size M_Linkage M_Condense M_Labels M_Estimator M_SemiFit M_Session S_Session M_SessionMixed.
Import ListNotations.
Local Open Scope nat_scope.

(** The parameters in force after a history of calls. *)
Fixpoint mparams_after {P Row Graph} (p : P) (h : list (mcall P Row Graph)) : P :=
  match h with
  | [] => p
  | MSet q :: h' => mparams_after q h'
  | MFit _ _ _ :: h' => mparams_after p h'
  end.

Section Expected.
  Context {P : Type} {W V : WOrd} {Sz : SOrd} {Row Graph : Type}.
  Variable E : parts P W V Sz Row Graph.

  (** What a single fit with parameters [p] gives. *)
  Definition moutcome (p : P) (X : input Row Graph) (y : option (list (option Z))) (weighted : bool) : res (fitted W V Sz) :=
    if q_precomputed E p then
      match X with
      | Features _ => Err ValueError
      | Distances g =>
        if negb (q_graph_ok E g) then Err ValueError else
        if weighted then Err NotImplementedError else
        if q_semi E p then
          match y with
          | None => Err ValueError
          | Some y => if q_labels_ok E y && (length y =? q_nodes E g) && some_label (map clean_label y)
                      then q_run_graph E p g (Some (map clean_label y)) else Err ValueError
          end
        else q_run_graph E p g None
      end
    else if q_semi E p then
      match y, X with
      | None, _ => Err ValueError
      | Some y, Features rows =>
        if q_accepted E X && q_y_ok E y && (length y =? length rows) && some_label (map clean_label y) && (negb weighted || q_weights_ok E rows)
        then fit (q_zero E) (fun row => q_isfinite E (fst row)) (q_set_list E) (q_run_semi E p weighted) (combine rows (map clean_label y)) else Err ValueError
      | Some y, Distances g =>
        if q_accepted E X && q_y_ok E y && (length y =? q_nodes E g) && some_label (map clean_label y) then Err TypeError else Err ValueError
      end
    else
      match X with
      | Features rows =>
        if q_accepted E X && (negb weighted || q_weights_ok E rows) then fit (q_zero E) (q_isfinite E) (q_set_list E) (q_run E p weighted) rows else Err ValueError
      | Distances g => if q_accepted E X then Err TypeError else Err ValueError
      end.

  (** The call gets as far as remembering its data; graphs are not remembered, and
      the data of earlier calls are then forgotten. *)
  Definition remembers (p : P) (X : input Row Graph) (y : option (list (option Z))) (weighted : bool) (d : option (input Row Graph)) : Prop :=
    if q_precomputed E p then d = None /\ weighted = false /\ exists g, X = Distances g /\ q_graph_ok E g = true
    else d = Some X /\ q_accepted E X = true /\
      (q_semi E p = true -> exists l, y = Some l /\ q_y_ok E l = true /\ length l = match X with Features rows => length rows | Distances g => q_nodes E g end).

  (** Data whose rows all have missing values, but one. *)
  Definition lone_input (X : input Row Graph) : Prop :=
    match X with Features rows => lone_row (q_isfinite E) rows | Distances _ => False end.

  (** Number of samples. *)
  Definition samples (X : input Row Graph) : nat := match X with Features rows => length rows | Distances g => q_nodes E g end.

  (** The result [r] stems from the last fit of history [h] that succeeded, which
      was called with data [X] under parameters [q]. *)
  Definition mlast_success (p : P) (h : list (mcall P Row Graph)) (q : P) (X : input Row Graph) (r : fitted W V Sz) : Prop :=
    exists h1 y w h2, h = h1 ++ MFit X y w :: h2 /\ q = mparams_after p h1 /\ moutcome q X y w = Ok r /\
      forall a X' y' w' b, h2 = a ++ MFit X' y' w' :: b -> exists e, moutcome (mparams_after q a) X' y' w' = Err e.

  (** No fit of the history succeeded. *)
  Definition mnever_fitted (p : P) (h : list (mcall P Row Graph)) : Prop :=
    forall a X y w b, h = a ++ MFit X y w :: b -> exists e, moutcome (mparams_after p a) X y w = Err e.

  (** The data that the last call that got so far remembered. *)
  Definition mlast_data (p : P) (h : list (mcall P Row Graph)) (d : option (input Row Graph)) : Prop :=
    exists h1 X y w h2, h = h1 ++ MFit X y w :: h2 /\ remembers (mparams_after p h1) X y w d /\
      forall a X' y' w' b d', h2 = a ++ MFit X' y' w' :: b -> ~ remembers (mparams_after (mparams_after p h1) a) X' y' w' d'.

  (** The algorithm gives every sample a label and a strength, and trees to two
      samples or more; it takes at least one row of features. *)
  Definition complete_parts : Prop :=
    complete_run (P := P * bool) (fun q => q_run E (fst q) (snd q)) /\
    complete_run (P := P * bool) (fun q => q_run_semi E (fst q) (snd q)) /\
    (forall p g y r, q_run_graph E p g y = Ok r -> length (f_labels r) = q_nodes E g /\ length (f_probabilities r) = q_nodes E g /\
       (2 <= q_nodes E g -> f_condensed r <> [] /\ f_linkage r <> [])).
End Expected.
