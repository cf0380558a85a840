(** What a user expects of a PLSCAN object over time. *)
From Coq Require Import List Arith Bool ZArith.
From Verif Require Import Prelude Order M_Layers M_LayerTree M_SessionPlscan.
Import ListNotations.
Local Open Scope nat_scope.

(** The parameters in force after a history of calls. *)
Fixpoint pparams_after {A I} (a : A) (h : list (pcall A I)) : A :=
  match h with
  | [] => a
  | PSetParams b :: h' => pparams_after b h'
  | _ :: h' => pparams_after a h'
  end.

(** All that a fit tells: the layers and what comes with them, the tree over them
    and the layer whose labels are reported. *)
Record findings (V P : WOrd) (E : Type) := {
  g_layers : list (layer V P);
  g_extra : E;
  g_tree : list (cluster_name * list cluster_name);
  g_best : layer V P
}.
Arguments g_layers {V P E} _.
Arguments g_extra {V P E} _.
Arguments g_tree {V P E} _.
Arguments g_best {V P E} _.

(** The call fits the object to [x]; by which method does not matter. *)
Definition fits {A I} (c : pcall A I) (x : I) : Prop := c = PFitPredict x \/ c = PFit x.

Section Expected.
  Context {A : Type} {V P : WOrd} {E I : Type}.
  Variables (precomputed : A -> bool) (check_data check_weights : A -> I -> res unit) (run : A -> I -> res (list (layer V P) * E)) (argsort : list Z -> list nat).

  (** What a single fit with parameters [a] of a new object gives. *)
  Definition poutcome (a : A) (x : I) : res (findings V P E) :=
    let* _ := check_data a x in
    let* _ := check_weights a x in
    let* y := run a x in
    let* r := plscan_result argsort (fst y) in
    Ok {| g_layers := fst y; g_extra := snd y; g_tree := fst r; g_best := snd r |}.

  (** All result attributes of the object are those of [g]: none is missing, none
      is of another fit. *)
  Definition shows (o : pobject A V P E I) (g : findings V P E) : Prop :=
    po_layers o = Some (g_layers g, g_extra g) /\ po_tree o = Some (g_tree g) /\ po_labels o = Some (y_labels (g_best g)) /\ po_strengths o = Some (y_strengths (g_best g)).
  (** The object has no result attributes. *)
  Definition shows_nothing (o : pobject A V P E I) : Prop :=
    po_layers o = None /\ po_tree o = None /\ po_labels o = None /\ po_strengths o = None.
  (** The same result attributes. *)
  Definition same_results (o o' : pobject A V P E I) : Prop :=
    po_layers o = po_layers o' /\ po_tree o = po_tree o' /\ po_labels o = po_labels o' /\ po_strengths o = po_strengths o'.

  (** [g] stems from the last fit of the history that succeeded. *)
  Definition plast_success (a : A) (h : list (pcall A I)) (b : A) (x : I) (g : findings V P E) : Prop :=
    exists h1 c h2, h = h1 ++ c :: h2 /\ fits c x /\ b = pparams_after a h1 /\ poutcome b x = Ok g /\
      forall h3 c' x' h4, h2 = h3 ++ c' :: h4 -> fits c' x' -> exists e, poutcome (pparams_after b h3) x' = Err e.
  (** No fit of the history succeeded. *)
  Definition pnever (a : A) (h : list (pcall A I)) : Prop :=
    forall h3 c' x' h4, h = h3 ++ c' :: h4 -> fits c' x' -> exists e, poutcome (pparams_after a h3) x' = Err e.

  (** The layers returned: at least one; one label, at least -1, for every sample. *)
  Definition proper_layers (samples : I -> nat) : Prop :=
    forall a x ys e, run a x = Ok (ys, e) -> ys <> [] /\ 0 < samples x /\
      forall y, In y ys -> length (y_labels y) = samples x /\ forall l, In l (y_labels y) -> (-1 <= l)%Z.
End Expected.
