(** What the scores of PLSCAN's layers should satisfy. *)
From Coq Require Import List Arith ZArith Permutation.
From Verif Require Import Prelude Order M_Layers.
Import ListNotations.
Local Open Scope nat_scope.

(** A cluster that lives from [birth] to [death] adds to the score; [fraction]:
    what the densities become. *)
Definition scores_grow {D : Type} {P : WOrd} (number : P -> Prop) (fraction : D -> Prop) (pzero : P) (accumulate : P -> nat -> nat -> D -> P) : Prop :=
  number pzero /\ forall p birth death d, number p -> birth < death -> fraction d ->
    number (accumulate p birth death d) /\ wlt p (accumulate p birth death d) = true.

(** One layer, the one for the smallest size, has the score zero.  Every other
    layer has a higher score, and at least two clusters.  The layer [y] that is
    reported is one of the others if there are any. *)
Definition right_scores {V P : WOrd} (pzero : P) (ys : list (layer V P)) (y : layer V P) : Prop :=
  exists base others, Permutation ys (base :: others) /\ y_persistence base = pzero /\
    (forall y', In y' others -> wlt pzero (y_persistence y') = true /\ In 0%Z (y_labels y') /\ In 1%Z (y_labels y')) /\
    (others = [] -> y = base) /\ (others <> [] -> In y others).
