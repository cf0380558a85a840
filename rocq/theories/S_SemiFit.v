(** Vocabulary for fits with labelled rows. *)
From Coq Require Import List ZArith.
Import ListNotations.

(** Some row has a label other than -1. *)
Definition labelled_somewhere (y : list (option Z)) : Prop := exists l, In (Some l) y /\ l <> (-1)%Z.

(** Labels are renamed one to one; unlabelled rows stay unlabelled. *)
Definition renames (g : Z -> Z) (labels : list Z) : Prop :=
  (forall z, In z labels -> (0 <= z <-> 0 <= g z)%Z) /\ forall a b, In a labels -> In b labels -> (0 <= a)%Z -> (0 <= b)%Z -> g a = g b -> a = b.
