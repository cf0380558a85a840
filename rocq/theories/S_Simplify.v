(** Specification vocabulary for cluster_selection_persistence. *)
From Coq Require Import List Arith Bool.
From Verif Require Import Prelude Order Size M_Linkage M_Condense S_Condense.
Import ListNotations.

Section Spec.
  Context {V : WOrd} {Sz : SOrd}.
  Variables (persists : V -> V -> bool) (n : nat) (T : list (crow V Sz)).
  Implicit Types (r q : crow V Sz).

  Definition at_or_below (c d : nat) : Prop := d = c \/ descends n T c d.

  (** The last row that leaves cluster [c]. *)
  Definition last_row (c : nat) r : Prop :=
    exists T1 T2, T = T1 ++ r :: T2 /\ c_parent r = c /\ forall q, In q T2 -> c_parent q <> c.

  (** The highest density reached inside [c]. *)
  Definition peak (c : nat) (v : V) : Prop :=
    (exists d r, at_or_below c d /\ last_row d r /\ c_lam r = v) /\
    (forall d r, at_or_below c d -> last_row d r -> wle (c_lam r) v = true).

  (** [c] lasts long enough after its birth. *)
  Definition persistent (c : nat) : Prop :=
    exists r v, In r T /\ n <= c_child r /\ c_child r = c /\ peak c v /\ persists v (c_lam r) = true.

  Definition siblings (c d : nat) : Prop :=
    exists r q, In r T /\ In q T /\ n <= c_child r /\ n <= c_child q /\ c_child r = c /\ c_child q = d /\
      c_parent r = c_parent q /\ c <> d.

  (** A split stays if both sides are persistent. *)
  Definition kept (c : nat) : Prop :=
    is_cluster n T c /\ c <> n /\ persistent c /\ forall d, siblings c d -> persistent d.

  (** [c] is the lowest cluster at or above [p] that stays. *)
  Definition stays_at (p c : nat) : Prop :=
    (c = n \/ kept c) /\ at_or_below c p /\ forall d, kept d -> at_or_below d p -> at_or_below d c.

  (** [c] is merged into its parent, is the lesser side (the first one on ties),
      and the other side still splits. *)
  Definition lowered (c : nat) : Prop :=
    exists d v w, siblings c d /\ ~ kept c /\ peak c v /\ peak d w /\
      (if c <? d then wle v w else wlt v w) = true /\
      exists e, kept e /\ descends n T d e.
End Spec.
