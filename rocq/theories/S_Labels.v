(** Specification vocabulary for labels. *)
From Coq Require Import List Arith Bool ZArith Permutation.
From Verif Require Import Prelude Order Size M_Linkage M_Condense S_Condense M_Labels.
Import ListNotations.

(** The part of [condensed] that labelling needs; simplified trees have it too. *)
Record ordered_tree {V Sz : Type} (n : nat) (T : list (crow V Sz)) : Prop := {
  ot_samples : Permutation (map c_child (sample_rows n T)) (seq 0 n);
  ot_clusters : NoDup (map c_child (cluster_rows n T));
  ot_root : ~ In n (map c_child T);
  ot_order : forall T1 r T2, T = T1 ++ r :: T2 ->
             c_parent r = n \/ (n < c_parent r /\ exists q, In q T1 /\ c_child q = c_parent r)
}.

(** [home S T v t]: [t] is the nearest selected cluster at or above [v], or the
    root if there is none. *)
Inductive home {V Sz} (n : nat) (S : list nat) (T : list (crow V Sz)) : nat -> nat -> Prop :=
| home_root : home n S T n n
| home_here v : In v S -> home n S T v v
| home_up r t : In r T -> ~ In (c_child r) S -> c_child r <> n -> home n S T (c_parent r) t -> home n S T (c_child r) t.

(** Position of [t] among the selected clusters in ascending order. *)
Definition position (S : list nat) (t : nat) : nat := countp (fun s => s <? t) S.

Section Labels.
  Context {V : WOrd} {Sz : Type} (zero : V).
  Variables (n : nat) (T : list (crow V Sz)) (S : list nat).

  (** The row's density is zero. *)
  Definition at_zero (r : crow V Sz) : Prop := wle (c_lam r) zero = true /\ wle zero (c_lam r) = true.

  (** Whether the sample of row [r] is dense enough for a sole root cluster:
      [eps] is 1 / cluster_selection_epsilon if that is positive. *)
  Definition dense_enough (eps : option V) (r : crow V Sz) : Prop :=
    match eps with
    | Some e => wle e (c_lam r) = true
    | None => forall q, In q T -> c_parent q = n -> wle (c_lam q) (c_lam r) = true
    end.

  (** What the label of the sample of row [r] must be. *)
  Definition right_label (eps : option V) (r : crow V Sz) (l : Z) : Prop :=
    (at_zero r -> l = (-1)%Z) /\
    (~ at_zero r -> exists t, home n S T (c_child r) t /\
      (t <> n -> l = Z.of_nat (position S t)) /\
      (t = n -> S <> [n] -> l = (-1)%Z) /\
      (t = n -> S = [n] -> (dense_enough eps r -> l = 0%Z) /\ (~ dense_enough eps r -> l = (-1)%Z))).
End Labels.

(** The strength of the sample of row [r] in cluster [c]: its density relative to
    the highest density [m] at which a sample leaves [c] directly; 1 for samples
    above it, for infinite densities, and if nothing leaves above density zero. *)
Definition right_strength {V : WOrd} {Sz} (LA : LamArith V) (n : nat) (T : list (crow V Sz)) (c : nat) (r : crow V Sz) (p : V) : Prop :=
  exists m,
    (wle (la_zero LA) m = true /\
     (m = la_zero LA \/ exists q, In q T /\ c_child q < n /\ c_parent q = c /\ m = c_lam q) /\
     (forall q, In q T -> c_child q < n -> c_parent q = c -> wle (c_lam q) m = true)) /\
    (wle m (la_zero LA) = true \/ la_finite LA (c_lam r) = false -> p = la_one LA) /\
    (wle m (la_zero LA) = false -> la_finite LA (c_lam r) = true -> wle (c_lam r) m = true -> p = la_div LA (c_lam r) m) /\
    (wlt m (c_lam r) = true -> p = la_one LA).

(** What the strengths need of division. *)
Record LamLaws {V : WOrd} (LA : LamArith V) : Prop := {
  ll_01 : wle (la_zero LA) (la_one LA) = true;
  ll_fin : forall a b, wle a b = true -> la_finite LA b = true -> la_finite LA a = true;
  ll_div : forall a b, la_finite LA a = true -> wle (la_zero LA) a = true -> wle a b = true -> wle b (la_zero LA) = false ->
           wle (la_zero LA) (la_div LA a b) = true /\ wle (la_div LA a b) (la_one LA) = true;
  ll_div1 : forall a b, la_finite LA a = true -> wle a b = true -> wle b a = true -> wle b (la_zero LA) = false ->
            la_div LA a b = la_one LA
}.
