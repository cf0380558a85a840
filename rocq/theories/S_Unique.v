(** Vocabulary for comparing hierarchies and clusterings. *)
From Coq Require Import List Arith Bool ZArith Permutation.
From Verif Require Import Prelude Order Graph Size M_Linkage S_Linkage M_Condense S_Condense.
Import ListNotations.

(** The samples 0..n-1 in another order: sample [x] of one run is sample [p x] of
    the other. *)
Definition reorders (n : nat) (p : nat -> nat) : Prop :=
  (forall x, x < n -> p x < n) /\ (forall x y, x < n -> y < n -> p x = p y -> x = y).

(** No two edges have the same weight. *)
Definition distinct_weights {W : WOrd} (M : list (edge W)) : Prop :=
  forall i j e f, nth_error M i = Some e -> nth_error M j = Some f -> wle (ewt e) (ewt f) = true -> wle (ewt f) (ewt e) = true -> i = j.

(** Up to the order of the samples, the same samples are connected at every
    threshold. *)
Definition same_hierarchy {W : WOrd} (n : nat) (p : nat -> nat) (M M' : list (edge W)) : Prop :=
  forall P, threshold P -> forall x y, x < n -> y < n -> (connected (passing P M) (p x) (p y) <-> connected (passing P M') x y).

(** The same edges between the reordered samples. *)
Definition relabel {W} (p : nat -> nat) (E : list (edge W)) : list (edge W) :=
  map (fun e => (p (esrc e), p (edst e), ewt e)) E.

(** An edge of weight [w] between [x] and [y], in either direction. *)
Definition joined {W} (E : list (edge W)) (x y : nat) (w : W) : Prop := In (x, y, w) E \/ In (y, x, w) E.

(** [ren f T]: all names of the tree [T] replaced. *)
Definition ren {V Sz} (f : nat -> nat) (r : crow V Sz) : crow V Sz :=
  {| c_parent := f (c_parent r); c_child := f (c_child r); c_lam := c_lam r; c_size := c_size r |}.

(** [T'] is [T] with samples and clusters renamed one to one, the rows in any order. *)
Record renamed {V Sz} (n : nat) (f : nat -> nat) (T T' : list (crow V Sz)) : Prop := {
  rn_root : f n = n;
  rn_samples : forall x, x < n -> f x < n;
  rn_clusters : forall c, is_cluster n T c -> is_cluster n T' (f c);
  rn_inj : forall a b, a < n \/ is_cluster n T a -> b < n \/ is_cluster n T b -> f a = f b -> a = b;
  rn_rows : Permutation (map (ren f) T) T'
}.

(** The same clusters, the same noise and the same strengths; only the numbers of
    the clusters may differ. *)
Record same_clustering {V : Type} (zero : V) (n : nat) (p : nat -> nat) (ls ls' : list Z) (ps ps' : list V) : Prop := {
  sc_noise : forall x, x < n -> (nth (p x) ls 0%Z = (-1)%Z <-> nth x ls' 0%Z = (-1)%Z);
  sc_clusters : forall x y, x < n -> y < n -> (nth (p x) ls 0%Z = nth (p y) ls 0%Z <-> nth x ls' 0%Z = nth y ls' 0%Z);
  sc_strengths : forall x, x < n -> nth (p x) ps zero = nth x ps' zero
}.
