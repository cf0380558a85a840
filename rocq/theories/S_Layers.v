(** Specification vocabulary for the multi-resolution clustering. *)
From Coq Require Import List Arith Bool ZArith QArith Permutation Sorted.
From Verif Require Import Prelude Order Size M_Linkage S_Linkage M_Condense S_Condense M_Select S_Select M_Labels S_Labels M_Layers.
Import ListNotations.
Local Open Scope nat_scope.

(** ** Peaks *)
(** Positions a..b carry equal values and the neighbours on both sides are
    smaller. *)
Definition plateau {W : WOrd} (x : list W) (a b : nat) : Prop :=
  1 <= a <= b /\ S b < length x /\
  (forall k, a <= k <= b -> wle (nth k x winf) (nth a x winf) = true /\ wle (nth a x winf) (nth k x winf) = true) /\
  wlt (nth (a - 1) x winf) (nth a x winf) = true /\ wlt (nth (S b) x winf) (nth a x winf) = true.

(** ** Barcode *)
Section Barcode.
  Context {V D : Type}.
  Variables (n : nat) (T : list (crow V NatSize)).

  (** Rows [r] and [q] are a split: two new clusters of one parent. *)
  Definition split_rows (r q : crow V NatSize) : Prop :=
    exists j, nth_error (cluster_rows n T) (2 * j) = Some r /\ nth_error (cluster_rows n T) (2 * j + 1) = Some q.
  (** Cluster [c] splits and the smaller part has [m] samples. *)
  Definition splits_at (c m : nat) : Prop :=
    exists r q, split_rows r q /\ c_parent r = c /\ m = Nat.min (c_size r) (c_size q).
  (** Cluster [c] comes from such a split. *)
  Definition made_at (c m : nat) : Prop :=
    exists r q, split_rows r q /\ (c = c_child r \/ c = c_child q) /\ m = Nat.min (c_size r) (c_size q).

  (** The root dies at the number of samples, every other cluster when the
      minimum size exceeds the smaller part of the split that makes it.  A cluster
      is born at the smallest minimum size at which neither it nor a cluster below
      it splits. *)
  Record right_barcode (death_of : V -> D) (zero : D) (min_size : nat) (b : barcode D) : Prop := {
    rb_nodes : b_nodes b = S (length (cluster_rows n T));
    rb_root : b_deaths b 0 = n /\ b_parents b 0 = n /\ b_lambdas b 0 = zero;
    rb_deaths : forall c m, made_at c m -> b_deaths b (c - n) = m;
    rb_rows : forall r, In r T -> n <= c_child r ->
              b_parents b (c_child r - n) = c_parent r /\ b_lambdas b (c_child r - n) = death_of (c_lam r);
    rb_births : forall c, is_cluster n T c ->
                min_size <= b_births b (c - n) /\
                (forall d m, d = c \/ descends n T c d -> splits_at d m -> m <= b_births b (c - n)) /\
                (b_births b (c - n) = min_size \/ exists d m, (d = c \/ descends n T c d) /\ splits_at d m /\ b_births b (c - n) = m)
  }.

  (** The leaf clusters for minimum size [s] + 1: clusters whose parent splits into
      parts above [s], and which contain no such split. *)
  Definition leaf_for (s c : nat) : Prop :=
    ((c = n /\ s < n) \/ exists m, made_at c m /\ s < m) /\
    forall d m, d = c \/ descends n T c d -> splits_at d m -> m <= s.
End Barcode.

(** ** Leaf clusters, read off the dendrogram *)
(** Node [v] is [u] or lies below it. *)
Inductive reach {W Sz} (n : nat) (L : list (lrow W Sz)) (u : nat) : nat -> Prop :=
| reach_here : reach n L u u
| reach_child i r c : reach n L u (n + i) -> nth_error L i = Some r -> c = l_a r \/ c = l_b r -> reach n L u c.

Section Nodes.
  Context {W : WOrd} {Sz : SOrd}.
  Variables (n : nat) (L : list (lrow W Sz)) (wt : nat -> Sz) (mcs : Sz).

  (** Node [v] is the root or one side of a merge of two parts of at least the
      minimum size. *)
  Definition head (v : nat) : Prop :=
    v = 2 * n - 2 \/ exists i r, nth_error L i = Some r /\ true_split n L wt mcs None r /\ (v = l_a r \/ v = l_b r).
  (** It contains no such merge. *)
  Definition leaf_node (v : nat) : Prop :=
    head v /\ forall i r, reach n L v (n + i) -> nth_error L i = Some r -> ~ true_split n L wt mcs None r.
End Nodes.

(** ** Condensed trees of one linkage tree *)
(** [T] is the condensed tree for minimum size [m]; what [condensed], [faithful]
    and [splits_once] say is in S_Condense.v. *)
Definition tree_of {W V : WOrd} (lam : W -> V) (n : nat) (L : list (lrow W NatSize)) (m : nat) (T : list (crow V NatSize)) : Prop :=
  condense_tree L lam (m : NatSize) None (fun _ => 1) = Ok T /\ condensed (Sz := NatSize) n (fun _ => 1) m T /\
  faithful n L (fun _ => (1 : NatSize)) (m : NatSize) None lam T /\ splits_once n T.

(** No minimum size up to half the samples has a number of leaf clusters closer
    to [approx] than [k]. *)
Definition best {W V : WOrd} (lam : W -> V) (n : nat) (L : list (lrow W NatSize)) (approx k : nat) : Prop :=
  2 <= k <= n / 2 /\
  forall j S S', 2 <= j <= n / 2 -> leaves_at lam L k = Ok S -> leaves_at lam L j = Ok S' ->
    (Z.abs (Z.of_nat (length S) - Z.of_nat approx) <= Z.abs (Z.of_nat (length S') - Z.of_nat approx))%Z.

(** How many samples are noise. *)
Definition noise (labels : list Z) : nat := count_occ Z.eq_dec labels (-1)%Z.

(** ** One layer *)
(** [labels] and [strengths] describe the clusters [S] of the tree [T]: disjoint
    clusters, the root alone or at least two others; labels count them in ascending
    order; strengths lie between 0 and 1 and are relative densities. *)
Record right_layer {V : WOrd} (LA : LamArith V) (n : nat) (T : list (crow V NatSize)) (S : list nat) (labels : list Z) (strengths : list V) : Prop := {
  ly_clusters : forall c, In c S -> is_cluster n T c;
  ly_sorted : StronglySorted lt S;
  ly_disjoint : disjoint_clusters n T S;
  ly_number : S = [n] \/ (~ In n S /\ 2 <= length S);
  ly_labels : length labels = n /\ forall r, In r T -> c_child r < n -> right_label (la_zero LA) n T S None r (nth (c_child r) labels 0%Z);
  ly_strengths : length strengths = n /\
    (forall x, x < n -> wle (la_zero LA) (nth x strengths (la_zero LA)) = true /\ wle (nth x strengths (la_zero LA)) (la_one LA) = true) /\
    (forall x, x < n -> nth x labels 0%Z = (-1)%Z -> nth x strengths (la_zero LA) = la_zero LA) /\
    (forall r, In r T -> c_child r < n -> nth (c_child r) labels 0%Z <> (-1)%Z ->
       exists c, In c S /\ nth (c_child r) labels 0%Z = Z.of_nat (position S c) /\ right_strength LA n T c r (nth (c_child r) strengths (la_zero LA)))
}.

(** ** Sorting and similarity *)
(** [np.argsort]: any sorting permutation of the indices. *)
Definition argsorts {P : WOrd} (argsort : list P -> list nat) : Prop :=
  forall l, Permutation (argsort l) (seq 0 (length l)) /\ StronglySorted (fun i j => wle (nth i l winf) (nth j l winf) = true) (argsort l).
Definition argsorts_Z (argsort : list Z -> list nat) : Prop :=
  forall l, Permutation (argsort l) (seq 0 (length l)) /\ StronglySorted (fun i j => (nth i l 0 <= nth j l 0)%Z) (argsort l).

(** [q] is the number of common elements over the number of elements. *)
Definition jaccard_index (a b : list nat) (q : Q) : Prop :=
  exists common all, NoDup common /\ NoDup all /\ (forall x, In x common <-> In x a /\ In x b) /\ (forall x, In x all <-> In x a \/ In x b) /\
    q = match length all with 0 => 0%Q | n => (Z.of_nat (length common) # Pos.of_nat n)%Q end.

(** ** The layers of a hierarchy *)
(** Number of clusters as the code counts it: one more than the largest label. *)
Definition label_count (labels : list Z) (k : Z) : Prop :=
  (forall l, In l labels -> (l < k)%Z) /\ In (k - 1)%Z labels.

Section Layer.
  Context {V P : WOrd} {D : Type} (LA : LamArith V).
  Variables (pzero : P) (accumulate : P -> nat -> nat -> D -> P) (n : nat) (T : list (crow V NatSize)) (b : barcode D).

  (** Persistence of the clusters other than the root that are alive at [s]. *)
  Definition persistence_at (s : nat) : P :=
    fold_left (fun p i => accumulate p (b_births b i) (b_deaths b i) (b_lambdas b i)) (filter (fun i => negb (i =? 0)) (alive b s)) pzero.

  (** [s] is the middle of a peak of the persistence, taken at the sizes at which
      a cluster is born. *)
  Definition size_peak (s : nat) : Prop :=
    exists ss total x y, StronglySorted lt ss /\ (forall s, In s ss <-> exists i, i < b_nodes b /\ b_births b i = s) /\
      length total = length ss /\ (forall k, k < length ss -> nth k total pzero = persistence_at (nth k ss 0)) /\
      plateau total x y /\ s = nth ((x + y) / 2) ss 0.

  (** The clusters alive at size [s], labelled, with their persistence. *)
  Definition layer_at (s : nat) (y : layer V P) : Prop :=
    (exists S, (forall c, In c S <-> is_cluster n T c /\ leaf_for n T s c) /\ ~ In n S /\ right_layer LA n T S (y_labels y) (y_strengths y)) /\
    y_persistence y = persistence_at s.

  (** The clusters alive at the two sizes have much in common. *)
  Definition alike (threshold : Q) (s s' : nat) : Prop :=
    exists j, jaccard_index (alive b s) (alive b s') j /\ (threshold < j)%Q.

  (** [sizes] are peaks with different clusters.  A peak is left out only for a
      similar one of at least its persistence, or when there are enough layers;
      the most persistent peak is kept. *)
  Definition right_sizes (threshold : Q) (max_layers : nat) (sizes : list nat) : Prop :=
    NoDup sizes /\ length sizes <= max_layers - 1 /\ (forall s, In s sizes -> size_peak s) /\
    (forall s s', In s sizes -> In s' sizes -> s <> s' -> ~ alike threshold s s') /\
    (forall s, size_peak s -> In s sizes \/ length sizes = max_layers - 1 \/
       exists s', In s' sizes /\ alike threshold s s' /\ wle (persistence_at s) (persistence_at s') = true) /\
    (2 <= max_layers -> forall s, size_peak s -> exists s', In s' sizes /\ wle (persistence_at s) (persistence_at s') = true).

  (** [ys] consists of the base layer and of one layer for each of these sizes;
      the finest layers come first. *)
  Definition layer_stack (threshold : Q) (m max_layers : nat) (base : layer V P) (ys : list (layer V P)) : Prop :=
    exists sizes more, right_sizes threshold max_layers sizes /\ (forall s, In s sizes -> m <= s < n) /\
      Permutation ys (base :: more) /\ Forall2 layer_at sizes more /\
      StronglySorted (fun y y' => forall k k', label_count (y_labels y) k -> label_count (y_labels y') k' -> (k' <= k)%Z) ys.
End Layer.

(** [m] is the number of members of the smallest cluster of a labelling. *)
Definition smallest_cluster (labels : list Z) (m : nat) : Prop :=
  (forall l, In l labels -> (0 <= l)%Z -> m <= length (filter (Z.eqb l) labels)) /\
  exists l, In l labels /\ (0 <= l)%Z /\ m = length (filter (Z.eqb l) labels).
