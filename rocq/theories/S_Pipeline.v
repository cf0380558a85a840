(** Specification vocabulary for complete clusterings. *)
From Coq Require Import List Arith Bool ZArith Permutation Sorted.
From Verif Require Import Prelude Order Graph Size Num M_Linkage S_Linkage M_Condense S_Condense M_Select S_Select M_Labels S_Labels
  S_Epsilon S_Simplify M_Pipeline.
Import ListNotations.

(** What the theorems ask of the settings: no maximum size, clusters of more than
    one sample, monotone thresholds, and [1 / epsilon] consistent with the test
    [distance < epsilon]. *)
Record usable {V : WOrd} {Sz : SOrd} (zero : V) (st : settings V Sz) : Prop := {
  us_size : slt sone (min_cluster_size st) = true;
  us_max : max_cluster_size st = None;
  us_eps : forall lt_eps inv, cluster_selection_epsilon st = Some (lt_eps, inv) ->
    (forall x y, wle x y = true -> lt_eps x = true -> lt_eps y = true) /\
    (forall x, lt_eps x = true -> wle inv x = true /\ wlt zero x = true);
  us_persist : forall persists, cluster_selection_persistence st = Some persists ->
    forall b b' d d', wle b b' = true -> wle d' d = true -> persists b d = true -> persists b' d' = true
}.

(** [np.argsort] on the parent column. *)
Definition sorts_by_parent {V Sz} (f : list (crow V Sz) -> list (crow V Sz)) : Prop :=
  forall ct, Permutation (f ct) ct /\ StronglySorted (fun r q => c_parent r <= c_parent q) (f ct).

(** A label (-1 for noise) and a strength for every sample. *)
Record clustering {V : WOrd} (zero one : V) (n : nat) (ls : list Z) (ps : list V) : Prop := {
  cl_labels : length ls = n;
  cl_strengths : length ps = n;
  cl_range : forall x, x < n -> (-1 <= nth x ls 0)%Z;
  cl_unit : forall x, x < n -> wle zero (nth x ps zero) = true /\ wle (nth x ps zero) one = true;
  cl_noise : forall x, x < n -> nth x ls 0%Z = (-1)%Z -> nth x ps zero = zero;
  cl_full : forall x, x < n -> nth x ls 0%Z <> (-1)%Z ->
            exists y, y < n /\ nth y ls 0%Z = nth x ls 0%Z /\ nth y ps zero = one
}.

(** The labels in use are 0, 1, ..., k - 1. *)
Definition numbered (n : nat) (ls : list Z) : Prop :=
  exists k : nat, forall l : Z, (0 <= l < Z.of_nat k)%Z <-> l <> (-1)%Z /\ exists x, x < n /\ nth x ls 0%Z = l.

(** Every cluster has total weight at least [mcs]. *)
Definition large_clusters {Sz : SOrd} (n : nat) (wt : nat -> Sz) (mcs : Sz) (ls : list Z) : Prop :=
  forall x, x < n -> nth x ls 0%Z <> (-1)%Z ->
  exists ys, NoDup ys /\ (forall y, In y ys <-> y < n /\ nth y ls 0%Z = nth x ls 0%Z) /\ sle mcs (ssum (map wt ys)) = true.

(** What the theorems ask of the settings and of the arithmetic of densities:
    [lam] antitone and not negative. *)
Record setting_ok {W V : WOrd} {Sz : SOrd} (lam : W -> V) (LA : LamArith V) (A : Arith V Sz)
    (by_parent : list (crow V Sz) -> list (crow V Sz)) (st : settings V Sz) : Prop := {
  so_usable : usable (la_zero LA) st;
  so_laws : LamLaws LA;
  so_sorts : sorts_by_parent by_parent;
  so_irrefl : num_lt A (num_zero A) (num_zero A) = false;
  so_antitone : forall x y, wle x y = true -> wle (lam y) (lam x) = true;
  so_nonneg : forall w, wle (la_zero LA) (lam w) = true
}.

(** The one choice of settings that can select the root and then replace it. *)
Definition root_ok {V Sz} (st : settings V Sz) : Prop := allow_single_cluster st = true -> cluster_selection_method st = Eom ->
  cluster_selection_epsilon st = None /\ cluster_selection_persistence st = None.

(** Scores that respect zero and the sign.  [Z]: zero; [N]: not negative; [P]: positive.  Rational scores with infinities
    and float32 scores are instances; NaN is in none of the three.  Products are of densities and sizes. *)
Record ScoreLaws {W V : WOrd} {Sz : SOrd} (lam : W -> V) (A : Arith V Sz) (zero : V) (Z N P : num A -> Prop) : Prop := {
  sl_zero : Z (num_zero A);
  sl_mul0 : forall l s, wle l zero = true -> wle zero l = true -> sle sone s = true -> Z (num_mul A l s);
  sl_mulP : forall d s, wlt zero (lam d) = true -> sle sone s = true -> P (num_mul A (lam d) s);
  sl_opp : forall x, Z x -> Z (num_opp A x);
  sl_addZ : forall x y, Z x -> Z y -> Z (num_add A x y);
  sl_addN : forall x y, N x -> N y -> N (num_add A x y);
  sl_addP1 : forall x y, P x -> N y -> P (num_add A x y);
  sl_addP2 : forall x y, N x -> P y -> P (num_add A x y);
  sl_ZN : forall x, Z x -> N x;
  sl_PN : forall x, P x -> N x;
  sl_N0 : forall x, N x -> num_lt A x (num_zero A) = false;
  sl_ltP : forall x y, N x -> num_lt A x y = true -> P y;
  sl_geP : forall x y, N x -> P y -> num_lt A x y = false -> P x;
  sl_ZP : forall x y, Z x -> P y -> num_lt A x y = true
}.

(** A run ends with a clustering and a condensed tree; the only failure is
    simplification of a hierarchy without splits.  [allow_single_cluster] does
    not help in that case: everything is noise. *)
Definition completes {V : WOrd} (LA : LamArith V) {Sz : SOrd} (st : settings V Sz) (n : nat) (wt : nat -> Sz)
    (r : res (list Z * list V * list (crow V Sz))) : Prop :=
  (exists ls ps T, r = Ok (ls, ps, T) /\ clustering (la_zero LA) (la_one LA) n ls ps /\
    condensed n wt (min_cluster_size st) T /\ splits_once n T /\ (cluster_rows n T = [] -> ls = repeat (-1)%Z n)) \/
  (cluster_selection_persistence st <> None /\ r = Err IndexError).

(** ** What a run reports *)
(** The single-linkage hierarchy of the spanning tree: the i-th merge is the i-th
    lightest edge, and joins what the edges up to it connect. *)
Definition linkage_of {W : WOrd} {Sz : SOrd} (n : nat) (wt : nat -> Sz) (M : list (edge W)) (L : list (lrow W Sz)) : Prop :=
  dendrogram n L /\ sizes_are n wt L /\ heights_sorted L /\
  exists M', Permutation M M' /\ map l_d L = map ewt M' /\
    forall i e x, nth_error M' i = Some e -> (under n L (n + i) x <-> x < n /\ connected (firstn (S i) M') (esrc e) x).

(** [T] is [T0] without the splits that do not persist (C31). *)
Definition simplified {V : WOrd} {Sz : SOrd} (persists : V -> V -> bool) (n : nat) (T0 T : list (crow V Sz)) : Prop :=
  exists new : nat -> nat, new n = n /\
    (forall c d, c = n \/ kept persists n T0 c -> c < d -> new c < new d) /\
    (forall c', is_cluster n T c' <-> exists c, (c = n \/ kept persists n T0 c) /\ new c = c') /\
    (forall c x, c = n \/ kept persists n T0 c -> (below n T (new c) x <-> below n T0 c x)) /\
    (forall r, In r T0 -> kept persists n T0 (c_child r) ->
       exists r' c, In r' T /\ c_child r' = new (c_child r) /\ c_lam r' = c_lam r /\ c_size r' = c_size r /\
         stays_at persists n T0 (c_parent r) c /\ c_parent r' = new c) /\
    (forall r, In r T0 -> c_child r < n ->
       exists r' c, In r' T /\ c_child r' = c_child r /\
         stays_at persists n T0 (c_parent r) c /\ c_parent r' = new c /\
         (~ lowered persists n T0 (c_parent r) -> c_lam r' = c_lam r) /\
         (lowered persists n T0 (c_parent r) -> forall o, In o T0 -> c_child o = c_parent r -> c_lam r' = c_lam o)).

(** [L]: the hierarchy of the spanning tree [M]; [T0]: its condensation; [T]: the
    returned tree; [chosen]: the clusters the method selects; [final]: after the
    epsilon search; labels and strengths follow from these. *)
Record explained {W V : WOrd} {Sz : SOrd} (lam : W -> V) (LA : LamArith V) (st : settings V Sz) (n : nat) (wt : nat -> Sz)
    (M : list (edge W)) (ls : list Z) (ps : list V) (T : list (crow V Sz))
    (L : list (lrow W Sz)) (T0 : list (crow V Sz)) (chosen final : list nat) : Prop := {
  xp_linkage : linkage_of n wt M L;
  xp_condensed : condensed n wt (min_cluster_size st) T0;
  xp_faithful : faithful n L wt (min_cluster_size st) None lam T0;
  xp_rows : splits_once n T0 /\ ascending T0;
  xp_persistence : match cluster_selection_persistence st with None => T = T0 | Some persists => simplified persists n T0 T end;
  xp_tree : condensed n wt (min_cluster_size st) T /\ splits_once n T;
  xp_unsplit : cluster_rows n T = [] -> chosen = [];
  xp_leaf : cluster_selection_method st = Leaf -> cluster_rows n T <> [] -> forall c, In c chosen <-> leaf_cluster n T c;
  xp_eom : cluster_selection_method st = Eom -> cluster_rows n T <> [] ->
    (forall c, In c chosen -> admissible n T None (allow_single_cluster st) c) /\ disjoint_clusters n T chosen /\
    (forall l, leaf_cluster n T l -> exists s, In s chosen /\ (s = l \/ descends n T s l));
  xp_no_epsilon : cluster_selection_epsilon st = None \/ length chosen <= 1 -> final = chosen;
  xp_epsilon : forall lt_eps inv, cluster_selection_epsilon st = Some (lt_eps, inv) -> 2 <= length chosen ->
    (forall e, In e final -> (In e chosen /\ ~ born_below lt_eps n T e) \/ merge_of lt_eps n T chosen e) /\
    (forall s, In s chosen -> ~ born_below lt_eps n T s -> In s final) /\
    (forall s, In s chosen -> (forall e, In e final -> e <> s /\ ~ descends n T e s) ->
       born_below lt_eps n T s /\ exists e, In e final /\ merge_of lt_eps n T chosen e /\ e < s);
  xp_disjoint : NoDup final /\ (forall c, In c final -> is_cluster n T c) /\ disjoint_clusters n T final;
  xp_all_noise : final = [] -> ls = repeat (-1)%Z n /\ ps = repeat (la_zero LA) n;
  xp_labels : final <> [] -> forall r, In r T -> c_child r < n ->
    right_label (la_zero LA) n T final (option_map snd (cluster_selection_epsilon st)) r (nth (c_child r) ls 0%Z);
  xp_strengths : final <> [] -> forall r, In r T -> c_child r < n -> nth (c_child r) ls 0%Z <> (-1)%Z ->
    exists c, In c final /\ nth (c_child r) ls 0%Z = Z.of_nat (position final c) /\
      right_strength LA n T c r (nth (c_child r) ps (la_zero LA))
}.

From Coq Require Import QArith Qcanon.
(** Every finite edge of the tree is short enough for the threshold: its density
    1/d is at least [p]. *)
Definition edges_within (p : Qc) (M : list (edge QInf)) : Prop := forall e d, In e M -> ewt e = Some d -> (p * d <= 1)%Qc.
