(** Model of the detectors of sub-clusters and branches on a fitted clustering,
    with the treatment of rows that are not finite:
    fast_hdbscan/sub_clusters.py:188-241, 331-455, 483-541 and
    fast_hdbscan/branches.py:112-142. *)
From Coq Require Import List Arith Bool ZArith.
From Verif Require Import Prelude Order Graph Size Num M_Precomputed M_Condense M_Estimator M_SubClusters M_LensGraph.
Import ListNotations.
Local Open Scope nat_scope.

(** sub_clusters.py:336-338. [np.searchsorted(a, key, side="right")]: binary search; [fuel] bounds the
    number of halvings. *)
Fixpoint search_right {V : WOrd} (fuel : nat) (a : nat -> V) (key : V) (lo hi : nat) : nat :=
  match fuel with
  | 0 => lo
  | S f => if lo <? hi then
             let mid := lo + (hi - lo) / 2 in
             if wlt key (a mid) then search_right f a key lo mid else search_right f a key (S mid) hi
           else lo
  end.
(** sub_clusters.py:336-338: The search over a whole array. *)
Definition searchsorted {V : WOrd} (a : list V) (key : V) : nat :=
  search_right (length a) (fun i => nth i a key) key 0 (length a).

(** sub_clusters.py:340-342. [np.setdiff1d(np.arange(n), values)] *)
Definition all_but (n : nat) (values : list nat) : list nat := filter (fun i => negb (existsb (Nat.eqb i) values)) (seq 0 n).

(** sub_clusters.py:343-345, 358. [a[index]]: raises for an index out of range. *)
Fixpoint gather {A} (a : list A) (index : list nat) : res (list A) :=
  match index with
  | [] => Ok []
  | i :: index' => match nth_error a i with
                   | None => Err IndexError
                   | Some x => let* xs := gather a index' in Ok (x :: xs)
                   end
  end.

Section Detector.
  Context {W V : WOrd} {Sz : SOrd} {Row : Type}.
  Variables (round : W -> W) (sort_row : list (nat * W) -> list (nat * W)).
  Variables (average : V -> V -> V) (zero one : V) (no_lens : W).
  (** clusters_from_spanning_tree with the detector's settings, without sample
      weights. *)
  Variable cluster_of : list (edge W) -> res (list Z * list V).

  (** Lens values are computed from the data, the membership strengths and the
      samples of a cluster (as branches.py:5-10 does; neighbours, core distances
      and spanning tree are not passed on), or given for all samples. *)
  Inductive lens_input := LensCallback (f : list Row -> list V -> list nat -> list W) | LensValues (values : list W).

  (** The fitted attributes of a detector (sub_clusters.py:493-506): labels_,
      probabilities_, cluster_labels_, cluster_probabilities_,
      sub_cluster_labels_, sub_cluster_probabilities_, lens_values_,
      cluster_points_, and the trees and graph of every cluster. *)
  Record detected := {
    d_labels : list Z; d_probs : list V;
    d_cluster : list Z; d_cluster_probs : list V;
    d_sub : list Z; d_sub_probs : list V;
    d_lens : list W;
    d_points : list (list nat);
    d_parts : list (sub_result W V)
  }.

  (** sub_clusters.py:412-416 *)
  Definition maybe_propagate (propagate : joined V W * list (list nat * sub_result W V) -> res ((nat -> Z) * (nat -> Z)))
      (propagate_labels : bool) (found : joined V W * list (list nat * sub_result W V)) : res ((nat -> Z) * (nat -> Z)) :=
    if propagate_labels then propagate found else Ok (j_labels (fst found), j_sub (fst found)).

  Section Run.
    Variable propagate : joined V W * list (list nat * sub_result W V) -> res ((nat -> Z) * (nat -> Z)).

    (** sub_clusters.py:78-79: [labels[min_spanning_tree[:, 0]]] and [[:, 1]]. *)
    Definition check_endpoints (labels : list Z) (mst : list (edge W)) : res unit :=
      if forallb (fun e => (esrc e <? length labels) && (edst e <? length labels)) mst then Ok tt else Err IndexError.

    (** sub_clusters.py:364-416 *)
    Definition detect_rows (propagate_labels : bool) (data : list Row) (labels : list Z) (probabilities : list V)
        (neighbors : list (list (option nat))) (mst : list (edge W)) (lens : list nat -> list W) : res detected :=
      let* _ := num_clusters labels in
      let* _ := check_endpoints labels mst in
      let* found := find_sub_clusters round sort_row average zero one no_lens cluster_of labels (fun x => nth x probabilities zero)
                      neighbors mst (fun k => lens (members labels (Z.of_nat k))) in
      let* final := maybe_propagate propagate propagate_labels found in
      let rows := seq 0 (length data) in
      Ok {| d_labels := map (fst final) rows; d_probs := map (j_probs (fst found)) rows;
            d_cluster := labels; d_cluster_probs := probabilities;
            d_sub := map (snd final) rows; d_sub_probs := map (j_sub_probs (fst found)) rows;
            d_lens := map (j_lens (fst found)) rows;
            d_points := map fst (snd found); d_parts := map snd (snd found) |}.

    (** sub_clusters.py:188-241 *)
    Definition remap_results (r : detected) (finite_index : list nat) (num_points : nat) : res detected :=
      let* labels := scatter num_points (-1)%Z finite_index (d_labels r) in
      let* probs := scatter num_points zero finite_index (d_probs r) in
      let* cluster := scatter num_points (-1)%Z finite_index (d_cluster r) in
      let* cluster_probs := scatter num_points zero finite_index (d_cluster_probs r) in
      let* sub := scatter num_points 0%Z finite_index (d_sub r) in
      let* sub_probs := scatter num_points one finite_index (d_sub_probs r) in
      let* lens := scatter num_points no_lens finite_index (d_lens r) in
      Ok {| d_labels := labels; d_probs := probs; d_cluster := cluster; d_cluster_probs := cluster_probs; d_sub := sub;
            d_sub_probs := sub_probs; d_lens := lens;
            d_points := map (map (fun p => nth p finite_index 0)) (d_points r); d_parts := d_parts r |}.

    (** sub_clusters.py:350-362 *)
    Definition lens_of (lens : lens_input) (num_points : nat) (finite_index : option (list nat)) (data : list Row) (probabilities : list V)
      : res (list nat -> list W) :=
      match lens with
      | LensCallback f => Ok (f data probabilities)
      | LensValues values =>
          if length values =? num_points then
            let* values := match finite_index with Some index => gather values index | None => Ok values end in
            Ok (fun pts => map (fun p => nth p values no_lens) pts)
          else Err ValueError
      end.

    (** sub_clusters.py:331-455: [tree] is the fitted condensed tree, [data] the raw
        data, [labels] and [probabilities] the fitted or given ones. *)
    Definition detect (propagate_labels : bool) (data : list Row) (tree : list (crow V Sz)) (labels : list Z) (probabilities : list V)
        (neighbors : list (list (option nat))) (mst : list (edge W)) (lens : lens_input) : res detected :=
      if forallb (fun l => (l =? -1)%Z) labels then Err ValueError else
      let num_points := length data in
      let last_outlier := searchsorted (map c_lam tree) zero in
      if last_outlier =? 0 then
        let* lens := lens_of lens num_points None data probabilities in
        detect_rows propagate_labels data labels probabilities neighbors mst lens
      else
        let finite_index := all_but num_points (map c_child (firstn last_outlier tree)) in
        let* data := gather data finite_index in
        let* labels := gather labels finite_index in
        let* probabilities := gather probabilities finite_index in
        let* lens := lens_of lens num_points (Some finite_index) data probabilities in
        let* r := detect_rows propagate_labels data labels probabilities neighbors mst lens in
        remap_results r finite_index num_points.
  End Run.

  (** sub_clusters.py:525-537: propagated_labels(). *)
  Section Propagate.
    Context {N : WOrd} (inv : W -> res N) (nadd : N -> N -> N) (nzero : N) (fuel : nat).
    (** sub_clusters.py:525-537:  *)
    Definition propagated_labels (d : detected) : res (list Z * list Z) :=
      let* r := propagate_sub_cluster_labels inv nadd nzero fuel (fun x => nth x (d_labels d) (-1)%Z) (fun x => nth x (d_sub d) 0%Z)
                  (combine (d_points d) (map sr_graph (d_parts d))) in
      let rows := seq 0 (length (d_labels d)) in
      Ok (map (fst r) rows, map (snd r) rows).

    (** branches.py:112-126: BranchDetector.fit; branch_labels_ is
        sub_cluster_labels_. *)
    Definition branch_fit (label_sides_as_branches : bool) (d : detected) : res detected :=
      let* r := apply_branch_threshold label_sides_as_branches (combine (d_points d) (map sr_tree (d_parts d)))
                  (fun x => nth x (d_sub d) 0%Z) (fun x => nth x (d_cluster_probs d) zero)
                  (fun x => nth x (d_labels d) (-1)%Z) (fun x => nth x (d_probs d) zero) in
      let rows := seq 0 (length (d_labels d)) in
      Ok {| d_labels := map (fst r) rows; d_probs := map (snd r) rows; d_cluster := d_cluster d; d_cluster_probs := d_cluster_probs d;
            d_sub := d_sub d; d_sub_probs := d_sub_probs d; d_lens := d_lens d; d_points := d_points d; d_parts := d_parts d |}.

    (** branches.py:128-142: BranchDetector.propagated_labels(). *)
    Definition branch_propagated_labels (label_sides_as_branches : bool) (d : detected) : res (list Z * list Z) :=
      let* ls := propagated_labels d in
      let* r := apply_branch_threshold label_sides_as_branches (combine (d_points d) (map sr_tree (d_parts d)))
                  (fun x => nth x (snd ls) 0%Z) (fun _ => zero) (fun x => nth x (fst ls) (-1)%Z) (fun _ => zero) in
      Ok (map (fst r) (seq 0 (length (d_labels d))), snd ls).
  End Propagate.
End Detector.
Arguments lens_input W V Row : clear implicits.
Arguments detected W V : clear implicits.
