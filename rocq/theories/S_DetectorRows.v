(** Specification of everything a detector reports about complete rows. *)
From Coq Require Import List Arith Bool ZArith.
From Verif Require Import Prelude Order Graph M_CoreGraph M_Precomputed M_SubClusters M_LensGraph M_Detector S_LayerTree S_CoreGraph S_SubClusters.
Import ListNotations.
Local Open Scope nat_scope.

(** [d] reports, for the clusters [labels] with strengths [strengths] and the lens
    values [lens k] of cluster [k]: the given clusters and strengths; the samples of
    each cluster in ascending order; labels that split the clusters by sub-label;
    sub-labels and sub-strengths that are the components of the lens graph of the
    cluster, or the clusters of a spanning tree of it, numbered without gaps; the lens values; the average
    of the two strengths.  Noise has no sub-strength, no lens value and keeps its
    strength. *)
Record reports {W V : WOrd} (round : W -> W) (average : V -> V -> V) (zero one : V) (no_lens : W) (cluster_of : list (edge W) -> res (list Z * list V))
    (labels : list Z) (strengths : list V) (neighbors : list (list (option nat))) (mst : list (edge W)) (lens : nat -> list W) (K : nat) (d : detected W V) : Prop := {
  rp_clusters : d_cluster d = labels;
  rp_strengths : d_cluster_probs d = strengths;
  rp_lengths : length (d_labels d) = length labels /\ length (d_probs d) = length labels /\ length (d_sub d) = length labels /\
    length (d_sub_probs d) = length labels /\ length (d_lens d) = length labels;
  rp_points : length (d_points d) = K /\ length (d_parts d) = K /\ forall k pts, nth_error (d_points d) k = Some pts -> cluster_points labels k pts;
  rp_labels : splits labels (fun x y => nth x (d_sub d) 0%Z = nth y (d_sub d) 0%Z) (fun x => nth x (d_labels d) (-1)%Z);
  rp_inside : forall k pts part, nth_error (d_points d) k = Some pts -> nth_error (d_parts d) k = Some part ->
    lens_edges round neighbors mst pts (lens k) (csr_entries (sr_graph part)) /\
    explained one cluster_of (length pts) (csr_entries (sr_graph part)) (map (fun x => nth x (d_sub d) 0%Z) pts)
      (map (fun x => nth x (d_sub_probs d) zero) pts) (sr_tree part);
  rp_gaps : forall k pts, nth_error (d_points d) k = Some pts -> gap_free (map (fun x => nth x (d_sub d) 0%Z) pts);
  rp_lens : forall k pts, nth_error (d_points d) k = Some pts -> map (fun x => nth x (d_lens d) no_lens) pts = lens k;
  rp_probs : forall x, x < length labels -> nth x labels (-1)%Z <> (-1)%Z -> nth x (d_probs d) zero = average (nth x strengths zero) (nth x (d_sub_probs d) zero);
  rp_noise : forall x, x < length labels -> nth x labels (-1)%Z = (-1)%Z ->
    nth x (d_sub d) 1%Z = 0%Z /\ nth x (d_sub_probs d) one = zero /\ nth x (d_probs d) zero = nth x strengths zero /\ nth_error (d_lens d) x = Some no_lens
}.

(** Sample [x] is in a cluster that has a hierarchy and at most [count] branches. *)
Definition stays_whole {W V : WOrd} (count : nat) (d : detected W V) (x : nat) : Prop :=
  exists k pts part, nth_error (d_points d) k = Some pts /\ nth_error (d_parts d) k = Some part /\ In x pts /\
    sr_tree part = true /\ few_labels count (fun y => nth y (d_sub d) 0%Z) pts.

(** [b] reports the branches found in [d]: clusters with few branches are not
    split and their samples have the cluster's strength. *)
Record reports_branches {W V : WOrd} (zero : V) (sides : bool) (labels : list Z) (d b : detected W V) : Prop := {
  rb_labels : length (d_labels b) = length labels /\
    splits labels (fun x y => stays_whole (if sides then 1 else 2) d x \/ nth x (d_sub d) 0%Z = nth y (d_sub d) 0%Z) (fun x => nth x (d_labels b) (-1)%Z);
  rb_whole : forall x, x < length labels -> stays_whole (if sides then 1 else 2) d x -> nth x (d_probs b) zero = nth x (d_cluster_probs d) zero;
  rb_split : forall x, x < length labels -> ~ stays_whole (if sides then 1 else 2) d x -> nth x (d_probs b) zero = nth x (d_probs d) zero;
  rb_rest : d_cluster b = d_cluster d /\ d_cluster_probs b = d_cluster_probs d /\ d_sub b = d_sub d /\ d_sub_probs b = d_sub_probs d /\
    d_lens b = d_lens d /\ d_points b = d_points d /\ d_parts b = d_parts d
}.
