(** Specification of the detectors on data with rows that are not finite. *)
From Coq Require Import List Arith Bool ZArith.
From Verif Require Import Prelude Order Graph Size M_Linkage M_Condense M_Pipeline M_Estimator M_SubClusters M_LensGraph M_Detector.
Import ListNotations.
Local Open Scope nat_scope.

(** [a0] has the values of [a] at [m] places of [n]. *)
Definition picked {A} (n m : nat) (pos : nat -> nat) (a a0 : list A) : Prop :=
  length a = n /\ length a0 = m /\ forall i, i < m -> nth_error a (pos i) = nth_error a0 i.

(** [a] has the values of [a0] at these places, and [fill] elsewhere. *)
Definition spread {A} (n m : nat) (pos : nat -> nat) (fill : A) (a0 a : list A) : Prop :=
  picked n m pos a a0 /\ forall p, p < n -> (forall i, i < m -> pos i <> p) -> nth_error a p = Some fill.

(** Lens values of all samples, and those of the samples at these places. *)
Definition picked_lens {W V : WOrd} {Row} (n m : nat) (pos : nat -> nat) (l l0 : lens_input W V Row) : Prop :=
  match l, l0 with
  | LensCallback f, LensCallback f0 => f = f0
  | LensValues a, LensValues a0 => picked n m pos a a0
  | _, _ => False
  end.

(** [d] reports [d0] at these places; elsewhere there is noise of strength zero.
    The samples of the clusters are named accordingly. *)
Record spread_results {W V : WOrd} (zero one : V) (no_lens : W) (n m : nat) (pos : nat -> nat) (d0 d : detected W V) : Prop := {
  sp_labels : spread n m pos (-1)%Z (d_labels d0) (d_labels d);
  sp_probs : spread n m pos zero (d_probs d0) (d_probs d);
  sp_cluster : spread n m pos (-1)%Z (d_cluster d0) (d_cluster d);
  sp_cluster_probs : spread n m pos zero (d_cluster_probs d0) (d_cluster_probs d);
  sp_sub : spread n m pos 0%Z (d_sub d0) (d_sub d);
  sp_sub_probs : spread n m pos one (d_sub_probs d0) (d_sub_probs d);
  sp_lens : spread n m pos no_lens (d_lens d0) (d_lens d);
  sp_points : d_points d = map (map pos) (d_points d0);
  sp_parts : d_parts d = d_parts d0
}.

(** The same results with other labels and sub-labels. *)
Definition with_labels {W V : WOrd} (d : detected W V) (ls : list Z * list Z) : detected W V :=
  {| d_labels := fst ls; d_probs := d_probs d; d_cluster := d_cluster d; d_cluster_probs := d_cluster_probs d; d_sub := snd ls;
     d_sub_probs := d_sub_probs d; d_lens := d_lens d; d_points := d_points d; d_parts := d_parts d |}.

(** Detecting on all rows of [X] gives what detecting on the finite ones gives, or
    fails in the same way: [r] is the clustering of all rows and [r0] that of the
    finite ones.  Labels and strengths may be given by the user. *)
Definition detects_same {W V : WOrd} {Sz : SOrd} {Row} (round : W -> W) (sort_row : list (nat * W) -> list (nat * W)) (average : V -> V -> V)
    (zero one : V) (no_lens : W) (cluster_of : list (edge W) -> res (list Z * list V))
    (propagate : joined V W * list (list nat * sub_result W V) -> res ((nat -> Z) * (nat -> Z)))
    (ok : Row -> bool) (X : list Row) (r0 r : fitted W V Sz) (pos : nat -> nat) : Prop :=
  let n := length X in let m := length (filter ok X) in
  let detect := detect (Sz := Sz) round sort_row average zero one no_lens cluster_of propagate in
  forall flag labels labels0 probs probs0 neighbors lens lens0,
  picked n m pos labels labels0 -> picked n m pos probs probs0 -> picked_lens n m pos lens lens0 ->
  match detect flag (filter ok X) (f_condensed r0) labels0 probs0 neighbors (f_mst r0) lens0 with
  | Ok d0 => exists d, detect flag X (f_condensed r) labels probs neighbors (f_mst r) lens = Ok d /\ spread_results zero one no_lens n m pos d0 d
  | Err e => detect flag X (f_condensed r) labels probs neighbors (f_mst r) lens = Err e
  end.
