(** Machine numbers: counterexamples. *)
From Coq Require Import List Arith Bool ZArith.
From Flocq Require Import Core.Core IEEE754.BinarySingleNaN.
From Verif Require Import Prelude Order Size Coord Graph M_Kruskal M_TreeQuery M_Boruvka M_KDTree M_Linkage M_Condense M_Select M_Labels
  S_Boruvka M_Pipeline M_Float P_FloatOrd P_FloatLaws M_FloatRun P_FloatRun.
Import ListNotations.

Definition far_apart : list (list (Z * Z)) := [[(0, 0)]; [(1, 70)]; [(1, 71)]]%Z.
Lemma overflow_fails :
  ~ (forall (data : nat -> nat -> Single) n_features n leaf_size mode min_samples,
     (forall i j, f_finite 24 128 (data i j) = true) -> 0 < leaf_size -> 2 <= n -> min_samples < n -> threads_available mode ->
     exists r, float_boruvka data n_features n leaf_size mode min_samples = Ok r).
Proof.
  intro H. destruct (H (float_matrix far_apart) 1 3 2 (one_schedule 3) 2) as [r E]; auto; try exact I.
  - apply float_matrix_finite. intros x [<-|[<-|[<-|[]]]] me [<-|[]]; vm_compute; reflexivity.
  - assert (K : match float_boruvka (float_matrix far_apart) 1 3 2 (one_schedule 3) 2 with Ok _ => true | Err _ => false end = false) by (vm_compute; reflexivity).
    rewrite E in K. discriminate.
Qed.

Definition very_close : list (list (Z * Z)) := [[(0, 0)]; [(1, -80)]]%Z.
Lemma underflow_happens :
  ~ (forall (data : nat -> nat -> Single) i j,
     (forall i j, f_finite 24 128 (data i j) = true) ->
     wlt (data i 0) (data j 0) = true -> wlt (f_zero 24 128 : Single) (sample_rdist (C := SingleCoord) data 1 i j : Single) = true).
Proof.
  intro H. assert (K : wlt (f_zero 24 128 : Single) (sample_rdist (C := SingleCoord) (float_matrix very_close) 1 0 1 : Single) = true).
  { apply H; [|vm_compute; reflexivity]. apply float_matrix_finite. intros x [<-|[<-|[]]] me [<-|[]]; vm_compute; reflexivity. }
  revert K. vm_compute. discriminate.
Qed.

Definition in_line : list (list (Z * Z)) := [[(0, 0); (0, 0)]; [(1, 0); (2, 0)]; [(-1, 0); (-2, 0)]]%Z.
Lemma core_above_link :
  ~ (forall (data : nat -> nat -> Single) n_features n leaf_size mode min_samples T nbrs core,
     (forall i j, f_finite 24 128 (data i j) = true) -> threads_available mode ->
     float_boruvka data n_features n leaf_size mode min_samples = Ok (T, nbrs, core) ->
     forall e, In e T -> wle (widened (nth (esrc e) core (f_zero 24 128 : Single)) : Double) (ewt e) = true).
Proof.
  intro H. pose (r := float_boruvka (float_matrix in_line) 2 3 2 (one_schedule 3) 2).
  assert (K : match r with
              | Ok (T, _, core) => forallb (fun e => wle (widened (nth (esrc e) core (f_zero 24 128 : Single)) : Double) (ewt e)) T
              | Err _ => true end = false) by (vm_compute; reflexivity).
  destruct r as [[[T nbrs] core]|] eqn:E; [|discriminate]. apply Bool.diff_true_false. rewrite <- K. symmetry. apply forallb_forall. intros e He.
  apply (H (float_matrix in_line) 2 3 2 (one_schedule 3) 2 T nbrs core); auto; [|exact I].
  apply float_matrix_finite. intros x [<-|[<-|[<-|[]]]] me [<-|[<-|[]]]; vm_compute; reflexivity.
Qed.
