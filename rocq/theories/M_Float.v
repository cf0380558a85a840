(** IEEE 754 numbers (Flocq), rounding to nearest even, without NaN: an operation
    that would give NaN gives infinity here.  [prec] = 24 and [emax] = 128 is
    numpy's float32, 53 and 1024 is float64. *)
From Coq Require Import List Arith Bool ZArith.
From Flocq Require Import Core.Core IEEE754.BinarySingleNaN.
From Verif Require Import Prelude Order Size M_Select.
Local Open Scope Z_scope.

Section Float.
  Variables (prec emax : Z).
  Context (prec_pos : Prec_gt_0 prec) (prec_lt : Prec_lt_emax prec emax).
  Notation raw := (binary_float prec emax).

  (** numba_kdtree.py:527-546 (float32), boruvka.py:61-72 (float64): float32 and float64 numbers that are not NaN (the code runs on numpy arrays of these). *)
  Definition number := {x : raw | is_nan x = false}.
  (** boruvka.py:301, 304: [np.inf]. *)
  Definition f_inf : number := exist _ (B754_infinity false) eq_refl.
  (** numba_kdtree.py:99: [-np.inf]. *)
  Definition f_neginf : number := exist _ (B754_infinity true) eq_refl.
  (** boruvka.py:18: [0.0]. *)
  Definition f_zero : number := exist _ (B754_zero false) eq_refl.
  (** numba_kdtree.py:543-544, boruvka.py:646: Simplification: infinity where IEEE 754 gives NaN. *)
  Definition without_nan (z : raw) : number :=
    match is_nan z as b return is_nan z = b -> number with
    | true => fun _ => f_inf
    | false => fun E => exist _ z E
    end eq_refl.

  (** cluster_trees.py:194: [x <= y]. *)
  Definition f_le (x y : number) : bool := Bleb (proj1_sig x) (proj1_sig y).
  (** numba_kdtree.py:544: [x + y]. *)
  Definition f_add (x y : number) : number := without_nan (Bplus mode_NE (proj1_sig x) (proj1_sig y)).
  (** numba_kdtree.py:543: [x - y]. *)
  Definition f_sub (x y : number) : number := without_nan (Bminus mode_NE (proj1_sig x) (proj1_sig y)).
  (** numba_kdtree.py:544: [x * y]. *)
  Definition f_mul (x y : number) : number := without_nan (Bmult mode_NE (proj1_sig x) (proj1_sig y)).
  (** cluster_trees.py:195, 1029: [x / y]. *)
  Definition f_div (x y : number) : number := without_nan (Bdiv mode_NE (proj1_sig x) (proj1_sig y)).
  (** boruvka.py:646-647: [np.sqrt(x)]. *)
  Definition f_sqrt (x : number) : number := without_nan (Bsqrt mode_NE (proj1_sig x)).
  (** cluster_trees.py:195: [1.0]. *)
  Definition f_one : number := without_nan Bone.
  (** cluster_trees.py:1025, hdbscan.py:747: [np.isfinite(x)]. *)
  Definition f_finite (x : number) : bool := is_finite (proj1_sig x).

  (** numba_kdtree.py:774-792. [np.sqrt], which is never called for negative numbers. *)
  Definition f_root (x : number) : number := if f_le f_zero x then f_sqrt x else f_zero.

  (** cluster_trees.py:657-670. An integer as a number; integers beyond the largest finite number do not
      occur and are read as one. *)
  Definition of_nat (k : nat) : number :=
    let z := binary_normalize prec emax prec_pos prec_lt mode_NE (Z.of_nat k) 0 false in
    if is_finite z then without_nan z else f_one.

  (** numba_kdtree.py:539-546 as the machine computes it. *)
  Definition raw_rdist (n_features : nat) (x y : nat -> raw) : raw :=
    fold_left (fun result i => let diff := Bminus mode_NE (x i) (y i) in Bplus mode_NE result (Bmult mode_NE diff diff))
      (seq 0 n_features) (B754_zero false).
End Float.

(** cluster_trees.py:206-353. Conversion between precisions. *)
Definition convert {p e : Z} (p' e' : Z) (pos : Prec_gt_0 p') (lt : Prec_lt_emax p' e') (x : binary_float p e) : binary_float p' e' :=
  match x with
  | B754_zero s => B754_zero s
  | B754_infinity s => B754_infinity s
  | B754_nan => B754_nan
  | B754_finite s m ex _ => binary_normalize p' e' pos lt mode_NE (cond_Zopp s (Zpos m)) ex s
  end.

(** ** float32 and float64 *)
Global Instance pos24 : Prec_gt_0 24 := eq_refl.
Global Instance lt24 : Prec_lt_emax 24 128 := eq_refl.
Global Instance pos53 : Prec_gt_0 53 := eq_refl.
Global Instance lt53 : Prec_lt_emax 53 1024 := eq_refl.
(** boruvka.py:307, cluster_trees.py:224: float32. *)
Definition single := number 24 128.
(** boruvka.py:61: float64. *)
Definition double := number 53 1024.

(** boruvka.py:72: A float32 read as float64. *)
Definition widened (x : single) : double := without_nan 53 1024 (convert 53 1024 pos53 lt53 (proj1_sig x)).
(** cluster_trees.py:206-353. A float64 stored in a float32 array. *)
Definition stored_single (x : double) : double :=
  without_nan 53 1024 (convert 53 1024 pos53 lt53 (convert 24 128 pos24 lt24 (proj1_sig x))).

(** cluster_trees.py:194: [0.0]. *)
Definition dzero : double := f_zero 53 1024.
(** cluster_trees.py:195: [1.0]. *)
Definition done : double := f_one 53 1024 pos53 lt53.
(** cluster_trees.py:194: [x <= y]. *)
Definition dle : double -> double -> bool := f_le 53 1024.
(** cluster_trees.py:195: [x / y]. *)
Definition ddiv : double -> double -> double := f_div 53 1024 pos53 lt53.
(** cluster_trees.py:197: [np.inf]. *)
Definition dinf : double := f_inf 53 1024.

(** cluster_trees.py:193-198; stored in a float32 array (224). *)
Definition float_lambda (d : double) : double := if dle d dzero then dinf else stored_single (ddiv done d).

(** cluster_trees.py:1028-1029: the maximum is a float64 (1001), so the quotient is
    one, too; it is stored in a float32 array (1012). *)
Definition float_strength (a b : double) : double := stored_single (ddiv a b).

(** cluster_trees.py:853-856, 873-875: [1 / lam < epsilon]. *)
Definition float_lt_eps (eps lam : double) : bool := if dle lam dzero then false else negb (dle eps (ddiv done lam)).

(** cluster_trees.py:798: [birth - death >= threshold] of float32 numbers. *)
Definition float_persists (threshold birth death : double) : bool :=
  let single_of x := convert 24 128 pos24 lt24 (proj1_sig x) in
  Bleb (proj1_sig threshold) (convert 53 1024 pos53 lt53 (Bminus mode_NE (single_of birth) (single_of death))).

(** cluster_trees.py:655-671 in float32.  NaN is possible here. *)
Definition float_scores : Arith double nat :=
  {| num := binary_float 24 128; num_zero := B754_zero false; num_add := Bplus mode_NE; num_opp := Bopp;
     num_mul := fun l s => Bmult mode_NE (convert 24 128 pos24 lt24 (proj1_sig l)) (proj1_sig (of_nat 24 128 pos24 lt24 s));
     num_lt := Bltb |}.
