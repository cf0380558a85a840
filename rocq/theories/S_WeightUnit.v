(** Changing the sizes (total weights) of tree rows. *)
From Coq Require Import List Arith Bool ZArith QArith Qcanon.
From Verif Require Import Prelude Order Graph Size Num M_Linkage M_Condense.
Import ListNotations.
Local Open Scope nat_scope.

Definition resize_lrow {W Sz Sz'} (f : Sz -> Sz') (r : lrow W Sz) : lrow W Sz' := {| l_a := l_a r; l_b := l_b r; l_d := l_d r; l_n := f (l_n r) |}.
Definition resize_crow {V Sz Sz'} (f : Sz -> Sz') (r : crow V Sz) : crow V Sz' :=
  {| c_parent := c_parent r; c_child := c_child r; c_lam := c_lam r; c_size := f (c_size r) |}.

(** The same run with other sizes: labels, strengths and densities as they are. *)
Definition resize_run {V Sz Sz'} (f : Sz -> Sz') (r : list Z * list V * list (crow V Sz)) : list Z * list V * list (crow V Sz') :=
  let '(ls, ps, T) := r in (ls, ps, map (resize_crow f) T).

(** The size of a row in another unit: clusters (of at least [mcs]) are [c] times as
    heavy, the rows of single samples always have size one. *)
Definition in_unit (mcs c s : Qc) : Qc := if Qcleb mcs s then (c * s)%Qc else s.

(** The labels of a run. *)
Definition reported {V Sz} (r : res (list Z * list V * list (crow V Sz))) : option (list Z) := match r with Ok (ls, _, _) => Some ls | Err _ => None end.
