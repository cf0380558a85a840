(** Changing the distances or densities of edges and tree rows. *)
From Coq Require Import List Arith Bool ZArith QArith Qcanon.
From Verif Require Import Prelude Order Graph Size Num M_Linkage M_Condense.
Import ListNotations.
Local Open Scope nat_scope.

Definition map_edge {W W'} (f : W -> W') (e : edge W) : edge W' := (esrc e, edst e, f (ewt e)).
Definition map_lrow {W W' Sz} (f : W -> W') (r : lrow W Sz) : lrow W' Sz := {| l_a := l_a r; l_b := l_b r; l_d := f (l_d r); l_n := l_n r |}.
Definition map_crow {V V' Sz} (g : V -> V') (r : crow V Sz) : crow V' Sz :=
  {| c_parent := c_parent r; c_child := c_child r; c_lam := g (c_lam r); c_size := c_size r |}.

(** The same outcome with the value changed. *)
Definition map_ok {A B} (f : A -> B) (r : res A) : res B := match r with Ok a => Ok (f a) | Err e => Err e end.

(** The same run in other units: labels and strengths as they are, densities changed. *)
Definition map_run {V V' Sz} (g : V -> V') (k : V -> V') (r : list Z * list V * list (crow V Sz)) : list Z * list V' * list (crow V' Sz) :=
  let '(ls, ps, T) := r in (ls, map k ps, map (map_crow g) T).

(** A distance or density in other units. *)
Definition scale (c : Qc) (x : QInf) : QInf := option_map (Qcmult c) x.
