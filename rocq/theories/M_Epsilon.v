(** Model of the epsilon search (cluster_trees.py:835-903).  Numba sets are lists
    without duplicates; the order in which a set is traversed does not matter. *)
From Coq Require Import List Arith Bool QArith Qcanon.
From Verif Require Import Prelude Order Size Num M_Linkage M_Condense M_Select M_Labels.
Import ListNotations.
Local Open Scope nat_scope.

(** cluster_trees.py:835-864. [np.searchsorted] on a sorted array: the first index whose entry is at least
    [x]. *)
Fixpoint searchsorted (l : list nat) (x : nat) : nat :=
  match l with
  | [] => 0
  | y :: l' => if y <? x then S (searchsorted l' x) else 0
  end.

(** cluster_trees.py:835-864: [s.add(x)]. *)
Definition set_add (x : nat) (s : list nat) : list nat := if in_set s x then s else s ++ [x].

(** cluster_trees.py:835-904: [l[i]]; an error beyond the end. *)
Definition array_get {A} (l : list A) (i : nat) : res A :=
  match nth_error l i with Some x => Ok x | None => Err IndexError end.

Section Segments.
  Variables parents children : list nat.

  (** cluster_trees.py:892-898 *)
  Definition branch_step (segment : nat) (child_set : list nat) : res (list nat) :=
    let idx := searchsorted parents segment in
    if length parents <=? idx then Ok child_set
    else
      let* a := array_get children idx in
      let* b := array_get children (idx + 1) in
      Ok (set_add b (set_add a child_set)).

  (** cluster_trees.py:889-901, the loop. *)
  Fixpoint branch_loop (fuel : nat) (to_process result : list nat) : res (list nat) :=
    match to_process with
    | [] => Ok result
    | _ =>
        match fuel with
        | 0 => Err OutOfFuel
        | S f =>
            let result := fold_left (fun s x => set_add x s) to_process result in
            let* child_set := fold_res branch_step to_process [] in
            branch_loop f child_set result
        end
    end.

  (** cluster_trees.py:882-903 *)
  Definition segments_in_branch (segment : nat) : res (list nat) :=
    branch_loop (S (S (length parents))) [segment] [].
End Segments.

Section Epsilon.
  Context {V : Type} {Sz : Type}.
  Implicit Types ct : list (crow V Sz).
  (** [lt_eps lambda]: [(1.0 / lambda if lambda > 0.0 else inf) < min_epsilon]. *)
  Variable lt_eps : V -> bool.

  (** cluster_trees.py:867-879. [x[mask][0]] *)
  Definition row_of_child ct (c : nat) : res (crow V Sz) :=
    match filter (fun r => c_child r =? c) ct with r :: _ => Ok r | [] => Err IndexError end.

  (** cluster_trees.py:867-878 *)
  Fixpoint traverse_upwards ct (root : nat) (fuel segment : nat) : res nat :=
    match fuel with
    | 0 => Err OutOfFuel
    | S f =>
        let* row := row_of_child ct segment in
        let parent := c_parent row in
        if parent =? root then Ok root
        else
          let* prow := row_of_child ct parent in
          if lt_eps (c_lam prow) then traverse_upwards ct root f parent else Ok parent
    end.

  (** cluster_trees.py:846-862, one cluster. *)
  Definition epsilon_step ct (by_parent : list (crow V Sz)) (root cluster : nat)
      (st : list nat * list nat) : res (list nat * list nat) :=
    let '(selected, processed) := st in
    let* row := array_get ct (searchsorted (map c_child ct) cluster) in
    if lt_eps (c_lam row) then
      if in_set processed cluster then Ok st
      else
        let* parent := traverse_upwards ct root (S (length ct)) cluster in
        let* branch := segments_in_branch (map c_parent by_parent) (map c_child by_parent) parent in
        Ok (selected ++ [parent], fold_left (fun s x => set_add x s) branch processed)
    else Ok (selected ++ [cluster], processed).

  (** cluster_trees.py:835-863.  [by_parent] is the tree in the order of
      [np.argsort(cluster_tree.parent)], which need not be stable: the theorems
      hold for every such order. *)
  Definition cluster_epsilon_search (clusters : list nat) ct (by_parent : list (crow V Sz)) : res (list nat) :=
    let* root := array_min (map c_parent ct) in
    let* (selected, _) := fold_res (epsilon_step ct by_parent root) clusters ([], []) in
    Ok selected.
End Epsilon.

(** cluster_trees.py:835-879. Exact instance: 1/inf is 0, and 1/0 counts as infinite. *)
Definition exact_lt_eps (eps : Qc) (lambda : QInf) : bool :=
  match lambda with
  | None => negb (Qcleb eps 0)
  | Some l => if Qcleb l 0 then false else negb (Qcleb eps (/ l)%Qc)
  end.
