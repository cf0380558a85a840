(** Model of the condensed tree: fast_hdbscan/cluster_trees.py:131-352. *)
From Coq Require Import List Arith Bool ZArith.
From Verif Require Import Prelude Order Size M_Linkage.
Import ListNotations.

(** cluster_trees.py:180-182, one entry of the four parallel arrays of [CondensedTree]. *)
Record crow (V Sz : Type) := { c_parent : nat; c_child : nat; c_lam : V; c_size : Sz }.
Arguments c_parent {V Sz} _.
Arguments c_child {V Sz} _.
Arguments c_lam {V Sz} _.
Arguments c_size {V Sz} _.

(** cluster_trees.py:138-143: the children of the internal nodes of one level. *)
Fixpoint bfs_children {W Sz} (num_points : nat) (hierarchy : list (lrow W Sz)) (to_process : list nat)
  : res (list nat) :=
  match to_process with
  | [] => Ok []
  | n :: rest =>
      let* next := bfs_children num_points hierarchy rest in
      if num_points <=? n then
        match nth_error hierarchy (n - num_points) with
        | Some r => Ok (l_a r :: l_b r :: next)
        | None => Err IndexError
        end
      else Ok next
  end.

(** cluster_trees.py:136-144 *)
Fixpoint bfs_loop {W Sz} (fuel num_points : nat) (hierarchy : list (lrow W Sz)) (to_process : list nat)
  : res (list nat) :=
  match to_process with
  | [] => Ok []
  | _ =>
      match fuel with
      | 0 => Err OutOfFuel
      | S f =>
          let* next := bfs_children num_points hierarchy to_process in
          let* rest := bfs_loop f num_points hierarchy next in
          Ok (to_process ++ rest)
      end
  end.

(** cluster_trees.py:132-146 *)
Definition bfs_from_hierarchy {W Sz} (hierarchy : list (lrow W Sz)) (bfs_root num_points : nat)
  : res (list nat) :=
  bfs_loop (bfs_root + 1) num_points hierarchy [bfs_root].

(** cluster_trees.py:206-353. The loop variables of [condense_tree]: arrays [relabel] and [ignore], the
    rows written so far ([parents], [children], [lambdas], [sizes] up to [idx])
    and [next_label]. *)
Record cstate (V Sz : Type) := {
  k_relabel : nat -> nat;
  k_ignore : nat -> bool;
  k_rows : list (crow V Sz);
  k_next : nat
}.
Arguments k_relabel {V Sz} _.
Arguments k_ignore {V Sz} _.
Arguments k_rows {V Sz} _.
Arguments k_next {V Sz} _.

Section Condense.
  Context {W : WOrd} {V : Type} {Sz : SOrd}.
  Variable hierarchy : list (lrow W Sz).
  Variable lam : W -> V.               (* lambda_method *)
  Variable min_cluster_size : Sz.
  Variable max_cluster_size : option Sz. (* None is np.inf *)
  Variable sample_weights : nat -> Sz.

  Let root := 2 * length hierarchy.
  Let num_points := length hierarchy + 1.

  (** cluster_trees.py:206-353. Writing row [idx] and [idx += 1]; the arrays have [root] cells. *)
  Definition emit (st : cstate V Sz) (r : crow V Sz) : res (cstate V Sz) :=
    if root <=? length (k_rows st) then Err IndexError
    else Ok {| k_relabel := k_relabel st; k_ignore := k_ignore st;
               k_rows := k_rows st ++ [r]; k_next := k_next st |}.

  (** cluster_trees.py:206-353: [relabel[v] = l]. *)
  Definition set_relabel (st : cstate V Sz) (v l : nat) : cstate V Sz :=
    {| k_relabel := upd (k_relabel st) v l; k_ignore := k_ignore st;
       k_rows := k_rows st; k_next := k_next st |}.

  (** cluster_trees.py:206-353: [ignore[v] = True]. *)
  Definition set_ignore (st : cstate V Sz) (v : nat) : cstate V Sz :=
    {| k_relabel := k_relabel st; k_ignore := upd (k_ignore st) v true;
       k_rows := k_rows st; k_next := k_next st |}.

  (** cluster_trees.py:206-353: [next_label += 1]. *)
  Definition incr_next (st : cstate V Sz) : cstate V Sz :=
    {| k_relabel := k_relabel st; k_ignore := k_ignore st;
       k_rows := k_rows st; k_next := k_next st + 1 |}.

  (** cluster_trees.py:149-182: The row of a single sample, of size 1. *)
  Definition point_row (parent child : nat) (l : V) : crow V Sz :=
    {| c_parent := parent; c_child := child; c_lam := l; c_size := sone |}.

  (** cluster_trees.py:168-175 *)
  Fixpoint eliminate_loop (nodes : list nat) (parent : nat) (l : V) (st : cstate V Sz)
    : res (cstate V Sz) :=
    match nodes with
    | [] => Ok st
    | v :: nodes' =>
        let* st := if v <? num_points then emit st (point_row parent v l)
                   else Ok (set_ignore st v) in
        eliminate_loop nodes' parent l st
    end.

  (** cluster_trees.py:149-177 *)
  Definition eliminate_branch (branch parent : nat) (l : V) (st : cstate V Sz) : res (cstate V Sz) :=
    if branch <? num_points then emit st (point_row parent branch l)
    else
      let* nodes := bfs_from_hierarchy hierarchy branch num_points in
      eliminate_loop nodes parent l st.

  (** cluster_trees.py:255-264 *)
  Definition node_count (v : nat) : res Sz :=
    if num_points <=? v then
      match nth_error hierarchy (v - num_points) with
      | Some r => Ok (l_n r)
      | None => Err IndexError
      end
    else Ok (sample_weights v).

  (** cluster_trees.py:206-353: [size > max_cluster_size]; without a maximum never. *)
  Definition above_max (s : Sz) : bool :=
    match max_cluster_size with None => false | Some m => slt m s end.

  (** cluster_trees.py:334-350: a new cluster label for [v]. *)
  Definition new_cluster (v parent : nat) (l : V) (count : Sz) (st : cstate V Sz) : res (cstate V Sz) :=
    let st := set_relabel st v (k_next st) in
    let* st := emit st {| c_parent := parent; c_child := k_next st; c_lam := l; c_size := count |} in
    Ok (incr_next st).

  (** cluster_trees.py:241-350, one iteration. *)
  Definition condense_node (node : nat) (st : cstate V Sz) : res (cstate V Sz) :=
    if k_ignore st node || (node <? num_points) then Ok st
    else
      let parent := k_relabel st node in
      match nth_error hierarchy (node - num_points) with
      | None => Err IndexError
      | Some r =>
          let a := l_a r in
          let b := l_b r in
          let l := lam (l_d r) in
          let* ca := node_count a in
          let* cb := node_count b in
          if (a <? num_points) && sle min_cluster_size cb then
            let st := set_relabel st b parent in
            emit st (point_row parent a l)
          else if slt ca min_cluster_size && sle min_cluster_size cb then
            let st := set_relabel st b parent in
            eliminate_branch a parent l st
          else if sle min_cluster_size ca && slt cb min_cluster_size then
            let st := set_relabel st a parent in
            eliminate_branch b parent l st
          else if slt ca min_cluster_size && slt cb min_cluster_size then
            let* st := eliminate_branch a parent l st in
            eliminate_branch b parent l st
          else if above_max ca && above_max cb then
            Ok (set_relabel (set_relabel st a parent) b parent)
          else
            let* st := new_cluster a parent l ca st in
            new_cluster b parent l cb st
      end.

  (** cluster_trees.py:206-353: The loop over the nodes of the hierarchy. *)
  Fixpoint condense_loop (nodes : list nat) (st : cstate V Sz) : res (cstate V Sz) :=
    match nodes with
    | [] => Ok st
    | v :: nodes' => let* st := condense_node v st in condense_loop nodes' st
    end.

  (** cluster_trees.py:206-352 *)
  Definition condense_tree : res (list (crow V Sz)) :=
    let* node_list := bfs_from_hierarchy hierarchy root num_points in
    let* st := condense_loop node_list
                 {| k_relabel := upd (fun _ => 0) root num_points;
                    k_ignore := fun _ => false;
                    k_rows := [];
                    k_next := num_points + 1 |} in
    Ok (k_rows st).
End Condense.
