(** Model of the final labelling: fast_hdbscan/cluster_trees.py:944-1031. *)
From Coq Require Import List Arith Bool ZArith QArith Qcanon.
From Verif Require Import Prelude Order Graph Size Num M_DisjointSet M_Kruskal M_Linkage M_Condense M_Select.
Import ListNotations.
Local Open Scope nat_scope.

(** cluster_trees.py:945-1031. The arithmetic of lambdas and strengths.  [la_inv] is [1 / x]. *)
Record LamArith (V : WOrd) := {
  la_zero : V;
  la_one : V;
  la_div : V -> V -> V;
  la_finite : V -> bool
}.
Arguments la_zero {V} _.
Arguments la_one {V} _.
Arguments la_div {V} _ _ _.
Arguments la_finite {V} _ _.

(** cluster_trees.py:945-1031. Exact lambdas: rationals with infinity; finite / inf is 0. *)
Definition ExactLam : LamArith QInf :=
  {| la_zero := Some 0%Qc : QInf; la_one := Some 1%Qc : QInf;
     la_div := fun a b : option Qc =>
                 match a, b with
                 | Some x, Some y => Some (x / y)%Qc
                 | Some _, None => Some 0%Qc
                 | None, _ => None
                 end;
     la_finite := fun a : option Qc => match a with Some _ => true | None => false end |}.

Section Labels.
  Context {V : WOrd} {Sz : SOrd} (LA : LamArith V).
  Implicit Types T : list (crow V Sz).

  (** cluster_trees.py:945-997. [x == y] on values. *)
  Definition veq (x y : V) : bool := wle x y && wle y x.
  (** cluster_trees.py:1000-1031. [max(x, y)] keeps [x] unless [y > x]; [min(x, y)] keeps [x] unless [y < x]. *)
  Definition vmax (x y : V) : V := if wlt x y then y else x.
  (** cluster_trees.py:1012-1031: [min(x, y)]. *)
  Definition vmin (x y : V) : V := if wlt y x then y else x.

  (** cluster_trees.py:945-997: [c in clusters]. *)
  Definition in_set (clusters : list nat) (c : nat) : bool := existsb (Nat.eqb c) clusters.

  (** [{c: n for n, c in enumerate(np.sort(clusters))}], cluster_trees.py:955 *)
  Definition cluster_label_map (clusters : list nat) : list (nat * nat) :=
    fold_left (fun d ic => dict_set d (snd ic) (fst ic))
      (combine (seq 0 (length clusters)) (nsort (fun c => c) clusters)) [].

  (** cluster_trees.py:960-973 *)
  Definition label_union (clusters : list nat) (n_samples : nat) (r : crow V Sz) (d : disjoint_set)
    : res disjoint_set :=
    if in_set clusters (c_child r) then Ok d
    else if (c_child r <? n_samples) && veq (c_lam r) (la_zero LA) then Ok d
    else ds_union_by_rank d (c_parent r) (c_child r).

  (** cluster_trees.py:945-997. [tree.lambda_val[tree.parent == cluster].max()]; an error if empty. *)
  Definition max_leaving_lambda T (cluster : nat) : res V :=
    match map c_lam (filter (fun r => c_parent r =? cluster) T) with
    | [] => Err ValueError
    | x :: l => Ok (fold_left vmax l x)
    end.

  (** cluster_trees.py:945-997. [tree.lambda_val[tree.child == n]].  The code compares this array with a
      number and uses the result as a condition, which needs exactly one entry. *)
  Definition lambda_of T (x : nat) : res V :=
    match filter (fun r => c_child r =? x) T with
    | [r] => Ok (c_lam r)
    | _ => Err ValueError
    end.

  (** cluster_trees.py:976-994.  [eps_lambda] is [Some (1 / epsilon)] when
      cluster_selection_epsilon > 0 and [None] otherwise. *)
  Definition label_of T (clusters : list nat) (eps_lambda : option V) (root x cluster : nat) : res Z :=
    if cluster <? root then Ok (-1)%Z
    else if cluster =? root then
      if length (nodup Nat.eq_dec clusters) =? 1 then
        let* max_lambda := max_leaving_lambda T cluster in
        let* cur_lambda := lambda_of T x in
        match eps_lambda with
        | Some e =>
            if wle e cur_lambda
            then (let* k := dict_get (cluster_label_map clusters) cluster in Ok (Z.of_nat k))
            else Ok (-1)%Z
        | None =>
            if wle max_lambda cur_lambda
            then (let* k := dict_get (cluster_label_map clusters) cluster in Ok (Z.of_nat k))
            else Ok (-1)%Z
        end
      else Ok (-1)%Z
    else let* k := dict_get (cluster_label_map clusters) cluster in Ok (Z.of_nat k).

  (** cluster_trees.py:945-996 *)
  Definition get_cluster_label_vector T (clusters : list nat) (eps_lambda : option V) (n_samples : nat)
    : res (list Z) :=
    match T, clusters with
    | [], _ | _, [] => Ok (repeat (-1)%Z n_samples)
    | _, _ =>
        let* root_cluster := array_min (map c_parent T) in
        let* mp := array_max (map c_parent T) in
        let* mc := array_max (map c_child T) in
        let* d := fold_res (label_union clusters n_samples) T (ds_rank_create (Nat.max (mp + 1) (mc + 1))) in
        if n_samples <? root_cluster then Err IndexError
        else
          let* reps := cut_roots d (seq 0 root_cluster) in
          let* labels := map_res (fun xc => label_of T clusters eps_lambda root_cluster (fst xc) (snd xc))
                                 (combine (seq 0 root_cluster) reps) in
          Ok (labels ++ repeat (-1)%Z (n_samples - root_cluster))
    end.

  (** cluster_trees.py:1000-1008.  [child_size == 1]. *)
  Definition max_lambda_step (clusters : list nat) (r : crow V Sz) (result : list (nat * V)) : res (list (nat * V)) :=
    if in_set clusters (c_parent r) && (sle (c_size r) sone && sle sone (c_size r)) then
      let* old := dict_get result (c_parent r) in
      Ok (dict_set result (c_parent r) (vmax old (c_lam r)))
    else Ok result.
  (** cluster_trees.py:999-1008 *)
  Definition max_lambdas T (clusters : list nat) : res (list (nat * V)) :=
    fold_res (max_lambda_step clusters) T (map (fun c => (c, la_zero LA)) (nodup Nat.eq_dec clusters)).

  (** cluster_trees.py:1019-1029, one row.  [labels[point]] of a point beyond the
      vector is an error. *)
  Definition strength_step (clusters : list nat) (labels : list Z) (deaths : list (nat * V)) (root : nat)
      (r : crow V Sz) (result : nat -> V) : res (nat -> V) :=
    if root <=? c_child r then Ok result
    else
      match nth_error labels (c_child r) with
      | None => Err IndexError
      | Some l =>
          if (l <? 0)%Z then Ok result
          else
            match nth_error (nsort (fun c => c) clusters) (Z.to_nat l) with
            | None => Err KeyError
            | Some cluster =>
                let* max_lambda := dict_get deaths cluster in
                Ok (upd result (c_child r)
                      (if veq max_lambda (la_zero LA) || negb (la_finite LA (c_lam r)) then la_one LA
                       else la_div LA (vmin (c_lam r) max_lambda) max_lambda))
            end
      end.

  (** cluster_trees.py:1012-1031 *)
  Definition get_point_membership_strength_vector T (clusters : list nat) (labels : list Z) : res (list V) :=
    let* deaths := max_lambdas T clusters in
    let* root_cluster := array_min (map c_parent T) in
    let* result := fold_res (strength_step clusters labels deaths root_cluster) T (fun _ => la_zero LA) in
    Ok (map result (seq 0 (length labels))).
End Labels.
