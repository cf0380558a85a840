(** Model of fast_hdbscan/boruvka.py: Boruvka rounds over a space tree whose
    parallel queries share one bound per component. *)
From Coq Require Import List Arith Bool.
From Verif Require Import Prelude Order Graph M_DisjointSet M_Linkage M_Select M_CoreGraph M_TreeQuery.
Import ListNotations.

(** ** Threads *)

(** boruvka.py:154-330. A thread reads and writes one shared cell,
    [component_nearest_neighbor_dist[component]]; everything else it touches is
    its own.  A thread is the tree of its possible futures. *)
Inductive prog (W A : Type) :=
| Ret (a : A)
| Fail (e : err)
| Read (k : W -> prog W A)
| Write (w : W) (p : prog W A).
Arguments Ret {W A} _.
Arguments Fail {W A} _.
Arguments Read {W A} _.
Arguments Write {W A} _ _.

(** boruvka.py:154-330: Sequencing of two parts of a thread. *)
Fixpoint bindp {W A B} (p : prog W A) (f : A -> prog W B) : prog W B :=
  match p with
  | Ret a => f a
  | Fail e => Fail e
  | Read k => Read (fun w => bindp (k w) f)
  | Write w p => Write w (bindp p f)
  end.

(** boruvka.py:300-330. One step of thread [i], whose cell is [cell i]. *)
Definition step {W A} (cell : nat -> nat) (s : (nat -> W) * (nat -> prog W A)) (i : nat)
  : (nat -> W) * (nat -> prog W A) :=
  let (mem, threads) := s in
  match threads i with
  | Read k => (mem, upd threads i (k (mem (cell i))))
  | Write w p => (upd mem (cell i) w, upd threads i p)
  | _ => s
  end.

(** boruvka.py:300-330. A thread running alone until it stops. *)
Fixpoint run_alone {W A} (p : prog W A) (v : W) : prog W A * W :=
  match p with
  | Read k => run_alone (k v) v
  | Write w p => run_alone p w
  | _ => (p, v)
  end.
(** boruvka.py:300-330: The threads that are unfinished after the schedule. *)
Definition finish {W A} (cell : nat -> nat) (s : (nat -> W) * (nat -> prog W A)) (i : nat)
  : (nat -> W) * (nat -> prog W A) :=
  let (mem, threads) := s in
  let (p, v) := run_alone (threads i) (mem (cell i)) in
  (upd mem (cell i) v, upd threads i p).

(** boruvka.py:300-330: What a finished thread returns. *)
Definition outcome {W A} (p : prog W A) : res A :=
  match p with Ret a => Ok a | Fail e => Err e | _ => Err OutOfFuel end.

(** boruvka.py:300-330. A parallel loop over [ids]: the threads named by [schedule] take one step
    each, in that order; threads that are then unfinished run to their end one
    after the other.  Every complete interleaving arises in this way, and every
    schedule gives a complete execution. *)
Definition parallel {W A} (cell : nat -> nat) (schedule ids : list nat) (mem : nat -> W)
    (threads : nat -> prog W A) : res ((nat -> W) * list A) :=
  let allowed := filter (fun i => existsb (Nat.eqb i) ids) schedule in
  let (mem, threads) := fold_left (finish cell) ids (fold_left (step cell) allowed (mem, threads)) in
  let* results := map_res (fun i => outcome (threads i)) ids in
  Ok (mem, results).

Section Boruvka.
  Context {W : WOrd}.
  Variable t : space_tree.
  (** Number of samples, squared distances between samples, and lower bounds of
      the distance between a sample and the box of a node. *)
  Variable n : nat.
  Variable rd : nat -> nat -> W.
  Variable lb : nat -> nat -> W.

  (** ** Components *)

  (** boruvka.py:98-124, one node of [update_component_vectors]; [-1] is [None].
      The [for ... else] sets the component when no sample differs. *)
  Definition update_node (point_components : nat -> nat) (node_components : nat -> option nat) (i : nat)
    : nat -> option nat :=
    if t_leaf t i then
      let candidate_component := point_components (t_idx t (t_start t i)) in
      if forallb (fun j => point_components (t_idx t j) =? candidate_component)
           (seq (t_start t i + 1) (t_end t i - (t_start t i + 1)))
      then upd node_components i (Some candidate_component)
      else node_components
    else
      let left := 2 * i + 1 in
      let right := left + 1 in
      match node_components left, node_components right with
      | Some a, Some b => if a =? b then upd node_components i (node_components left) else node_components
      | None, None => upd node_components i (node_components left)
      | _, _ => node_components
      end.
  (** boruvka.py:94-124: The second half: components of the nodes. *)
  Definition update_nodes (point_components : nat -> nat) (node_components : nat -> option nat)
    : nat -> option nat :=
    fold_left (update_node point_components) (rev (seq 0 (t_nodes t))) node_components.

  (** boruvka.py:94-124 [update_component_vectors]. *)
  Definition update_component_vectors (d : disjoint_set) (node_components : nat -> option nat)
    : res (disjoint_set * (nat -> option nat) * list nat) :=
    let* (d, point_components) := update_point_components d n in
    Ok (d, update_nodes (fun i => nth i point_components 0) node_components, point_components).

  (** ** Queries *)
  Section Query.
    Variable core : nat -> W.
    Variable comp : nat -> nat.
    Variable node_comp : nat -> option nat.

    (** boruvka.py:300-330. [heap_p[0], heap_i[0]] of the query; [-1] is [None]. *)
    Definition cand := (W * option nat)%type.

    (** boruvka.py:196-212: the samples of a leaf, for query sample [p]. *)
    Fixpoint leaf_scan (p : nat) (samples : list nat) (h : cand) : prog W cand :=
      match samples with
      | [] => Ret h
      | idx :: samples' =>
          if comp idx =? comp p then leaf_scan p samples' h
          else Read (fun bound =>
            if wlt (core idx) bound then
              let d := wmax (wmax (rd p idx) (core p)) (core idx) in
              if wlt d (fst h) then
                Read (fun bound =>
                  if wlt d bound then Write d (leaf_scan p samples' (d, Some idx))
                  else leaf_scan p samples' (d, Some idx))
              else leaf_scan p samples' h
            else leaf_scan p samples' h)
      end.

    (** boruvka.py:154-287 [component_aware_query_recursion].  Every occurrence of
        [component_nearest_neighbor_dist[0]] is a separate read; a compiler that
        keeps the value in a register gives one of these executions. *)
    Fixpoint component_query (fuel p node : nat) (dist_lower_bound : W) (h : cand) : prog W cand :=
      if wlt (fst h) dist_lower_bound then Ret h                     (* case 1a *)
      else Read (fun bound =>
        if wlt bound dist_lower_bound then Ret h                     (* case 1b *)
        else Read (fun bound =>
          if wlt bound (core p) then Ret h
          else if match node_comp node with Some c => c =? comp p | None => false end
          then Ret h                                                 (* case 1c *)
          else if t_leaf t node then leaf_scan p (node_samples t node) h
          else match fuel with
               | 0 => Fail OutOfFuel
               | S fuel' =>
                   let left := 2 * node + 1 in
                   let right := left + 1 in
                   if wle (lb p left) (lb p right) then
                     bindp (component_query fuel' p left (lb p left) h) (fun h =>
                     component_query fuel' p right (lb p right) h)
                   else
                     bindp (component_query fuel' p right (lb p right) h) (fun h =>
                     component_query fuel' p left (lb p left) h)
               end)).

    (** boruvka.py:300-330: The loop body for sample [p]. *)
    Definition query_thread (p : nat) : prog W cand :=
      component_query (t_nodes t) p 0 (lb p 0) (winf, None).

    (** boruvka.py:300-331 [boruvka_tree_query] under a schedule. *)
    Definition boruvka_tree_query (schedule : list nat) : res (list cand) :=
      let* (_, cands) := parallel comp schedule (seq 0 n) (fun _ => winf) query_thread in
      Ok cands.

    (** boruvka.py:429-460: a thread of the reproducible variant also reports the
        bound it sees at its end. *)
    Definition block_thread (p : nat) : prog W (cand * W) :=
      bindp (query_thread p) (fun h => Read (fun bound => Ret (h, bound))).

    (** boruvka.py:370-382 [update_component_bounds_from_block]. *)
    Definition lower_bound_from (mem : nat -> W) (ib : nat * (cand * W)) : nat -> W :=
      let '(i, (_, block_bound)) := ib in
      if wlt block_bound (mem (comp i)) then upd mem (comp i) block_bound else mem.

    (** boruvka.py:405-471 [boruvka_tree_query_reproducible]: the blocks one
        after the other, block [b] under [schedules b]. *)
    Fixpoint query_blocks (schedules : nat -> list nat) (blocks : list (list nat)) (b : nat)
        (mem : nat -> W) : res (list cand) :=
      match blocks with
      | [] => Ok []
      | ids :: blocks' =>
          let* (mem, results) := parallel comp (schedules b) ids mem block_thread in
          let mem := fold_left lower_bound_from (combine ids results) mem in
          let* cands := query_blocks schedules blocks' (S b) mem in
          Ok (map fst results ++ cands)
      end.
    (** boruvka.py:418-423: The blocks of samples. *)
    Fixpoint block_list (fuel start block_size : nat) : list (list nat) :=
      match fuel with
      | 0 => []
      | S fuel' =>
          if start <? n
          then seq start (min (start + block_size) n - start) :: block_list fuel' (start + block_size) block_size
          else []
      end.
    (** boruvka.py:405-471 *)
    Definition boruvka_tree_query_reproducible (schedules : nat -> list nat) (block_size : nat)
      : res (list cand) :=
      query_blocks schedules (block_list n 0 block_size) 0 (fun _ => winf).
  End Query.

  (** boruvka.py:335-353 [calculate_block_size]; the comparisons of
      [n_points / n_components] are done without division. *)
  Definition calculate_block_size (n_components n_points num_threads : nat) : nat :=
    let block_size :=
      if (if n_components =? 0 then n_points <? 10 else n_points <? 10 * n_components)
      then num_threads * 512
      else if (if n_components =? 0 then n_points <? 100 else n_points <? 100 * n_components)
      then num_threads * 128
      else if (if n_components =? 0 then n_points <? 1000 else n_points <? 1000 * n_components)
      then num_threads * 32
      else num_threads * 8 in
    max num_threads (min block_size (n_points / 4 + 1)).

  (** ** Rounds *)

  (** boruvka.py:43-59: best candidate of each component.  A candidate [-1] of a
      component without any finite candidate would be used as an index and wrap
      around to the last sample; the model stops with [IndexError] instead. *)
  Definition candidate_edge (ic : nat * cand) : res (edge W) :=
    match snd (snd ic) with
    | Some j => Ok (fst ic, j, fst (snd ic))
    | None => Err IndexError
    end.
  (** boruvka.py:16-31: [select_components]. *)
  Definition select_candidates (point_components : list nat) (cands : list cand)
    : list (nat * (nat * cand)) :=
    fold_left
      (fun component_edges (x : nat * (nat * cand)) =>
         let '(c, (i, h)) := x in
         match dict_get component_edges c with
         | Ok old => if wlt (fst h) (fst (snd old)) then dict_set component_edges c (i, h) else component_edges
         | Err _ => dict_set component_edges c (i, h)
         end)
      (combine point_components (combine (seq 0 (length cands)) cands)) [].
  (** boruvka.py:61-78: [merge_components]. *)
  Definition merge_candidates (d : disjoint_set) (point_components : list nat) (cands : list cand)
    : res (disjoint_set * list (edge W)) :=
    let* edges := map_res (fun x => candidate_edge (snd x)) (select_candidates point_components cands) in
    merge_edges d edges.

  (** boruvka.py:492-503: the edge that [initialize_boruvka_from_knn] chooses for
      a sample, if any; [row] is its neighbour list after the first entry.  A
      neighbour [-1] (there are fewer samples than places) reads the core distance
      of the last sample.  The edge to -1 is then one from the last sample to
      itself, which the merging below ignores, or else would be reported with the
      end -1; the model stops with [IndexError] instead. *)
  Fixpoint initial_edge (last_sample : nat) (core : nat -> W) (i : nat) (row : list (W * option nat))
    : res (option (edge W)) :=
    match row with
    | [] => Ok None
    | (_, None) :: row' =>
        if wle (core last_sample) (core i) then
          if i =? last_sample then Ok None else Err IndexError
        else initial_edge last_sample core i row'
    | (d, Some k) :: row' =>
        if wle (core k) (core i) then Ok (Some (i, k, wmax (core i) d))
        else initial_edge last_sample core i row'
    end.
  (** boruvka.py:43-78: The entries that are present. *)
  Definition somes {A} (l : list (option A)) : list A :=
    flat_map (fun x => match x with Some a => [a] | None => [] end) l.

  (** boruvka.py:486-524 [initialize_boruvka_from_knn]. *)
  Definition initialize_from_knn (core : nat -> W) (d : disjoint_set) (rows : list (list (W * option nat)))
    : res (disjoint_set * list (edge W)) :=
    let* chosen := map_res (fun ir => initial_edge (length rows - 1) core (fst ir) (tl (snd ir)))
                     (combine (seq 0 (length rows)) rows) in
    merge_edges d (somes chosen).

  (** boruvka.py:552-647. How the parallel queries of each round are scheduled, and whether the
      reproducible variant runs (with its number of threads). *)
  Inductive query_mode :=
  | Plain (schedules : nat -> list nat)
  | Reproducible (n_threads : nat) (schedules : nat -> nat -> list nat).

  (** boruvka.py:552-647: The query of one round. *)
  Definition round_query (mode : query_mode) (round n_components : nat) (core : nat -> W)
      (comp : nat -> nat) (node_comp : nat -> option nat) : res (list cand) :=
    match mode with
    | Plain schedules => boruvka_tree_query core comp node_comp (schedules round)
    | Reproducible n_threads schedules =>
        boruvka_tree_query_reproducible core comp node_comp (schedules round)
          (calculate_block_size n_components n n_threads)
    end.

  (** boruvka.py:610-641: the [while] loop, on fuel. *)
  Fixpoint rounds (fuel : nat) (mode : query_mode) (round : nat) (core : nat -> W) (d : disjoint_set)
      (node_components : nat -> option nat) (point_components : list nat) (n_components : nat)
      (all_edges : list (edge W)) : res (list (edge W)) :=
    if 1 <? n_components then
      match fuel with
      | 0 => Err OutOfFuel
      | S fuel' =>
          let* cands := round_query mode round n_components core
                          (fun i => nth i point_components 0) node_components in
          let* (d, new_edges) := merge_candidates d point_components cands in
          let* dnp := update_component_vectors d node_components in
          let '(d, node_components, point_components) := dnp in
          rounds fuel' mode (S round) core d node_components point_components
            (n_components - length new_edges) (all_edges ++ new_edges)
      end
    else Ok all_edges.

  (** boruvka.py:552-647 [parallel_boruvka] without sample weights.  [root] is
      the square root, [zero] is 0.0. *)
  Definition parallel_boruvka (zero : W) (root : W -> W) (mode : query_mode) (min_samples : nat)
    : res (list (edge W) * list (list (option nat)) * list W) :=
    let* rows := parallel_tree_query t rd lb (fun w => w) n (if 1 <? min_samples then min_samples + 1 else 2) in
    let core := if 1 <? min_samples then map (fun row => fst (last row (winf, None))) rows
                else repeat zero n in
    let core_of i := nth i core winf in
    let* (d, initial_edges) := initialize_from_knn core_of (ds_rank_create n) rows in
    let* dnp := update_component_vectors d (fun _ => None) in
    let '(d, node_components, point_components) := dnp in
    let* edges := rounds n mode 0 core_of d node_components point_components
                    (length (nodup Nat.eq_dec point_components)) initial_edges in
    Ok (map (fun e => (esrc e, edst e, root (ewt e))) edges,
        map (fun row => map snd (tl row)) rows,
        map root core).
End Boruvka.
