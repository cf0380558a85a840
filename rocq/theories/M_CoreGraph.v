(** Model of fast_hdbscan/core_graph.py and of the Boruvka path of
    fast_hdbscan/precomputed.py. *)
From Coq Require Import List Arith Bool.
From Verif Require Import Prelude Order Graph M_DisjointSet M_Precomputed M_Linkage M_Select.
Import ListNotations.

Section CoreGraph.
  Context {W : WOrd}.

  (** ** Selecting and merging *)

  (** core_graph.py:121-127 (and 51-64 of boruvka.py): the update of
      [component_edges], a dictionary from components to their best edge so far.
      Values are (parent, neighbor, distance); dictionaries keep insertion order,
      and replacing a value keeps its place. *)
  Definition note_edge (component_edges : list (nat * edge W)) (from_component : nat) (e : edge W)
    : list (nat * edge W) :=
    match dict_get component_edges from_component with
    | Ok old => if wlt (ewt e) (ewt old) then dict_set component_edges from_component e
                else component_edges
    | Err _ => dict_set component_edges from_component e
    end.

  (** core_graph.py:138-150 (and boruvka.py:70-82, 509-523): the loop over the
      chosen edges.  [result[:result_idx]] is the returned list. *)
  Fixpoint merge_edges (d : disjoint_set) (edges : list (edge W))
    : res (disjoint_set * list (edge W)) :=
    match edges with
    | [] => Ok (d, [])
    | e :: edges' =>
        let* (d, from_component) := ds_find d (esrc e) in
        let* (d, to_component) := ds_find d (edst e) in
        if from_component =? to_component then merge_edges d edges'
        else
          let* d := ds_union_by_rank d from_component to_component in
          let* (d, result) := merge_edges d edges' in
          Ok (d, e :: result)
    end.

  (** core_graph.py:133-152 [merge_components]. *)
  Definition merge_components (d : disjoint_set) (component_edges : list (nat * edge W))
    : res (disjoint_set * list (edge W)) :=
    merge_edges d (map snd component_edges).

  (** core_graph.py:14-16 [update_point_components].  The [prange] only performs
      look-ups, which do not change the structure whatever their interleaving
      (C02); the model runs them in index order. *)
  Fixpoint find_all (d : disjoint_set) (points : list nat) : res (disjoint_set * list nat) :=
    match points with
    | [] => Ok (d, [])
    | i :: points' =>
        let* (d, r) := ds_find d i in
        let* (d, rs) := find_all d points' in
        Ok (d, r :: rs)
    end.
  (** core_graph.py:13-16 *)
  Definition update_point_components (d : disjoint_set) (n : nat)
    : res (disjoint_set * list nat) :=
    find_all d (seq 0 n).

  (** ** The stored graph *)

  (** core_graph.py:173-209. The two arrays that [boruvka_mst] works on, [indices] and [distances], of
      length [w_len]; the entry [-1] of [indices] is [None]. *)
  Record work := { w_len : nat; w_ind : nat -> option nat; w_dist : nat -> W }.

  (** core_graph.py:110-129 [select_components].  [points] enumerates
      [point_components]. *)
  Fixpoint select_loop (g : work) (indptr : list nat) (points : list (nat * nat))
      (component_edges : list (nat * edge W)) : list (nat * edge W) :=
    match points with
    | [] => component_edges
    | (parent, from_component) :: points' =>
        let start := nth parent indptr 0 in
        if start =? w_len g then select_loop g indptr points' component_edges
        else match w_ind g start with
             | None => select_loop g indptr points' component_edges
             | Some neighbor =>
                 select_loop g indptr points'
                   (note_edge component_edges from_component (parent, neighbor, w_dist g start))
             end
    end.
  (** core_graph.py:110-130:  *)
  Definition select_components (g : work) (indptr point_components : list nat)
    : list (nat * edge W) :=
    select_loop g indptr (combine (seq 0 (length point_components)) point_components) [].

  (** core_graph.py:160-167: the loop over one row; [counter] is returned. *)
  Fixpoint compact_loop (point_components : list nat) (point start : nat) (idxs : list nat)
      (counter : nat) (g : work) : nat * work :=
    match idxs with
    | [] => (counter, g)
    | idx :: idxs' =>
        match w_ind g idx with
        | None => (counter, g)                                        (* break *)
        | Some child =>
            if nth child point_components 0 =? nth point point_components 0
            then compact_loop point_components point start idxs' counter g
            else compact_loop point_components point start idxs' (counter + 1)
                   {| w_len := w_len g;
                      w_ind := upd (w_ind g) (start + counter) (w_ind g idx);
                      w_dist := upd (w_dist g) (start + counter) (w_dist g idx) |}
        end
    end.

  (** core_graph.py:157-169, one iteration of the parallel loop.  Different rows
      occupy disjoint parts of the arrays, so the iterations do not interact and
      the model runs them in order. *)
  Definition update_row (indptr point_components : list nat) (g : work) (point : nat) : work :=
    let start := nth point indptr 0 in
    let stop := nth (S point) indptr 0 in
    let (counter, g) := compact_loop point_components point start (seq start (stop - start)) 0 g in
    {| w_len := w_len g;
       w_ind := fun i => if (start + counter <=? i) && (i <? stop) then None else w_ind g i;
       w_dist := fun i => if (start + counter <=? i) && (i <? stop) then winf else w_dist g i |}.

  (** core_graph.py:155-169 [update_graph_components]. *)
  Definition update_graph_components (indptr point_components : list nat) (g : work) : work :=
    fold_left (update_row indptr point_components) (seq 0 (length point_components)) g.

  (** core_graph.py:188-200: the [while] loop, on fuel.  The third result is the
      concatenation of [edges_list]. *)
  Fixpoint boruvka_loop (fuel : nat) (indptr : list nat) (g : work) (d : disjoint_set)
      (point_components : list nat) (n_components : nat) (edges : list (edge W))
    : res (nat * list nat * list (edge W)) :=
    if 1 <? n_components then
      match fuel with
      | 0 => Err OutOfFuel
      | S fuel' =>
          let* (d, new_edges) := merge_components d (select_components g indptr point_components) in
          match new_edges with
          | [] => Ok (n_components, point_components, edges)          (* break *)
          | _ =>
              let edges := edges ++ new_edges in
              let* (d, point_components) := update_point_components d (length point_components) in
              let g := update_graph_components indptr point_components g in
              boruvka_loop fuel' indptr g d point_components
                (n_components - length new_edges) edges
          end
      end
    else Ok (n_components, point_components, edges).

  (** core_graph.py:172-208 [boruvka_mst] with [overwrite=False].  The graph is
      given by [weights], [indices] and [indptr]; [distances] of the named tuple
      is not read. *)
  Definition boruvka_mst (g : csr W) : res (nat * list nat * list (edge W)) :=
    let n := length (c_indptr g) - 1 in
    boruvka_loop n (c_indptr g)
      {| w_len := length (c_indices g);
         w_ind := nth_error (c_indices g);
         w_dist := fun i => nth i (c_data g) winf |}
      (ds_rank_create n) (seq 0 n) n [].

  (** ** The precomputed path *)

  (** precomputed.py:235-263, one row: entries sorted by neighbour, then stably
      by weight.  [round] is the conversion to float32. *)
  Definition core_graph_row (round : W -> W) (core : list W) (g : csr W) (i : nat)
    : list (nat * W) :=
    isort (fun cw : nat * W => snd cw)
      (nsort (fun cw : nat * W => fst cw)
        (map (fun cw => (fst cw, round (mrd3 (nth i core winf) (nth (fst cw) core winf) (snd cw))))
             (csr_row g i))).

  (** precomputed.py:203-265 [_build_core_graph_csr]. *)
  Definition build_core_graph (round : W -> W) (core : list W) (g : csr W) : csr W :=
    let rows := flat_map (core_graph_row round core g) (seq 0 (csr_n g)) in
    {| c_data := map snd rows; c_indices := map fst rows; c_indptr := c_indptr g |}.

  (** precomputed.py:296-300: base weight of an edge, [0.0] if it is not stored. *)
  Definition base_weight (zero : W) (g : csr W) (src dst : nat) : W :=
    match find (fun cw : nat * W => fst cw =? dst) (csr_row g src) with
    | Some cw => snd cw
    | None => zero
    end.

  (** precomputed.py:268-305 [_patch_mst_weights]; [huge] is [1e200]. *)
  Definition patch_weight (zero huge : W) (g : csr W) (core : list W) (e : edge W) : edge W :=
    let '(u, v, w) := e in
    if wlt huge w then (u, v, w)
    else (u, v, mrd3 (nth u core winf) (nth v core winf) (base_weight zero g u v)).

  (** precomputed.py:410-476 [compute_mst_from_precomputed_sparse], after
      validation. *)
  Definition precomputed_boruvka (zero huge : W) (round : W -> W) (entries : list (edge W))
      (n min_samples : nat) : res (list (edge W) * list (list (option nat)) * list W) :=
    let g := symmetrize_min entries n in
    let (neighbors, core) := core_distances_csr zero g min_samples in
    let* r := boruvka_mst (build_core_graph round core g) in
    let '(n_components, labels, mst) := r in
    let* mst := if 1 <? n_components then bridge_forest_with_inf mst labels else Ok mst in
    Ok (map (patch_weight zero huge g core) mst, neighbors, core).
End CoreGraph.
Arguments work W : clear implicits.
