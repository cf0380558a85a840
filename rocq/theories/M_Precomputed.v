(** Model of fast_hdbscan/precomputed.py and of the CSR entry point of
    kruskal.py. *)
From Coq Require Import List Arith Bool ZArith NArith.
From Verif Require Import Prelude Order Graph M_Kruskal.
Import ListNotations.

Section Precomputed.
  Context {W : WOrd}.

  (** precomputed.py:70-266. A CSR matrix: the three arrays [data], [indices], [indptr]. *)
  Record csr := { c_data : list W; c_indices : list nat; c_indptr : list nat }.

  (** precomputed.py:70-266. Number of rows, [len(indptr) - 1]. *)
  Definition csr_n (g : csr) : nat := length (c_indptr g) - 1.
  (** precomputed.py:70-266. The stored entries of row [i], in storage order: (column, value). *)
  Definition csr_row (g : csr) (i : nat) : list (nat * W) :=
    slice (nth i (c_indptr g) 0) (nth (S i) (c_indptr g) 0) (combine (c_indices g) (c_data g)).
  (** All stored entries as (row, column, value), row by row: this is the zip of
      [np.repeat(np.arange(n), np.diff(indptr))], [indices] and [data]
      (kruskal.py:798-803). *)
  Definition csr_entries (g : csr) : list (edge W) :=
    flat_map (fun i => map (fun cw => (i, fst cw, snd cw)) (csr_row g i)) (seq 0 (csr_n g)).

  (** precomputed.py:70-144 [_symmetrize_min_csr], on the COO triples of the
      input.  [np.lexsort((v, u))] is a stable sort by [v] followed by a stable
      sort by [u].  [reduceat] over runs of equal keys is [group_min]. *)
  Definition canonical (e : edge W) : edge W :=
    let '(i, j, w) := e in (Nat.min i j, Nat.max i j, w).

  (** precomputed.py:70-144: The least value of equal positions, which are adjacent. *)
  Fixpoint group_min (n : nat) (l : list (edge W)) : list (edge W) :=
    match l with
    | [] => []
    | (u, v, w) :: l' =>
        match group_min n l' with
        | (u', v', w') :: g' =>
            if (u * n + v =? u' * n + v') then (u, v, wmin w w') :: g'
            else (u, v, w) :: (u', v', w') :: g'
        | [] => [(u, v, w)]
        end
    end.

  (** precomputed.py:70-144. [np.bincount(rows, minlength=n)] and the cumulative sum. *)
  Definition cumcounts (rows : list nat) (n : nat) : list nat :=
    map (fun i => countp (fun r => r <? i) rows) (seq 0 (S n)).

  (** precomputed.py:70-144: The transposed entry. *)
  Definition mirror (e : edge W) : edge W := let '(u, v, w) := e in (v, u, w).

  (** precomputed.py:70-144: [_symmetrize_min_csr]. *)
  Definition symmetrize_min (entries : list (edge W)) (n : nat) : csr :=
    let off_diag := filter (fun e => negb (esrc e =? edst e)) entries in
    match off_diag with
    | [] => {| c_data := []; c_indices := []; c_indptr := repeat 0 (S n) |}
    | _ =>
        let canon := map canonical off_diag in
        let sorted := nsort esrc (nsort edst canon) in
        let out := group_min n sorted in
        let both := out ++ map mirror out in
        let sym := nsort esrc both in
        {| c_data := map ewt sym; c_indices := map edst sym;
           c_indptr := cumcounts (map esrc sym) n |}
    end.

  (** precomputed.py:148-199 [_core_distances_csr].  [np.argsort] there is not
      stable; the order among equal distances only affects which tied neighbour
      is reported, so a stable order is used.  [-1] is [None]. *)
  Definition core_row (g : csr) (min_samples i : nat) : list (option nat) * option W :=
    let k := Nat.max 1 min_samples in
    let row := csr_row g i in
    let deg := length row in
    let order := isort (fun cw : nat * W => snd cw) row in
    let neighbors := map (fun cw => Some (fst cw)) (firstn (Nat.min k deg) order)
                     ++ repeat None (k - Nat.min k deg) in
    let core :=
      if deg =? 0 then (if 1 <? min_samples then Some winf else None)
      else if 1 <? min_samples then
             if min_samples <=? deg
             then Some (snd (nth (min_samples - 1) order (0, winf)))
             else Some winf
           else None in
    (neighbors, core).

  (** precomputed.py:147-199. [zero] is the value [0.0] of the array [core_distances] before the loop. *)
  Definition core_distances_csr (zero : W) (g : csr) (min_samples : nat)
    : list (list (option nat)) * list W :=
    let rows := map (core_row g min_samples) (seq 0 (csr_n g)) in
    (map fst rows, map (fun r => match snd r with Some d => d | None => zero end) rows).

  (** kruskal.py:421-453 [_compute_mrd_csr_flat]: [mrd = cd_i; if cd_j > mrd:
      mrd = cd_j; if w > mrd: mrd = w]. *)
  Definition mrd3 (cd_i cd_j w : W) : W := wmax (wmax cd_i cd_j) w.
  (** kruskal.py:421-452: [_compute_mrd_csr_flat]. *)
  Definition mrd_entries (core : list W) (g : csr) : list (edge W) :=
    map (fun e => (esrc e, edst e,
                   mrd3 (nth (esrc e) core winf) (nth (edst e) core winf) (ewt e)))
        (csr_entries g).

  (** kruskal.py:755-818 [kruskal_mst_from_csr]. *)
  Definition kruskal_mst_from_csr (g : csr) (core : list W) (cl : cl_params)
    : res (nat * list nat * list (edge W)) :=
    let n := csr_n g in
    let edges := mrd_entries core g in
    let* (mst, pred) := run_kruskal_core n edges (argsort edges) cl in
    let* labels := get_component_labels n pred in
    Ok (length (unique labels), labels, mst).

  (** precomputed.py:308-357 [bridge_forest_with_inf]. *)
  Fixpoint bridges (reps : list nat) : list (edge W) :=
    match reps with
    | a :: (b :: _) as rest => (a, b, winf) :: bridges rest
    | _ => []
    end.

  (** precomputed.py:308-357: The first sample of component [c]. *)
  Definition representative (labels : list nat) (c : nat) : res nat :=
    match filter (fun i => nth i labels 0 =? c) (seq 0 (length labels)) with
    | [] => Err ValueError                                     (* min of an empty array *)
    | i :: is' => Ok (fold_left Nat.min is' i)
    end.

  (** precomputed.py:308-357: A loop that fills an array; it stops at the first error. *)
  Fixpoint mapM {A B} (f : A -> res B) (l : list A) : res (list B) :=
    match l with
    | [] => Ok []
    | x :: l' => let* y := f x in let* ys := mapM f l' in Ok (y :: ys)
    end.

  (** precomputed.py:308-357 *)
  Definition bridge_forest_with_inf (edges : list (edge W)) (labels : list nat)
    : res (list (edge W)) :=
    let comps := unique labels in
    if length comps =? 1 then Ok edges
    else
      let* reps := mapM (representative labels) comps in
      Ok (edges ++ bridges (nsort (fun x => x) reps)).

  (** precomputed.py:391-395 [_find]: path halving. *)
  Fixpoint find_halving (fuel : nat) (p : nat -> nat) (x : nat) : res ((nat -> nat) * nat) :=
    if p x =? x then Ok (p, x)
    else match fuel with
         | 0 => Err OutOfFuel
         | S fuel' => let p := upd p x (p (p x)) in find_halving fuel' p (p x)
         end.

  (** precomputed.py:360-407: The unions over the finite edges. *)
  Fixpoint unbridge_unions (n : nat) (p : nat -> nat) (edges : list (edge W)) : res (nat -> nat) :=
    match edges with
    | [] => Ok p
    | e :: es =>
        let* (p, ru) := find_halving n p (esrc e) in
        let* (p, rv) := find_halving n p (edst e) in
        unbridge_unions n (if ru =? rv then p else upd p rv ru) es
    end.

  (** precomputed.py:360-407: The root of every sample. *)
  Fixpoint unbridge_roots (n : nat) (p : nat -> nat) (is_ : list nat) : res (list nat) :=
    match is_ with
    | [] => Ok []
    | i :: is' => let* (p, r) := find_halving n p i in
                  let* rs := unbridge_roots n p is' in Ok (r :: rs)
    end.

  (** precomputed.py:360-407. Position of [x] in the sorted distinct values: [np.unique]'s inverse. *)
  Fixpoint index_of (x : nat) (l : list nat) : nat :=
    match l with [] => 0 | y :: l' => if x =? y then 0 else S (index_of x l') end.

  (** precomputed.py:360-407 [unbridge_mst]. *)
  Definition unbridge_mst (edges : list (edge W)) : res (list (edge W) * list nat) :=
    let n := length edges + 1 in
    let finite := filter (fun e => wfinite (ewt e)) edges in
    let* p := unbridge_unions n (fun i => i) finite in
    let* roots := unbridge_roots n p (seq 0 n) in
    Ok (finite, map (fun r => index_of r (unique roots)) roots).

  (** precomputed.py:479-557 [compute_mst_from_precomputed_sparse_kruskal], after
      validation of [X] and of the constraints. *)
  Definition precomputed_kruskal (zero : W) (entries : list (edge W)) (n min_samples : nat)
      (cl : cl_params) : res (list (edge W) * list (list (option nat)) * list W) :=
    let g := symmetrize_min entries n in
    let (neighbors, core) := core_distances_csr zero g min_samples in
    let* r := kruskal_mst_from_csr g core cl in
    let '(n_components, labels, mst) := r in
    let* mst := if 1 <? n_components then bridge_forest_with_inf mst labels else Ok mst in
    Ok (mst, neighbors, core).

  (** kruskal.py:723-752 [_finish_mst]. *)
  Definition finish_mst (n : nat) (mst : list (edge W)) (pred : nat -> nat) : res (list (edge W)) :=
    let* labels := get_component_labels n pred in
    if 1 <? length (unique labels) then bridge_forest_with_inf mst labels else Ok mst.
End Precomputed.
Arguments csr W : clear implicits.
