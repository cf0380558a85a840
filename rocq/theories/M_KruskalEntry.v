(** Model of the validation and entry points of fast_hdbscan/kruskal.py. *)
From Coq Require Import List Arith Bool ZArith NArith.
From Verif Require Import Prelude Order Graph S_Kruskal M_Kruskal M_Precomputed.
Import ListNotations.

(** ** Cannot-link matrices *)

(** kruskal.py:515-566. Sum of the stored values at one position: what [csr_matrix] makes of
    repeated entries. *)
Definition value_at (E : list (edge Z)) (i j : nat) : Z :=
  fold_right Z.add 0%Z
    (map ewt (filter (fun e => (esrc e =? i) && (edst e =? j)) E)).

(** kruskal.py:515-566. CSR arrays of a matrix given row by row. *)
Definition pattern_of_rows (rows : list (list nat)) : csr_pattern :=
  {| cl_indices := concat rows;
     cl_indptr := map (fun i => length (concat (firstn i rows))) (seq 0 (S (length rows))) |}.

(** kruskal.py:621-675. [np.empty(0), np.zeros(n + 1)]. *)
Definition empty_pattern (n : nat) : csr_pattern :=
  {| cl_indices := []; cl_indptr := repeat 0 (S n) |}.

(** kruskal.py:515-566 [_validate_cannot_link].  [cl_csr + cl_csr.T] keeps the
    positions where the sum is not zero (scipy drops zero results); with
    [validate=False] every stored entry is kept as it is. *)
Definition validate_cannot_link (X : sparse) (n : nat) (validate : bool) : res csr_pattern :=
  if negb validate then
    if length (sp_entries X) =? 0 then Ok (empty_pattern n)
    else Ok (pattern_of_rows
               (map (fun i => map edst (filter (fun e => esrc e =? i) (sp_entries X)))
                    (seq 0 (sp_rows X))))
  else if negb ((sp_rows X =? n) && (sp_cols X =? n)) then Err ValueError
  else if length (sp_entries X) =? 0 then Ok (empty_pattern n)
  else Ok (pattern_of_rows
             (map (fun i => filter (fun j =>
                      negb (value_at (sp_entries X) i j + value_at (sp_entries X) j i =? 0)%Z)
                    (seq 0 n))
                  (seq 0 n))).

(** kruskal.py:621-675 [_resolve_cl_params]. *)
Definition resolve_cl_params (n : nat) (cannot_link : option sparse) (validate : bool)
    (groups : option (list Z)) : res cl_params :=
  match cannot_link, groups with
  | Some _, Some _ => Err ValueError
  | Some X, None => let* c := validate_cannot_link X n validate in Ok (CLPairs c)
  | None, Some g => let* (labels, n_groups) := validate_groups g n in Ok (CLGroups labels n_groups)
  | None, None => Ok CLNone
  end.

(** ** Feature-matrix entry points *)
Section Features.
  Context {W : WOrd}.

  (** kruskal.py:881-947 [_kruskal_mst_brute].  [D i j] stands for
      [cdist(data, data)]: the euclidean distances are an input of the model. *)
  Definition brute_core (zero : W) (D : nat -> nat -> W) (n min_samples i : nat) : W :=
    if min_samples <=? 1 then zero
    else if min_samples <? n
         then nth min_samples (isort (fun w => w) (map (D i) (seq 0 n))) winf  (* np.partition *)
         else winf.

  (** kruskal.py:930-937: [np.triu_indices(n, k=1)], row by row. *)
  Definition brute_edges (zero : W) (D : nat -> nat -> W) (n min_samples : nat) : list (edge W) :=
    flat_map (fun i => map (fun j => (i, j, mrd3 (brute_core zero D n min_samples i)
                                                 (brute_core zero D n min_samples j) (D i j)))
                           (seq (S i) (n - S i)))
             (seq 0 n).

  (** kruskal.py:919-928: the reported neighbours (columns 1 .. k_out of the
      row sorted by distance; column 0 is assumed to be the sample itself).  The
      code partitions and then sorts, neither of them stable; here equal
      distances keep the order of the samples. *)
  Definition brute_neighbors (D : nat -> nat -> W) (n min_samples i : nat) : list nat :=
    let k_out := Nat.min (Nat.max 1 min_samples) (n - 1) in
    firstn k_out (skipn 1 (isort (D i) (seq 0 n))).

  (** kruskal.py:881-947 *)
  Definition kruskal_mst_brute (zero : W) (D : nat -> nat -> W) (n min_samples : nat)
      (cl : cl_params) : res (list (edge W) * list (list nat) * list W) :=
    let edges := brute_edges zero D n min_samples in
    let* (mst, pred) := run_kruskal_core n edges (argsort edges) cl in
    let* mst := finish_mst n mst pred in
    Ok (mst, map (brute_neighbors D n min_samples) (seq 0 n),
        map (brute_core zero D n min_samples) (seq 0 n)).

  (** kruskal.py:456-508 [_build_mrd_edges_knn].  [knn]: for each sample its row
      of (neighbour index or -1, distance). *)
  Definition knn_edges (knn : list (list (option nat * W))) (core : list W) : list (edge W) :=
    flat_map (fun i =>
      map (fun jd => match fst jd with
                     | None => (i, i, winf)
                     | Some j => (i, j, mrd3 (nth i core winf) (nth j core winf) (snd jd))
                     end) (nth i knn []))
      (seq 0 (length knn)).

  (** kruskal.py:950-1034 [_kruskal_mst_knn], without sample weights.  [query]
      is the answer of [parallel_tree_query(..., k)]: for each sample the [k]
      nearest (index, distance), nearest first, column 0 being the sample
      itself. *)
  Definition kruskal_mst_knn (zero : W) (query : nat -> list (list (option nat * W)))
      (min_samples knn_k : nat) (cl : cl_params)
    : res (list (edge W) * list (list (option nat)) * list W) :=
    let k_query := if 1 <? min_samples then Nat.max knn_k min_samples + 1 else knn_k + 1 in
    let rows := query k_query in
    let n := length rows in
    let core := map (fun row => if 1 <? min_samples then snd (nth min_samples row (None, winf))
                                else zero) rows in
    let knn := map (skipn 1) rows in
    let neighbors := map (fun row => map fst (firstn (Nat.max 1 min_samples) (skipn 1 row))) rows in
    let edges := filter (fun e => negb (esrc e =? edst e) && wfinite (ewt e)) (knn_edges knn core) in
    let* (mst, pred) := run_kruskal_core n edges (argsort edges) cl in
    let* mst := finish_mst n mst pred in
    Ok (mst, neighbors, core).
End Features.
