(** Model of fast_hdbscan/kruskal.py. *)
From Coq Require Import List Arith Bool ZArith NArith.
From Verif Require Import Prelude Order Graph.
Import ListNotations.

Section Kruskal.
  Context {W : WOrd}.

  (** kruskal.py:69-73 (and 78-82): [while curr != root: nxt = p[curr];
      p[curr] = root; curr = nxt]. *)
  Fixpoint compress (fuel : nat) (p : nat -> nat) (curr root : nat) : res (nat -> nat) :=
    if curr =? root then Ok p
    else match fuel with
         | 0 => Err OutOfFuel
         | S fuel' => let nxt := p curr in compress fuel' (upd p curr root) nxt root
         end.

  (** kruskal.py:65-73: root of [x] with full path compression. *)
  Definition find_compress (n : nat) (p : nat -> nat) (x : nat) : res ((nat -> nat) * nat) :=
    let* root := walk n p x in
    let* p := compress n p x root in
    Ok (p, root).

  (** The three kernels (lines 32-108, 130-279, 283-417) are the same loop; they
      differ in the conflict test made before an edge is accepted and in what is
      merged afterwards.  [A] is the state used for that. *)
  Section Kernel.
    Context {A : Type}.
    Variable conflict : (nat -> nat) -> A -> nat -> nat -> res bool.
    Variable merge : A -> nat -> nat -> A.   (* new_root, old_root *)

    (** kruskal.py:32-109. [mst_edges[:n_mst]] is kept as a list, in order of insertion. *)
    Record kstate := { k_pred : nat -> nat; k_rank : nat -> nat; k_mst : list (edge W); k_aux : A }.

    (** kruskal.py:57-106 / 184-277 / 354-415, one iteration after the test for
        [n_mst == n_verts - 1]. *)
    Definition kernel_step (n : nat) (s : kstate) (e : edge W) : res kstate :=
      let '(u, v, w) := e in
      if u =? v then Ok s                                        (* skip self-loops *)
      else
        let* (p, root_u) := find_compress n (k_pred s) u in
        let* (p, root_v) := find_compress n p v in
        let s := {| k_pred := p; k_rank := k_rank s; k_mst := k_mst s; k_aux := k_aux s |} in
        if root_u =? root_v then Ok s
        else
          let* c := conflict p (k_aux s) root_u root_v in
          if c then Ok s
          else
            let mst := k_mst s ++ [(u, v, w)] in
            let rank := k_rank s in
            let '(new_root, old_root, rank) :=
              if rank root_v <? rank root_u then (root_u, root_v, rank)
              else if rank root_u <? rank root_v then (root_v, root_u, rank)
              else (root_u, root_v, upd rank root_u (rank root_u + 1)) in
            Ok {| k_pred := upd p old_root new_root; k_rank := rank; k_mst := mst;
                  k_aux := merge (k_aux s) new_root old_root |}.

    (** kruskal.py:61-64: the loop over [sorted_order], with the early exit. *)
    Fixpoint kernel_loop (n : nat) (edges : list (edge W)) (order : list nat) (s : kstate)
      : res kstate :=
      match order with
      | [] => Ok s
      | j :: order' =>
          if length (k_mst s) =? n - 1 then Ok s                 (* break *)
          else match nth_error edges j with
               | None => Err IndexError
               | Some e => let* s := kernel_step n s e in kernel_loop n edges order' s
               end
      end.

    (** kruskal.py:32-109. [np.empty((n_verts - 1, 3))] raises for [n_verts = 0]. *)
    Definition kernel (n : nat) (edges : list (edge W)) (order : list nat) (a : A)
      : res (list (edge W) * (nat -> nat)) :=
      if n =? 0 then Err ValueError
      else
        let* s := kernel_loop n edges order
                    {| k_pred := fun i => i; k_rank := fun _ => 0; k_mst := []; k_aux := a |} in
        Ok (k_mst s, k_pred s).
  End Kernel.

  (** kruskal.py:32-108 [_kruskal_core].  [weights], [row_indices] and
      [col_indices] are zipped into one list of edges. *)
  Definition kruskal_core (n : nat) (edges : list (edge W)) (order : list nat)
    : res (list (edge W) * (nat -> nat)) :=
    kernel (A := unit) (fun _ _ _ _ => Ok false) (fun a _ _ => a) n edges order tt.

  (** kruskal.py:112-126 [_get_component_labels_jit]. *)
  Fixpoint component_labels_loop (n : nat) (p : nat -> nat) (is_ : list nat) : res (list nat) :=
    match is_ with
    | [] => Ok []
    | i :: is' =>
        let* r := walk n p (p i) in
        let* ls := component_labels_loop n p is' in
        Ok (r :: ls)
    end.
  (** kruskal.py:112-127:  *)
  Definition get_component_labels (n : nat) (p : nat -> nat) : res (list nat) :=
    component_labels_loop n p (seq 0 n).

  (** ** Pairwise constraints *)

  (** kruskal.py:130-280. A cannot-link matrix in CSR form: column indices and row pointers. *)
  Record csr_pattern := { cl_indices : list nat; cl_indptr : list nat }.
  (** kruskal.py:130-280. Row [i]: [cl_indices[cl_indptr[i]:cl_indptr[i+1]]]. *)
  Definition cl_row (c : csr_pattern) (i : nat) : list nat :=
    slice (nth i (cl_indptr c) 0) (nth (S i) (cl_indptr c) 0) (cl_indices c).

  (** kruskal.py:160-167: the linked-list pool ([-1] is [None]). *)
  Record pool := {
    pool_size : nat;                     (* M = len(cl_indices) *)
    pool_idx : nat;
    pool_vertex : nat -> nat;
    pool_next : nat -> option nat;
    comp_head : nat -> option nat;
    comp_tail : nat -> option nat;
    comp_csize : nat -> nat
  }.

  (** kruskal.py:171-179, body of the inner loop. *)
  Definition pool_push (a : pool) (i v : nat) : pool :=
    let k := pool_idx a in
    {| pool_size := pool_size a;
       pool_idx := k + 1;
       pool_vertex := upd (pool_vertex a) k v;
       pool_next := match comp_tail a i with
                    | Some t => upd (pool_next a) t (Some k)
                    | None => pool_next a
                    end;
       comp_head := match comp_tail a i with
                    | Some _ => comp_head a
                    | None => upd (comp_head a) i (Some k)
                    end;
       comp_tail := upd (comp_tail a) i (Some k);
       comp_csize := upd (comp_csize a) i (comp_csize a i + 1) |}.

  (** kruskal.py:130-280: The row of sample [i] enters the pool. *)
  Definition pool_push_row (c : csr_pattern) (a : pool) (i : nat) : pool :=
    fold_left (fun a v => pool_push a i v) (cl_row c i) a.

  (** kruskal.py:159-179. *)
  Definition pool_init (n : nat) (c : csr_pattern) : pool :=
    fold_left (pool_push_row c) (seq 0 n)
      {| pool_size := length (cl_indices c); pool_idx := 0;
         pool_vertex := fun _ => 0; pool_next := fun _ => None;
         comp_head := fun _ => None; comp_tail := fun _ => None; comp_csize := fun _ => 0 |}.

  (** kruskal.py:226-239: scan of the smaller conflict list. *)
  Fixpoint scan_conflicts (fuel n : nat) (p : nat -> nat) (a : pool) (cur : option nat)
      (big_root : nat) : res bool :=
    match cur with
    | None => Ok false
    | Some c =>
        match fuel with
        | 0 => Err OutOfFuel
        | S fuel' =>
            let* root_cl := walk n p (pool_vertex a c) in
            if root_cl =? big_root then Ok true
            else scan_conflicts fuel' n p a (pool_next a c) big_root
        end
    end.

  (** kruskal.py:214-242. *)
  Definition pool_conflict (n : nat) (p : nat -> nat) (a : pool) (root_u root_v : nat) : res bool :=
    if (0 <? comp_csize a root_u) && (0 <? comp_csize a root_v) then
      let '(small_root, big_root) :=
        if comp_csize a root_u <=? comp_csize a root_v then (root_u, root_v) else (root_v, root_u) in
      scan_conflicts (pool_size a) n p a (comp_head a small_root) big_root
    else Ok false.

  (** kruskal.py:264-277: concatenation of the conflict lists. *)
  Definition pool_merge (a : pool) (new_root old_root : nat) : pool :=
    let a' :=
      match comp_head a old_root with
      | None => a
      | Some h =>
          {| pool_size := pool_size a; pool_idx := pool_idx a; pool_vertex := pool_vertex a;
             pool_next := match comp_tail a new_root with
                          | Some t => upd (pool_next a) t (Some h)
                          | None => pool_next a
                          end;
             comp_head := match comp_tail a new_root with
                          | Some _ => comp_head a
                          | None => upd (comp_head a) new_root (Some h)
                          end;
             comp_tail := upd (comp_tail a) new_root (comp_tail a old_root);
             comp_csize := upd (comp_csize a) new_root
                             (comp_csize a new_root + comp_csize a old_root) |}
      end in
    {| pool_size := pool_size a'; pool_idx := pool_idx a'; pool_vertex := pool_vertex a';
       pool_next := pool_next a';
       comp_head := upd (comp_head a') old_root None;
       comp_tail := upd (comp_tail a') old_root None;
       comp_csize := upd (comp_csize a') old_root 0 |}.

  (** kruskal.py:130-279 [_kruskal_core_constrained]. *)
  Definition kruskal_core_constrained (n : nat) (edges : list (edge W)) (order : list nat)
      (c : csr_pattern) : res (list (edge W) * (nat -> nat)) :=
    kernel (A := pool) (pool_conflict n) pool_merge n edges order (pool_init n c).

  (** ** Group constraints *)

  (** kruskal.py:336-344: [comp_mask[i, w]], 64-bit words as [N]. *)
  Definition masks := nat -> nat -> N.

  (** kruskal.py:283-418: The bit masks before the loop. *)
  Definition mask_init (group_labels : list Z) : masks :=
    fun i w =>
      let g := nth i group_labels (-1)%Z in
      if (0 <=? g)%Z then
        if w =? Z.to_nat (g / 64) then N.lor 0 (N.shiftl 1 (Z.to_N (g mod 64))) else 0%N
      else 0%N.

  (** kruskal.py:385-392. *)
  Definition mask_conflict (n_words : nat) (_ : nat -> nat) (m : masks) (root_u root_v : nat)
    : res bool :=
    Ok (existsb (fun w => negb (N.land (m root_u w) (m root_v w) =? 0)%N) (seq 0 n_words)).

  (** kruskal.py:412-415.  Only words [w < n_words] are touched. *)
  Definition mask_merge (n_words : nat) (m : masks) (new_root old_root : nat) : masks :=
    upd m new_root (fun w => if w <? n_words then N.lor (m new_root w) (m old_root w)
                             else m new_root w).

  (** kruskal.py:283-417 [_kruskal_core_group_constrained]. *)
  Definition kruskal_core_group (n : nat) (edges : list (edge W)) (order : list nat)
      (group_labels : list Z) (n_groups : nat) : res (list (edge W) * (nat -> nat)) :=
    let n_words := (n_groups + 63) / 64 in
    kernel (A := masks) (mask_conflict n_words) (mask_merge n_words) n edges order
           (mask_init group_labels).

  (** ** Validation and dispatch *)

  (** kruskal.py:569-618 [_validate_cannot_link_groups]. *)
  Definition validate_groups (group_labels : list Z) (n : nat) : res (list Z * nat) :=
    if negb (length group_labels =? n) then Err ValueError
    else if existsb (fun g => (g <? -1)%Z) group_labels then Err ValueError
    else if existsb (fun g => (0 <=? g)%Z) group_labels
         then Ok (group_labels, Z.to_nat (fold_right Z.max (-1)%Z group_labels) + 1)
         else Ok (group_labels, 0).

  (** kruskal.py:621-675: the resolved constraint dictionary. *)
  Inductive cl_params :=
  | CLNone
  | CLPairs (c : csr_pattern)
  | CLGroups (labels : list Z) (n_groups : nat).

  (** kruskal.py:755-947. [np.argsort(weights, kind="stable")]. *)
  Definition argsort (edges : list (edge W)) : list nat :=
    isort (fun j => match nth_error edges j with Some e => ewt e | None => winf end)
          (seq 0 (length edges)).

  (** kruskal.py:678-720 [_run_kruskal_core]. *)
  Definition run_kruskal_core (n : nat) (edges : list (edge W)) (order : list nat) (cl : cl_params)
    : res (list (edge W) * (nat -> nat)) :=
    match cl with
    | CLGroups labels n_groups =>
        if 0 <? n_groups then kruskal_core_group n edges order labels n_groups
        else kruskal_core n edges order
    | CLPairs c =>
        if 0 <? length (cl_indices c) then kruskal_core_constrained n edges order c
        else kruskal_core n edges order
    | CLNone => kruskal_core n edges order
    end.
End Kruskal.
Arguments kstate W A : clear implicits.
