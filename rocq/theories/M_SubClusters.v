(** Model of the detection of sub-clusters inside clusters:
    fast_hdbscan/sub_clusters.py, fast_hdbscan/branches.py and the lens graph of
    fast_hdbscan/core_graph.py. *)
From Coq Require Import List Arith Bool ZArith.
From Verif Require Import Prelude Order Graph Size Num M_DisjointSet M_Precomputed M_Linkage M_Condense M_Select M_CoreGraph
  M_Pipeline M_Estimator M_Layers M_LayerTree.
Import ListNotations.
Local Open Scope nat_scope.

(** sub_clusters.py:98-129. [a[index] = values]: numpy raises if the lengths differ. *)
Definition put {A} (a : nat -> A) (index : list nat) (values : list A) : res (nat -> A) :=
  if length index =? length values then Ok (assign_at a index values) else Err ValueError.

(** sub_clusters.py:98-185. [unique[0]] of a non-empty array. *)
Definition first_unique (unique : list Z) : res Z := match unique with [] => Err IndexError | u :: _ => Ok u end.

(** sub_clusters.py:98-185. [int(unique[0] == -1)] *)
Definition noise_flag (unique : list Z) : res Z := let* u := first_unique unique in Ok (if (u =? -1)%Z then 1%Z else 0%Z).

(** ** Joining the results of the clusters *)
Section Update.
  Context {P Lens : Type}.
  (** [(p + q) / 2] *)
  Variable average : P -> P -> P.

  (** sub_clusters.py:64-95. What one cluster contributes: entries of points_list, sub_labels_list,
      sub_probabilities_list and lens_values_list. *)
  Record piece := { pc_points : list nat; pc_labels : list Z; pc_probs : list P; pc_lens : list Lens }.

  (** sub_clusters.py:98-129: The arrays that [update_labels] returns. *)
  Record joined := { j_labels : nat -> Z; j_probs : nat -> P; j_sub : nat -> Z; j_sub_probs : nat -> P; j_lens : nat -> Lens }.

  (** sub_clusters.py:113-126 *)
  Fixpoint update_loop (pieces : list piece) (running_id : Z) (s : joined) : res joined :=
    match pieces with
    | [] => Ok s
    | c :: pieces' =>
        let unique := unique_Z (pc_labels c) in
        let* flag := noise_flag unique in
        let points := pc_points c in
        let* labels := put (j_labels s) points (map (fun l => l + flag + running_id)%Z (pc_labels c)) in
        let* sub := put (j_sub s) points (pc_labels c) in
        let* sub_probs := put (j_sub_probs s) points (pc_probs c) in
        let* probs := put (j_probs s) points (map (fun xq => average (j_probs s (fst xq)) (snd xq)) (combine points (pc_probs c))) in
        let* lens := put (j_lens s) points (pc_lens c) in
        update_loop pieces' (running_id + Z.of_nat (length unique))%Z
          {| j_labels := labels; j_probs := probs; j_sub := sub; j_sub_probs := sub_probs; j_lens := lens |}
    end.

  (** sub_clusters.py:98-128 *)
  Definition update_labels (zero : P) (no_lens : Lens) (cluster_probabilities : nat -> P) (pieces : list piece) : res joined :=
    update_loop pieces 0 {| j_labels := fun _ => (-1)%Z; j_probs := cluster_probabilities; j_sub := fun _ => 0%Z;
                            j_sub_probs := fun _ => zero; j_lens := fun _ => no_lens |}.
End Update.
Arguments piece P Lens : clear implicits.
Arguments joined P Lens : clear implicits.

(** ** Majority votes *)
Section Vote.
  Context {W N : WOrd}.
  (** Weights of votes: [1 / w] (which raises for zero), sum and
      [0.0]. *)
  Variables (inv : W -> res N) (nadd : N -> N -> N) (nzero : N).

  (** sub_clusters.py:137-143: the entries of one row, then all rows. *)
  Fixpoint note_votes (sub_labels : nat -> Z) (idx : nat) (row : list (nat * W)) (votes : nat -> list (nat * N))
    : res (nat -> list (nat * N)) :=
    match row with
    | [] => Ok votes
    | (neighbor, w) :: row' =>
        let* votes := if (sub_labels neighbor =? -1)%Z
                      then let* x := inv w in Ok (upd votes neighbor (dict_set (votes neighbor) idx x)) else Ok votes in
        let* votes := if (sub_labels idx =? -1)%Z
                      then let* x := inv w in Ok (upd votes idx (dict_set (votes idx) neighbor x)) else Ok votes in
        note_votes sub_labels idx row' votes
    end.
  (** sub_clusters.py:133-143: Every edge, in the directions that end at an unlabelled sample. *)
  Definition undirected (g : csr W) (sub_labels : nat -> Z) : res (nat -> list (nat * N)) :=
    fold_res (fun idx votes => note_votes sub_labels idx (csr_row g idx) votes) (seq 0 (csr_n g)) (fun _ => []).

  (** sub_clusters.py:152-156. [candidates[label] = candidates.get(label, 0.0) + weight] on a dictionary
      keyed by labels. *)
  Fixpoint add_vote (candidates : list (Z * N)) (label : Z) (weight : N) : list (Z * N) :=
    match candidates with
    | [] => [(label, nadd nzero weight)]
    | (l, x) :: c => if (l =? label)%Z then (l, nadd x weight) :: c else (l, x) :: add_vote c label weight
    end.

  (** sub_clusters.py:151-156. *)
  Definition count_votes (sub_labels : nat -> Z) (votes : list (nat * N)) : list (Z * N) :=
    fold_left (fun candidates v => let label := sub_labels (fst v) in
                                   if (label =? -1)%Z then candidates else add_vote candidates label (snd v)) votes [].

  (** sub_clusters.py:160-165: the first candidate of greatest weight; the weight before
      the first candidate is minus infinity, which every sum of votes exceeds
      (NaN and infinite sums are not modelled). *)
  Definition beats (weight : N) (best : option (Z * N)) : bool :=
    match best with None => true | Some (_, m) => wlt m weight end.
  (** sub_clusters.py:160-165: The candidate that wins the vote. *)
  Definition winner (candidates : list (Z * N)) : option (Z * N) :=
    fold_left (fun best c => if beats (snd c) best then Some c else best) candidates None.

  (** sub_clusters.py:150-166: one pass over the samples [noise_idx]. *)
  Definition vote_step (votes : nat -> list (nat * N)) (sub_labels : nat -> Z) (idx : nat) : nat -> Z :=
    match winner (count_votes sub_labels (votes idx)) with
    | None => sub_labels                                              (* no candidates: continue *)
    | Some (candidate, _) => upd sub_labels idx candidate
    end.

  (** sub_clusters.py:145-167: the [while True] loop, on fuel. *)
  Fixpoint vote_loop (fuel n : nat) (votes : nat -> list (nat * N)) (sub_labels : nat -> Z) : res (nat -> Z) :=
    match filter (fun i => (sub_labels i =? -1)%Z) (seq 0 n) with
    | [] => Ok sub_labels
    | noise_idx =>
        match fuel with
        | 0 => Err OutOfFuel
        | S f => vote_loop f n votes (fold_left (vote_step votes) noise_idx sub_labels)
        end
    end.

  (** sub_clusters.py:131-167 *)
  Definition propagate_labels_per_cluster (fuel : nat) (g : csr W) (sub_labels : list Z) : res (list Z) :=
    let a := fun i => nth i sub_labels 0%Z in
    let* votes := undirected g a in
    let* a := vote_loop fuel (length sub_labels) votes a in
    Ok (map a (seq 0 (length sub_labels))).

  (** sub_clusters.py:172-183: the loop over the clusters. *)
  Fixpoint propagate_loop (fuel : nat) (clusters : list (list nat * csr W)) (running_id : Z) (labels sub_labels : nat -> Z)
    : res ((nat -> Z) * (nat -> Z)) :=
    match clusters with
    | [] => Ok (labels, sub_labels)
    | (points, core_graph) :: clusters' =>
        let unique := unique_Z (map sub_labels points) in
        let* u := first_unique unique in
        let has_noise := (u =? -1)%Z && (1 <? length unique) in
        let* sub_labels :=
          if has_noise then
            let* new := propagate_labels_per_cluster fuel core_graph (map sub_labels points) in
            put sub_labels points new
          else Ok sub_labels in
        let* labels := put labels points (map (fun x => sub_labels x + running_id)%Z points) in
        propagate_loop fuel clusters' (running_id + Z.of_nat (length unique) - (if has_noise then 1 else 0))%Z labels sub_labels
    end.
  (** sub_clusters.py:170-185 *)
  Definition propagate_sub_cluster_labels (fuel : nat) (labels sub_labels : nat -> Z) (clusters : list (list nat * csr W)) :=
    propagate_loop fuel clusters 0 labels sub_labels.
End Vote.

(** ** Branches *)
Section Branch.
  Context {P : Type}.

  (** branches.py:22-34.  [tree] tells whether the linkage tree of a cluster is
      not None. *)
  Fixpoint branch_loop (min_branch_count : nat) (clusters : list (list nat * bool)) (branch_labels : nat -> Z)
      (cluster_probabilities : nat -> P) (running_id : Z) (labels : nat -> Z) (probabilities : nat -> P)
    : res ((nat -> Z) * (nat -> P)) :=
    match clusters with
    | [] => Ok (labels, probabilities)
    | (pts, tree) :: clusters' =>
        let unique := unique_Z (map branch_labels pts) in
        let* has_noise := noise_flag unique in
        let num_branches := (Z.of_nat (length unique) - has_noise)%Z in
        if (num_branches <=? Z.of_nat min_branch_count)%Z && tree then
          let* labels := put labels pts (map (fun _ => running_id) pts) in
          let* probabilities := put probabilities pts (map cluster_probabilities pts) in
          branch_loop min_branch_count clusters' branch_labels cluster_probabilities (running_id + 1)%Z labels probabilities
        else
          let* labels := put labels pts (map (fun x => branch_labels x + has_noise + running_id)%Z pts) in
          branch_loop min_branch_count clusters' branch_labels cluster_probabilities (running_id + (num_branches + has_noise))%Z
            labels probabilities
    end.

  (** branches.py:13-34 *)
  Definition apply_branch_threshold (label_sides_as_branches : bool) (clusters : list (list nat * bool)) (branch_labels : nat -> Z)
      (cluster_probabilities : nat -> P) (labels : nat -> Z) (probabilities : nat -> P) :=
    branch_loop (if label_sides_as_branches then 1 else 2) clusters branch_labels cluster_probabilities 0 labels probabilities.
End Branch.
