(** Ties: the same samples in another order, other clusters. *)
From Coq Require Import List Arith Lia Bool ZArith QArith Qcanon Permutation.
From Verif Require Import Prelude Order Size Num Graph M_Kruskal M_KruskalEntry S_Kruskal S_CoreGraph P_PrecomputedTop P_EpsilonTop
  M_TreeQuery S_SpaceTree M_Linkage M_Condense M_Select M_Labels M_Pipeline S_Pipeline P_PipelineEx S_Unique P_Relabel.
Import ListNotations.
Local Open Scope nat_scope.

Definition q (z : Z) : QInf := Some (Q2Qc (inject_Z z)).

(** Distances between places on a line. *)
Definition line (xs : list Z) (i j : nat) : QInf := q (Z.abs (nth i xs 0%Z - nth j xs 0%Z)).

Definition brute_run (xs : list Z) (ms mcs : nat) (m : selection_method) (allow : bool) : res (list (edge QInf) * list Z * list QInf) :=
  let* (M, _, _) := kruskal_mst_brute (Some 0%Qc : QInf) (line xs) (length xs) ms CLNone in
  let* (ls, ps, _) := exact_clusters (fun _ => None) by_parent_of (exact_settings (Sz := NatSize) mcs m allow 0%Qc 0%Qc) M in
  Ok (M, ls, ps).
Definition labels_of (r : res (list (edge QInf) * list Z * list QInf)) : option (list Z) :=
  match r with Ok (_, ls, _) => Some ls | Err _ => None end.
Definition strengths_of (r : res (list (edge QInf) * list Z * list QInf)) : option (list (option Q)) :=
  match r with Ok (_, _, ps) => Some (map (fun s : QInf => option_map this (s : option Qc)) ps) | Err _ => None end.

Definition tied : list Z := [0; 1; 3; 4; 6; 7; 8]%Z.

Definition distinctb {W : WOrd} (M : list (edge W)) : bool :=
  forallb (fun i => forallb (fun j => (i =? j) || negb (wle (nth i (map ewt M) winf) (nth j (map ewt M) winf)) || negb (wle (nth j (map ewt M) winf) (nth i (map ewt M) winf)))
    (seq 0 (length M))) (seq 0 (length M)).
Lemma distinct_by {W : WOrd} (M : list (edge W)) : distinctb M = true -> distinct_weights M.
Proof.
  intros H i j e f Hi Hj H1 H2. unfold distinctb in H. rewrite forallb_forall in H.
  assert (Li : i < length M) by (apply nth_error_Some; congruence). assert (Lj : j < length M) by (apply nth_error_Some; congruence).
  specialize (H i ltac:(apply in_seq; lia)). rewrite forallb_forall in H. specialize (H j ltac:(apply in_seq; lia)).
  assert (N : forall k g, nth_error M k = Some g -> nth k (map ewt M) winf = ewt g).
  { intros k g Hk. apply nth_error_nth. now rewrite nth_error_map, Hk. }
  rewrite (N i e Hi), (N j f Hj), H1, H2, !orb_false_r in H. now apply Nat.eqb_eq.
Qed.
Definition positiveb (M : list (edge QInf)) : bool := forallb (fun e => wlt (Some 0%Qc : QInf) (ewt e)) M.
Lemma positive_by M : positiveb M = true -> forall e, In e M -> wlt (Some 0%Qc : QInf) (ewt e) = true.
Proof. unfold positiveb. rewrite forallb_forall. auto. Qed.

Definition tree_of_run (r : res (list (edge QInf) * list Z * list QInf)) : list (edge QInf) :=
  match r with Ok (M, _, _) => M | Err _ => [] end.
Lemma run_parts xs ms mcs m allow ls : labels_of (brute_run xs ms mcs m allow) = Some ls ->
  exists nbrs core ps T, kruskal_mst_brute (Some 0%Qc : QInf) (line xs) (length xs) ms CLNone = Ok (tree_of_run (brute_run xs ms mcs m allow), nbrs, core) /\
    exact_clusters (fun _ => None) by_parent_of (exact_settings (Sz := NatSize) mcs m allow 0%Qc 0%Qc) (tree_of_run (brute_run xs ms mcs m allow)) = Ok (ls, ps, T).
Proof.
  unfold brute_run. destruct (kruskal_mst_brute _ _ _ _ _) as [[[M nb] co]|] eqn:E1; [|discriminate]. cbn [bind].
  destruct (exact_clusters _ _ _ M) as [[[ls0 ps] T]|] eqn:E2; [|discriminate]. cbn. intro H. injection H as <-. eauto 10.
Qed.
Lemma line_sym xs i j : line xs i j = line xs j i.
Proof. unfold line. assert (E : Z.abs (nth i xs 0%Z - nth j xs 0%Z) = Z.abs (nth j xs 0%Z - nth i xs 0%Z)) by lia. now rewrite E. Qed.

Lemma ties_refuted : exists n mcs m p (D D' : nat -> nat -> QInf) M nbrs core ls ps T M' nbrs' core' ls' ps' T',
  reorders n p /\ (forall i j, i < n -> j < n -> D i j = D j i) /\ (forall i j, i < n -> j < n -> D' i j = D (p i) (p j)) /\
  kruskal_mst_brute (Some 0%Qc : QInf) D n 1 CLNone = Ok (M, nbrs, core) /\
  exact_clusters (fun _ => None) by_parent_of (exact_settings (Sz := NatSize) mcs m false 0%Qc 0%Qc) M = Ok (ls, ps, T) /\
  kruskal_mst_brute (Some 0%Qc : QInf) D' n 1 CLNone = Ok (M', nbrs', core') /\
  exact_clusters (fun _ => None) by_parent_of (exact_settings (Sz := NatSize) mcs m false 0%Qc 0%Qc) M' = Ok (ls', ps', T') /\
  (forall e, In e M -> wlt (Some 0%Qc : QInf) (ewt e) = true) /\
  (forall x, x < n -> nth x ls 0%Z <> (-1)%Z) /\ (forall x, x < n -> nth x ls' 0%Z = (-1)%Z).
Proof.
  destruct (run_parts tied 1 3 Eom false [0; 0; 0; 0; 1; 1; 1]%Z) as (nb & co & ps & T & E1 & E2); [vm_compute; reflexivity|].
  destruct (run_parts (rev tied) 1 3 Eom false (repeat (-1)%Z 7)) as (nb' & co' & ps' & T' & E1' & E2'); [vm_compute; reflexivity|].
  exists 7, 3, Eom, (fun x => 6 - x), (line tied), (line (rev tied)). do 12 eexists.
  split; [split; intros; lia|]. split; [intros; apply line_sym|]. split.
  { intros i j Hi Hj. unfold line. rewrite !rev_nth by (cbn; lia). reflexivity. }
  split; [exact E1|]. split; [exact E2|]. split; [exact E1'|]. split; [exact E2'|]. split; [apply positive_by; vm_cast_no_check (eq_refl true)|].
  clear. split; intros x Hx; do 7 (destruct x as [|x]; [try discriminate; reflexivity|]); lia.
Qed.

(** A single leaf with the trivial bound. *)
Definition flat_tree (n : nat) : space_tree :=
  {| t_nodes := 1; t_idx := fun k => k; t_start := fun _ => 0; t_end := fun _ => n; t_leaf := fun _ => true |}.
Lemma flat_shape n : 0 < n -> tree_shape (flat_tree n) n.
Proof.
  intro Hn. split; cbn; auto.
  - intros node _ H. discriminate.
  - rewrite map_id. apply Permutation_refl.
Qed.
Lemma flat_bounds n xs : lower_bounds (flat_tree n) (line xs) (fun _ _ => Some 0%Qc : QInf).
Proof.
  intros p node x _ _. unfold line, q. apply Qcleb_le. unfold Qcle. change (0 <= Qred (inject_Z (Z.abs (nth p xs 0%Z - nth x xs 0%Z))))%Q. rewrite Qred_correct. unfold Qle. cbn [Qnum Qden inject_Z]. lia.
Qed.
