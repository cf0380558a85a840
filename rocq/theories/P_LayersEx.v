(** Summary lemmas and an example for the multi-resolution clustering. *)
From Coq Require Import List Arith Lia Bool ZArith QArith Qcanon Sorted Permutation.
From Verif Require Import Prelude Order Size Num M_Linkage S_Linkage M_Condense S_Condense P_CondenseTop M_Select S_Select P_CTree P_Below
  M_Labels S_Labels P_LabelsEx M_Layers S_Layers P_Peaks P_Barcode P_LayerSets P_LayersRun P_LayerCurve P_LayerSelect P_LayerSearch P_LayersTop P_LayersBase.
Import ListNotations.
Local Open Scope nat_scope.

Lemma alive_clustering {W V : WOrd} {D : Type} (lam : W -> V) (n : nat) (L : list (lrow W NatSize)) (death_of : V -> D) (zero : D)
    (garbage : nat -> nat) (garbage_lambda : nat -> D) (m : nat) (T : list (crow V NatSize)) :
  dendrogram n L -> sizes_are (Sz := NatSize) n (fun _ => 1) L -> 2 <= n -> 2 <= m ->
  tree_of lam n L m T -> cluster_rows n T <> [] ->
  exists b, min_cluster_size_barcode death_of zero n garbage garbage_lambda (cluster_rows n T) m = Ok b /\
    right_barcode n T death_of zero m b /\
    forall s, m <= s < n ->
      (alive b s = [0] \/ (~ In 0 (alive b s) /\ 2 <= length (alive b s))) /\
      (forall i j x, In i (alive b s) -> In j (alive b s) -> below n T (i + n) x -> below n T (j + n) x -> i = j) /\
      (forall T', tree_of lam n L (S s) T' ->
        (forall i, In i (alive b s) -> exists l, leaf_cluster n T' l /\ forall x, below n T (i + n) x <-> below n T' l x) /\
        (forall l, leaf_cluster n T' l -> exists i, In i (alive b s) /\ forall x, below n T (i + n) x <-> below n T' l x)).
Proof.
  intros HG HS Hn Hm Ht Hne. pose proof Ht as (_ & HT & _ & HSO).
  destruct (barcode_ok n (fun _ => 1) m T HT HSO death_of zero m garbage garbage_lambda Hne) as (b & E & HB). exists b. split; auto. split; auto.
  intros s Hs. split; [eapply alive_cases; eauto|]. split.
  - intros i j x Hi Hj H1 H2. assert (i + n = j + n); [|lia].
    eapply (alive_samples n (fun _ => 1) m T HT death_of zero m b HB s); eauto; try lia; apply in_map_iff; eauto.
  - intros T' Ht'. destruct (alive_leaves lam n L HG HS Hn death_of zero b m s T T' ltac:(lia) ltac:(lia) Ht Ht' HB) as [H1 H2]. split.
    + intros i Hi. apply H1. apply in_map_iff; eauto.
    + intros l Hl. destruct (H2 l Hl) as (c & Hc & Hx). apply in_map_iff in Hc as (i & <- & Hi). eauto.
Qed.

Lemma similarity_ok {D} (b : barcode D) s s' :
  jaccard_index (alive b s) (alive b s') (estimate_cluster_similarity b s s') /\
  (0 <= estimate_cluster_similarity b s s')%Q /\ (estimate_cluster_similarity b s s' <= 1)%Q.
Proof.
  assert (H : jaccard_index (alive b s) (alive b s') (estimate_cluster_similarity b s s')) by (apply jaccard_ok, NoDup_filter, seq_NoDup).
  split; auto. eapply jaccard_index_bounds; eauto.
Qed.

Lemma leaves_number_falls {W V : WOrd} (lam : W -> V) (n : nat) (L : list (lrow W NatSize)) j k S S' :
  dendrogram n L -> sizes_are (Sz := NatSize) n (fun _ => 1) L -> heights_sorted L ->
  (forall x y, wle x y = true -> wle (lam y) (lam x) = true) -> 2 <= n -> 2 <= j -> j <= k ->
  leaves_at lam L j = Ok S -> leaves_at lam L k = Ok S' -> length S' <= length S.
Proof.
  intros HG HS HH Hl Hn Hj Hk E E'. unfold leaves_at, condensed_at in E, E'.
  destruct (tree_at lam n L HG HS HH Hl Hn j Hj) as (T & Ht). destruct (tree_at lam n L HG HS HH Hl Hn k ltac:(lia)) as (T' & Ht').
  rewrite (proj1 Ht) in E. rewrite (proj1 Ht') in E'. cbn [bind] in E, E'.
  eapply (leaves_fall lam n L HG HS HH Hl Hn j k T T'); eauto.
Qed.

(** ** Sorting functions that meet the hypotheses *)
Definition sort_indices {P : WOrd} (l : list P) : list nat := isort (fun i => nth i l winf) (seq 0 (length l)).
Definition sort_indices_Z (l : list Z) : list nat := isort (W := ZInf) (fun i => Some (nth i l 0%Z)) (seq 0 (length l)).

Lemma sort_indices_ok (P : WOrd) : argsorts (@sort_indices P).
Proof. intro l. split; [symmetry; apply isort_perm|apply isort_sorted]. Qed.

Lemma sort_indices_Z_ok : argsorts_Z sort_indices_Z.
Proof.
  intro l. split; [symmetry; apply isort_perm|]. pose proof (isort_sorted (W := ZInf) (fun i => Some (nth i l 0%Z)) (seq 0 (length l))) as H.
  unfold sorted_by in H. unfold sort_indices_Z. induction H as [|a l' H IH Hf]; constructor; auto.
  eapply Forall_impl; [|exact Hf]. cbn. intros b Hb. now apply Z.leb_le.
Qed.

Lemma hdbscan_lambda_nonneg (x : QInf) : wle (la_zero ExactLam) (hdbscan_lambda_value x) = true.
Proof.
  destruct x as [d|]; cbn; [|reflexivity]. destruct (Qcleb d 0) eqn:E; auto. apply Qcleb_gt in E. apply Qcleb_le. apply Qclt_le_weak, Qcinv_pos. auto.
Qed.

(** ** Fifteen samples: 3 and 4 join before they meet the other 8 *)
Definition yq (z : Z) : QInf := Some (Q2Qc (inject_Z z)).
Definition yrow (a b : nat) (d : Z) (s : nat) : lrow QInf NatSize := {| l_a := a; l_b := b; l_d := yq d; l_n := s |}.
Definition yd : list (lrow QInf NatSize) :=
  [yrow 0 1 1 2; yrow 15 2 1 3; yrow 3 4 1 2; yrow 17 5 1 3; yrow 18 6 1 4; yrow 7 8 1 2; yrow 20 9 1 3; yrow 21 10 1 4;
   yrow 22 11 1 5; yrow 23 12 1 6; yrow 24 13 1 7; yrow 25 14 1 8; yrow 16 19 2 7; yrow 27 26 3 15].

Lemma yd_dendrogram : dendrogram 15 yd.
Proof. apply dendrogram_checked. reflexivity. Qed.
Lemma yd_sizes : sizes_are (Sz := NatSize) 15 (fun _ => 1) yd.
Proof. apply sizes_checked; reflexivity. Qed.
Lemma yd_heights : heights_sorted yd.
Proof. repeat constructor. Qed.
Lemma yd_finite r : In r yd -> wle (hdbscan_lambda_value (l_d r)) (la_zero ExactLam) = false.
Proof.
  assert (H : forallb (fun r => negb (wle (hdbscan_lambda_value (l_d r)) (la_zero ExactLam))) yd = true) by (vm_compute; reflexivity).
  rewrite forallb_forall in H. intro Hr. apply negb_true_iff. auto.
Qed.

Definition y_death (v : QInf) : Qc := match v with Some q => q | None => 1%Qc end.
Definition y_add (p : QInf) (birth death : nat) (l : Qc) : QInf :=
  match p with Some q => Some (q + (Q2Qc (inject_Z (Z.of_nat death)) - Q2Qc (inject_Z (Z.of_nat birth)) * l))%Qc | None => None end.
Definition yrun (base_m : nat) (base_n : option nat) (threshold : Q) (max_layers : nat) :=
  layers_from_linkage_tree (P := QInf) hdbscan_lambda_value hdbscan_lambda_value ExactLam y_death 0%Qc (fun _ => 7) (fun _ => 0%Qc) (yq 0) y_add
    sort_indices sort_indices_Z yd 15 base_m base_n threshold max_layers.
