(** Exact sub-clusters: instances and examples. *)
From Coq Require Import List Arith Lia Bool ZArith QArith Qcanon Permutation Relations Sorted.
From Verif Require Import Prelude Order Graph UF Size Num M_DisjointSet M_Kruskal M_Precomputed M_Linkage M_Condense M_Select M_Labels M_CoreGraph
  M_Pipeline M_Estimator M_Layers M_LayerTree M_SubClusters M_LensGraph S_Kruskal S_Precomputed S_CoreGraph S_Labels S_Pipeline S_LayerTree S_SubClusters
  P_Sort P_EpsilonTop P_PipelineEx P_SubClusters P_Propagate P_PropagateTop P_Branches P_LensGraph P_SubRun P_SubTop.
Import ListNotations.
Local Open Scope nat_scope.

Definition q (k : Z) : QInf := Some (Q2Qc (inject_Z k)).

(** [1 / w] on exact numbers, which raises for zero. *)
Definition exact_inv (w : QInf) : res QInf :=
  match w with
  | None => Ok (Some 0%Qc)
  | Some d => if Qc_eq_bool d 0 then Err ZeroDivisionError else Ok (Some (/ d)%Qc)
  end.
Definition exact_add (a b : QInf) : QInf := match a, b with Some x, Some y => Some (x + y)%Qc | _, _ => None end.
Definition exact_average (a b : QInf) : QInf := match a, b with Some x, Some y => Some ((x + y) / Q2Qc 2)%Qc | _, _ => None end.

Definition exact_sort (row : list (nat * QInf)) : list (nat * QInf) := isort (fun cw : nat * QInf => snd cw) row.
Lemma exact_sorts l : Permutation (exact_sort l) l /\ sorted_by (fun cw : nat * QInf => snd cw) (exact_sort l).
Proof. split; [apply Permutation_sym, isort_perm|apply isort_sorted]. Qed.

Definition exact_tree (m : selection_method) (mcs : nat) (M : list (edge QInf)) : res (list Z * list QInf) :=
  cluster_tree hdbscan_lambda_value ExactLam (ExactArith NatSize nat_as_q) (fun _ => None) by_parent_of
    (exact_settings (Sz := NatSize) mcs m false 0%Qc 0%Qc) M.

(** A run without rounding. *)
Definition exact_run (m : selection_method) (mcs : nat) (labels : list Z) (neighbors : list (list (option nat))) (mst : list (edge QInf)) (lens_callback : nat -> list QInf) :=
  find_sub_clusters (fun w => w) exact_sort exact_average (Some 0%Qc) (Some 1%Qc) (Some 0%Qc) (exact_tree m mcs) labels (fun _ => Some 1%Qc)
    neighbors mst lens_callback.

(** ** Checking the hypotheses on the input *)
Section Check.
  Variables (labels : list Z) (neighbors : list (list (option nat))) (mst : list (edge QInf)) (lens_callback : nat -> list QInf) (K : nat).
  Let N := length labels.

  Definition children (x : nat) : list nat :=
    flat_map (fun c => match c with Some y => [y] | None => [] end) (nth x neighbors []) ++
    map edst (filter (fun e => esrc e =? x) mst).

  Definition sub_check : bool :=
    (0 <? K) && forallb (fun l => (-1 <=? l)%Z && (l <? Z.of_nat K)%Z) labels &&
    forallb (fun k => 2 <=? length (members labels (Z.of_nat k))) (seq 0 K) &&
    forallb (fun x => forallb (fun c => match c with Some _ => true | None => false end) (nth x neighbors [])) (seq 0 N) &&
    forallb (fun x => forallb (fun y => (y <? N) && negb (y =? x)) (children x)) (seq 0 N) &&
    forallb (fun x => (nth x labels (-1) =? -1)%Z || existsb (fun y => (y <? N) && (nth y labels (-1) =? nth x labels (-1))%Z) (children x)) (seq 0 N) &&
    forallb (fun k => length (lens_callback k) =? length (members labels (Z.of_nat k))) (seq 0 K).

  Lemma children_in x y : In y (children x) <-> linked neighbors mst x y.
  Proof.
    unfold children, linked. rewrite in_app_iff, in_flat_map, in_map_iff. split.
    - intros [([z|] & Hc & H)|([[a b] w] & E & H)].
      + destruct H as [<-|[]]. auto.
      + destruct H.
      + apply filter_In in H as [H Hx]. apply Nat.eqb_eq in Hx. unfold esrc, edst in *. cbn in *. subst. right. eauto.
    - intros [H|(d & H)].
      + left. exists (Some y). split; auto. now left.
      + right. exists (x, y, d). split; auto. apply filter_In. split; auto. apply Nat.eqb_refl.
  Qed.

  Lemma sub_check_ok : sub_check = true -> sub_input labels neighbors mst lens_callback K.
  Proof.
    unfold sub_check. rewrite !andb_true_iff, !forallb_forall. intros ((((((H1 & H2) & H3) & H4) & H5) & H6) & H7).
    apply Nat.ltb_lt in H1. split; auto.
    - intros l Hl. apply H2 in Hl. lia.
    - intros k Hk. assert (Hs : In k (seq 0 K)) by (apply in_seq; lia). apply H3, Nat.leb_le in Hs.
      pose proof (members_nodup labels k) as HN. pose proof (members_in labels k) as HM.
      destruct (members labels (Z.of_nat k)) as [|x [|y l]]; simpl in Hs; try lia. exists x, y.
      split; [inversion_clear HN as [|? ? H _]; intro; apply H; now left|]. split; apply HM; simpl; auto.
    - intros x Hx Hn. assert (Hs : In x (seq 0 N)) by (apply in_seq; unfold N; lia). apply H4 in Hs. rewrite forallb_forall in Hs.
      apply Hs in Hn. discriminate.
    - intros x y Hx Hl. assert (Hs : In x (seq 0 N)) by (apply in_seq; unfold N; lia). apply H5 in Hs. rewrite forallb_forall in Hs.
      apply children_in, Hs in Hl. apply andb_true_iff in Hl as [E1 E2]. apply Nat.ltb_lt in E1. apply negb_true_iff, Nat.eqb_neq in E2. auto.
    - intros x k Hx. assert (Hlt : x < N) by (apply nth_error_Some; congruence).
      assert (Hs : In x (seq 0 N)) by (apply in_seq; unfold N in *; lia). apply H6 in Hs.
      rewrite (nth_error_nth _ _ _ Hx) in Hs. apply orb_true_iff in Hs as [Hs|Hs]; [apply Z.eqb_eq in Hs; lia|].
      apply existsb_exists in Hs as (y & Hy & Hs). apply andb_true_iff in Hs as [E1 E2]. apply Nat.ltb_lt in E1. apply Z.eqb_eq in E2.
      exists y. split; [now apply children_in|]. rewrite <- E2. now apply nth_error_nth'.
    - intros k pts Hk HN HM. assert (Hs : In k (seq 0 K)) by (apply in_seq; lia). apply H7, Nat.eqb_eq in Hs. rewrite Hs.
      apply Permutation_length, NoDup_Permutation; auto using members_nodup. intro x. now rewrite members_in, HM.
  Qed.
End Check.

(** ** Examples *)
Definition see {A} (n : nat) (r : res ((nat -> Z) * A)) : option (list Z) := match r with Ok (f, _) => Some (map f (seq 0 n)) | Err _ => None end.
Definition see_run (n : nat) (r : res (joined QInf QInf * list (list nat * sub_result QInf QInf))) : option (list Z) :=
  match r with Ok (s, _) => Some (map (j_labels s) (seq 0 n)) | Err _ => None end.
Definition see_propagated (n : nat) (r : res (joined QInf QInf * list (list nat * sub_result QInf QInf))) : option (list Z) :=
  see n (let* found := r in propagated exact_inv exact_add (Some 0%Qc : QInf) n found).
Definition see_branches (n : nat) (sides : bool) (r : res (joined QInf QInf * list (list nat * sub_result QInf QInf))) : option (list Z) :=
  see n (let* found := r in branches (V := QInf) sides (fun _ => Some 1%Qc) found).

(** Two clusters and a noise sample.  The first has two sub-clusters and an
    outlier; the second two components. *)
Definition sub_labels : list Z := [0; 0; 0; 0; 0; 0; 0; 0; 1; 1; 1; 1; -1]%Z.
Definition sub_neighbors : list (list (option nat)) :=
  [[Some 1]; [Some 0; Some 2]; [Some 1; Some 3]; [Some 2; Some 4]; [Some 3; Some 5]; [Some 4]; [Some 8; Some 5]; [Some 3];
   [Some 9; Some 6]; [Some 8]; [Some 11]; [Some 10; Some 12]; [Some 11]].
Definition sub_mst : list (edge QInf) := [(5, 6, q 1); (6, 8, q 9); (11, 12, q 3)].
Definition sub_lens (k : nat) : list QInf := match k with 0 => [q 1; q 1; q 1; q 5; q 2; q 2; q 2; q 8] | 1 => [q 1; q 1; q 1; q 1] | _ => [] end.
Definition sub_example := exact_run Eom 3 sub_labels sub_neighbors sub_mst sub_lens.

(** As above, but the second cluster is connected and has no sub-clusters. *)
Definition noise_neighbors : list (list (option nat)) :=
  [[Some 1]; [Some 0; Some 2]; [Some 1; Some 3]; [Some 2; Some 4]; [Some 3; Some 5]; [Some 4]; [Some 8; Some 5]; [Some 3];
   [Some 9; Some 6]; [Some 8]; [Some 11; Some 9]; [Some 10; Some 12]; [Some 11]].

(** Samples 0 and 1 have infinite lens values. *)
Definition inf_labels : list Z := [0; 0; 0; 0; 1; 1; 1; 1]%Z.
Definition inf_neighbors : list (list (option nat)) :=
  [[Some 1]; [Some 0; Some 2]; [Some 3; Some 1]; [Some 2]; [Some 5]; [Some 4]; [Some 7]; [Some 6]].
Definition inf_lens (k : nat) : list QInf := match k with 0 => [None; None; q 1; q 1] | 1 => [q 1; q 1; q 1; q 1] | _ => [] end.

(** Sample 7 has no neighbour in its cluster. *)
Definition iso_labels : list Z := [0; 0; 0; 0; 0; 0; 0; 0; 0]%Z.
Definition iso_neighbors : list (list (option nat)) :=
  [[Some 1]; [Some 0; Some 2]; [Some 1; Some 3]; [Some 2; Some 4; Some 8]; [Some 3; Some 5]; [Some 4; Some 6]; [Some 5]; []; [Some 3]].
Definition iso_lens (k : nat) : list QInf := match k with 0 => [q 1; q 1; q 1; q 5; q 2; q 2; q 2; q 2; q 8] | _ => [] end.

(** Samples 8 and 9 have lens value zero. *)
Definition zero_labels : list Z := [0; 0; 0; 0; 0; 0; 0; 0; 0; 0]%Z.
Definition zero_neighbors : list (list (option nat)) :=
  [[Some 1]; [Some 0; Some 2]; [Some 1; Some 3]; [Some 2; Some 4; Some 7]; [Some 3; Some 5]; [Some 4; Some 6]; [Some 5]; [Some 3; Some 8]; [Some 7; Some 9]; [Some 8]].
Definition zero_lens (k : nat) : list QInf := match k with 0 => [q 1; q 1; q 1; q 5; q 2; q 2; q 2; q 8; q 0; q 0] | _ => [] end.

(** Sample 0 lacks a second neighbour. *)
Definition gap_labels : list Z := [0; 0; 0; 0]%Z.
Definition gap_neighbors : list (list (option nat)) := [[Some 1; None]; [Some 0]; [Some 3]; [Some 2]].
Definition gap_lens (k : nat) : list QInf := match k with 0 => [q 1; q 1; q 1; q 1] | _ => [] end.

Lemma sub_positive k a : k < 2 -> In a (sub_lens k) -> wlt (la_zero ExactLam) (hdbscan_lambda_value a) = true.
Proof.
  intro Hk. assert (H : forallb (fun a => wlt (la_zero ExactLam) (hdbscan_lambda_value a)) (sub_lens 0 ++ sub_lens 1) = true) by (vm_compute; reflexivity).
  rewrite forallb_forall in H. intro Ha. apply H. apply in_app_iff. destruct k as [|[|k]]; auto. lia.
Qed.

Lemma sub_votes k a : k < 2 -> In a (sub_lens k) -> exists v, exact_inv a = Ok v.
Proof.
  intro Hk. assert (H : forallb (fun a => match exact_inv a with Ok _ => true | Err _ => false end) (sub_lens 0 ++ sub_lens 1) = true) by (vm_compute; reflexivity).
  rewrite forallb_forall in H. intro Ha. assert (Hin : In a (sub_lens 0 ++ sub_lens 1)) by (apply in_app_iff; destruct k as [|[|k]]; auto; lia).
  apply H in Hin. destruct (exact_inv a); [eauto|discriminate].
Qed.

Lemma exact_inv_same (a b : QInf) : wle a b = true -> wle b a = true -> exact_inv a = exact_inv b.
Proof.
  destruct a as [x|], b as [y|]; cbn; intros H1 H2; try discriminate; auto.
  assert (x = y) as ->; auto. apply Qcle_antisym; apply Qcleb_le; auto.
Qed.

(** ** What goes wrong outside the hypotheses *)
Lemma infinite_lens_refuted : exists labels neighbors lens_callback s cs x y,
  sub_input labels neighbors [] lens_callback 2 /\
  exact_run Leaf 2 labels neighbors [] lens_callback = Ok (s, cs) /\
  x < length labels /\ y < length labels /\ nth x labels (-1)%Z = 0%Z /\ nth y labels (-1)%Z = 1%Z /\ j_labels s x = j_labels s y.
Proof.
  exists inf_labels, inf_neighbors, inf_lens.
  assert (H : match exact_run Leaf 2 inf_labels inf_neighbors [] inf_lens with Ok (s, _) => Z.eqb (j_labels s 2) (j_labels s 4) | Err _ => false end = true) by (vm_compute; reflexivity).
  destruct (exact_run Leaf 2 inf_labels inf_neighbors [] inf_lens) as [[s cs]|] eqn:E; [|discriminate].
  exists s, cs, 2, 4. split; [apply sub_check_ok; vm_compute; reflexivity|]. split; [reflexivity|]. clear E. apply Z.eqb_eq in H. cbn [length inf_labels]. split; [lia|]. split; [lia|]. split; [reflexivity|]. split; [reflexivity|exact H].
Qed.

Lemma no_sub_clusters_refuted : exists labels neighbors mst lens_callback s cs labels' sub' x y,
  sub_input labels neighbors mst lens_callback 2 /\
  (forall k a, k < 2 -> In a (lens_callback k) -> wlt (la_zero ExactLam) (hdbscan_lambda_value a) = true) /\
  exact_run Eom 3 labels neighbors mst lens_callback = Ok (s, cs) /\
  propagated exact_inv exact_add (Some 0%Qc : QInf) (length labels) (s, cs) = Ok (labels', sub') /\
  x < length labels /\ y < length labels /\ nth x labels (-1)%Z = 0%Z /\ nth y labels (-1)%Z = 1%Z /\ labels' x = labels' y.
Proof.
  exists sub_labels, noise_neighbors, sub_mst, sub_lens.
  assert (H : match exact_run Eom 3 sub_labels noise_neighbors sub_mst sub_lens with
              | Ok (s, cs) => match propagated exact_inv exact_add (Some 0%Qc : QInf) (length sub_labels) (s, cs) with Ok (l, _) => Z.eqb (l 4) (l 8) | Err _ => false end
              | Err _ => false end = true) by (vm_compute; reflexivity).
  destruct (exact_run Eom 3 sub_labels noise_neighbors sub_mst sub_lens) as [[s cs]|] eqn:E; [|discriminate].
  destruct (propagated exact_inv exact_add (Some 0%Qc : QInf) (length sub_labels) (s, cs)) as [[l' s']|] eqn:E'; [|discriminate].
  exists s, cs, l', s', 4, 8. split; [apply sub_check_ok; vm_compute; reflexivity|]. split; [exact sub_positive|]. split; [reflexivity|]. split; [exact E'|]. clear E E'.
  apply Z.eqb_eq in H. cbn [length sub_labels]. split; [lia|]. split; [lia|]. split; [reflexivity|]. split; [reflexivity|exact H].
Qed.

Lemma missing_neighbour_refuted : exists labels neighbors lens_callback s cs E x y,
  lens_edges (fun w => w) neighbors [] [0; 1; 2; 3] (lens_callback 0) E /\ ~ connected E x y /\ x < 4 /\ y < 4 /\
  exact_run Eom 2 labels neighbors [] lens_callback = Ok (s, cs) /\ labels = [0; 0; 0; 0]%Z /\ j_labels s x = j_labels s y.
Proof.
  exists gap_labels, gap_neighbors, gap_lens.
  assert (H : match exact_run Eom 2 gap_labels gap_neighbors [] gap_lens with Ok (s, _) => Z.eqb (j_labels s 0) (j_labels s 2) | Err _ => false end = true) by (vm_compute; reflexivity).
  destruct (exact_run Eom 2 gap_labels gap_neighbors [] gap_lens) as [[s cs]|] eqn:E; [|discriminate].
  set (F := [(0, 1, q 1); (1, 0, q 1); (2, 3, q 1); (3, 2, q 1)] : list (edge QInf)).
  exists s, cs, F, 0, 2. split; [|split; [|split; [lia|split; [lia|]]]].
  - clear E H. intros i j w. unfold F. split.
    + intro Hin. cbn in Hin. repeat (destruct Hin as [Hin|Hin]; [injection Hin as <- <- <-; do 2 eexists; repeat split; left; cbn; auto|]). destruct Hin.
    + intros (x & y & Hx & Hy & [Hl|(d & [])] & ->).
      destruct i as [|[|[|[|i]]]]; cbn in Hx; try (destruct i; discriminate); injection Hx as <-;
      destruct j as [|[|[|[|j]]]]; cbn in Hy; try (destruct j; discriminate); injection Hy as <-; cbn in Hl;
      try (exfalso; repeat (destruct Hl as [Hl|Hl]; try discriminate; try contradiction); fail); cbn; auto.
  - clear E H. intro Hc. assert (Hinv : forall a b, connected F a b -> (a <= 1 <-> b <= 1)).
    { intros a b Hab. induction Hab as [a b Hs|a|a b _ IH|a b c _ IH1 _ IH2]; [|tauto|tauto|tauto].
      destruct Hs as (e & He & Hs). cbn in He. repeat (destruct He as [<-|He]; [unfold esrc, edst in Hs; cbn in Hs; lia|]). destruct He. }
    apply Hinv in Hc. lia.
  - split; [reflexivity|]. split; [reflexivity|]. clear E. apply Z.eqb_eq in H. exact H.
Qed.

Lemma zero_lens_refuted : exists labels neighbors lens_callback s cs,
  sub_input labels neighbors [] lens_callback 1 /\
  (forall a, In a (lens_callback 0) -> wlt (la_zero ExactLam) (hdbscan_lambda_value a) = true) /\
  exact_run Eom 3 labels neighbors [] lens_callback = Ok (s, cs) /\
  forall fuel, propagated exact_inv exact_add (Some 0%Qc : QInf) fuel (s, cs) = Err ZeroDivisionError.
Proof.
  exists zero_labels, zero_neighbors, zero_lens.
  assert (H : forall fuel, match exact_run Eom 3 zero_labels zero_neighbors [] zero_lens with
              | Ok found => match propagated exact_inv exact_add (Some 0%Qc : QInf) fuel found with Err ZeroDivisionError => true | _ => false end
              | Err _ => false end = true) by (intro fuel; vm_compute; reflexivity).
  destruct (exact_run Eom 3 zero_labels zero_neighbors [] zero_lens) as [[s cs]|] eqn:E; [|specialize (H 0); discriminate].
  exists s, cs. split; [apply sub_check_ok; vm_compute; reflexivity|].
  split.
  { assert (Hp : forallb (fun a => wlt (la_zero ExactLam) (hdbscan_lambda_value a)) (zero_lens 0) = true) by (vm_compute; reflexivity).
    rewrite forallb_forall in Hp. exact Hp. }
  split; [reflexivity|]. clear E. intro fuel. specialize (H fuel).
  destruct (propagated exact_inv exact_add (Some 0%Qc : QInf) fuel (s, cs)) as [?|[]]; try discriminate H. reflexivity.
Qed.

Lemma core_graph_kept {W V : WOrd} round sort_row (one : V) (cluster : list (edge W) -> res (list Z * list V)) neighbors mst lens r :
  core_graph_clusters round sort_row one cluster neighbors mst lens = Ok r -> sr_graph r = lens_graph round sort_row neighbors mst lens.
Proof.
  unfold core_graph_clusters. destruct (boruvka_mst _) as [[[k ls] M]|]; cbn [bind]; [|discriminate].
  destruct (1 <? k); [intro H; injection H as <-; reflexivity|]. destruct (cluster M) as [[a b]|]; cbn [bind]; [|discriminate].
  intro H. injection H as <-. reflexivity.
Qed.

(** The places of the neighbours of the isolated sample's cluster. *)
Definition iso_graph : csr QInf := lens_graph (fun w => w) exact_sort iso_neighbors [] (fun i => nth i (iso_lens 0) winf).

Lemma iso_linked i j : i < 9 -> linked iso_neighbors ([] : list (edge QInf)) i j -> j < 9 /\ j <> i /\ i <> 7 /\ j <> 7.
Proof.
  intros Hi [H|(d & [])]. do 9 (destruct i as [|i]; [cbn in H; repeat (destruct H as [H|H]; [try discriminate; injection H as <-; lia|]); contradiction|]). lia.
Qed.

Lemma iso_entries i j w : In (i, j, w) (csr_entries iso_graph) <->
  i < 9 /\ linked iso_neighbors ([] : list (edge QInf)) i j /\ w = wmax (nth i (iso_lens 0) winf) (nth j (iso_lens 0) winf).
Proof.
  unfold iso_graph. rewrite lens_graph_entries; [reflexivity|exact exact_sorts|].
  intros a b Ha Hl. destruct (iso_linked a b Ha Hl) as (? & ? & _). auto.
Qed.

Lemma iso_forever fuel : propagate_labels_per_cluster exact_inv exact_add (Some 0%Qc : QInf) fuel iso_graph [0; 0; 0; 0; 1; 1; 1; -1; -1]%Z = Err OutOfFuel.
Proof.
  apply propagate_forever with (x := 7)
    (v := fun i j => match exact_inv (wmax (nth i (iso_lens 0) winf) (nth j (iso_lens 0) winf)) with Ok v => v | Err _ => Some 0%Qc end).
  - intros [[i j] w] H. apply iso_entries in H as (Hi & Hl & _). destruct (iso_linked i j Hi Hl) as (Hj & _). unfold esrc, edst. cbn. lia.
  - intros i j w H. apply iso_entries in H as (Hi & Hl & ->). destruct (iso_linked i j Hi Hl) as (Hj & _).
    assert (Hv : forall a, In a (iso_lens 0) -> exists v, exact_inv a = Ok v).
    { assert (Hb : forallb (fun a => match exact_inv a with Ok _ => true | Err _ => false end) (iso_lens 0) = true) by (vm_compute; reflexivity).
      rewrite forallb_forall in Hb. intros a Ha. apply Hb in Ha. destruct (exact_inv a); [eauto|discriminate]. }
    assert (Hs : exact_inv (wmax (nth j (iso_lens 0) winf) (nth i (iso_lens 0) winf)) = exact_inv (wmax (nth i (iso_lens 0) winf) (nth j (iso_lens 0) winf)))
      by (apply exact_inv_same; apply wmax_lub; auto using wmax_l, wmax_r).
    rewrite Hs. destruct (wmax_cases (nth i (iso_lens 0) winf) (nth j (iso_lens 0) winf)) as [-> | ->].
    + destruct (Hv (nth i (iso_lens 0) winf)) as (v & ->); [apply nth_In; exact Hi|auto].
    + destruct (Hv (nth j (iso_lens 0) winf)) as (v & ->); [apply nth_In; exact Hj|auto].
  - cbn. lia.
  - assert (Hinv : forall a b, connected (csr_entries iso_graph) a b -> (a = 7 <-> b = 7)).
    { intros a b Hab. induction Hab as [a b Hs|a|a b _ IH|a b c _ IH1 _ IH2]; [|tauto|tauto|tauto].
      destruct Hs as ([[i j] w] & He & E1 & E2). apply iso_entries in He as (Hi & Hl & _). apply iso_linked in Hl; auto. unfold esrc, edst in *. cbn in *. lia. }
    intros y Hy. apply Hinv in Hy. rewrite (proj1 Hy eq_refl). reflexivity.
Qed.

Lemma isolated_refuted : exists labels neighbors lens_callback s cs x,
  (forall l, In l labels -> l = 0%Z) /\ x < length labels /\ j_sub s x <> (-1)%Z /\
  (forall a b, a < length labels -> linked neighbors ([] : list (edge QInf)) a b -> b < length labels /\ b <> a) /\
  exact_run Eom 3 labels neighbors [] lens_callback = Ok (s, cs) /\
  forall fuel, propagated exact_inv exact_add (Some 0%Qc : QInf) fuel (s, cs) = Err OutOfFuel.
Proof.
  exists iso_labels, iso_neighbors, iso_lens.
  assert (Hrun : exact_run Eom 3 iso_labels iso_neighbors [] iso_lens = exact_run Eom 3 iso_labels iso_neighbors [] iso_lens) by reflexivity.
  unfold exact_run at 2, find_sub_clusters, sub_clusters_per_cluster in Hrun. change (num_clusters iso_labels) with (Ok 1) in Hrun. cbn [bind seq map_res] in Hrun.
  destruct (sub_clusters_in_cluster (fun w => w) exact_sort (Some 1%Qc : QInf) (exact_tree Eom 3) iso_labels iso_neighbors [] iso_lens 0) as [r|] eqn:Er.
  2:{ exfalso. assert (H : match sub_clusters_in_cluster (fun w => w) exact_sort (Some 1%Qc : QInf) (exact_tree Eom 3) iso_labels iso_neighbors [] iso_lens 0 with Ok _ => true | _ => false end = true) by (vm_compute; reflexivity).
      rewrite Er in H. discriminate. }
  cbn [bind length seq combine map fst snd] in Hrun.
  assert (Hg : sr_graph r = iso_graph).
  { unfold sub_clusters_in_cluster in Er. apply core_graph_kept in Er. rewrite Er. reflexivity. }
  assert (H : match exact_run Eom 3 iso_labels iso_neighbors [] iso_lens with
              | Ok (s, _) => map (j_sub s) [0; 1; 2; 3; 4; 5; 6; 7; 8] | Err _ => [] end = [0; 0; 0; 0; 1; 1; 1; -1; -1]%Z) by (vm_compute; reflexivity).
  clear Er. destruct (exact_run Eom 3 iso_labels iso_neighbors [] iso_lens) as [[s cs]|] eqn:E; [|discriminate].
  destruct (update_labels _ _ _ _ _) as [s'|]; [|discriminate Hrun]. cbn [bind] in Hrun. injection Hrun as <- ->.
  exists s, [(members iso_labels (Z.of_nat 0), r)], 0. split.
  { intros l Hl. cbn in Hl. repeat (destruct Hl as [<-|Hl]; [reflexivity|]). destruct Hl. }
  split; [cbn; lia|]. split; [cbn [map] in H; injection H; intros; congruence|].
  split; [intros a b Ha Hl; destruct (iso_linked a b Ha Hl) as (? & ? & _); auto|]. split; [reflexivity|].
  clear E. intro fuel. unfold propagated, propagate_sub_cluster_labels. cbn [map fst snd]. rewrite Hg. cbn [propagate_loop].
  change (members iso_labels (Z.of_nat 0)) with [0; 1; 2; 3; 4; 5; 6; 7; 8]. rewrite H.
  change (unique_Z [0; 0; 0; 0; 1; 1; 1; -1; -1]%Z) with [-1; 0; 1]%Z. cbn [first_unique bind]. change ((-1 =? -1)%Z && (1 <? length [-1; 0; 1]%Z)) with true.
  cbn iota. rewrite iso_forever. reflexivity.
Qed.
