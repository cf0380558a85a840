(** The algorithm for labelled rows and graphs; objects that are fitted in
    different ways on points on a line and on graphs. *)
From Coq Require Import List Arith Lia Bool ZArith Permutation QArith Qcanon.
From Verif Require Import Prelude Order Graph Size Num S_Kruskal M_Kruskal M_KruskalEntry M_Precomputed S_Precomputed P_PrecomputedTop M_Linkage S_Linkage M_Condense S_Condense M_Select M_Labels
  M_Pipeline S_Pipeline P_PipelineRun P_PipelineEx P_PipelineMeaning M_BCubed S_BCubed P_BCScore P_Semi P_SemiTop M_Estimator S_Estimator P_EomValue P_EpsilonTop P_Estimator P_EstimatorEx
  M_SemiFit M_Session S_Session P_Session M_SessionMixed S_SessionMixed P_SessionMixed.
Import ListNotations.
Local Open Scope nat_scope.

Section Run.
  Context {P : Type} {W V : WOrd} {Row Graph : Type}.
  Variables (lam : W -> V) (LA : LamArith V) (garbage : nat -> V) (mst_of : P -> list Row -> res (list (edge W))) (nodes : Graph -> nat) (graph_mst : P -> Graph -> res (list (edge W)))
    (A : Arith V NatSize) (B : BArith) (NN : bscore B -> Prop) (by_parent : list (crow V NatSize) -> list (crow V NatSize)) (listed : list nat -> list nat)
    (st : P -> settings V NatSize) (virtual : P -> bool) (valid : P -> bool).
  Hypothesis HK : forall p, valid p = true -> setting_ok lam LA A by_parent (st p).
  Hypothesis HB : BLaws B NN.
  Hypothesis Hlisted : forall l, Permutation (listed l) l.
  Hypothesis Hleaf : forall p n, valid p = true -> 0 < n -> leaves_ok A (la_zero LA) n (fun _ => 1) (min_cluster_size (st p)).
  Hypothesis HM : forall p rows M, 2 <= length rows -> mst_of p rows = Ok M -> spanning_tree (length rows) M.
  Hypothesis HG : forall p g M, 2 <= nodes g -> graph_mst p g = Ok M -> spanning_tree (nodes g) M.

  Lemma some_rows (T : list (crow V NatSize)) n mcs : 2 <= n -> condensed (Sz := NatSize) n (fun _ => 1) mcs T -> T <> [].
  Proof. intros Hn HT EN. pose proof (Permutation_length (ct_samples _ _ _ _ HT)) as H. rewrite EN, map_length, seq_length in H. cbn in H. lia. Qed.
  Lemma some_merges n M (L : list (lrow W NatSize)) : 2 <= n -> linkage_facts (Sz := NatSize) n (fun _ => 1) M L -> L <> [].
  Proof. intros Hn (HD & _) EN. pose proof (dg_len _ _ HD) as H. rewrite EN in H. cbn in H. lia. Qed.

  Lemma semi_complete : complete_run (fun p rows => if valid p then semi_fast_hdbscan lam LA garbage (mst_of p) A B by_parent listed (st p) (virtual p) rows else Err ValueError).
  Proof.
    intros p rows r E. destruct (valid p) eqn:EV; [|discriminate]. specialize (HK p EV). destruct rows as [|x [|y rows]].
    - discriminate.
    - injection E as <-. cbn. split; [discriminate|]. split; auto. split; auto. lia.
    - set (X := x :: y :: rows) in *. assert (H2 : 2 <= length X) by (cbn; lia). split; [discriminate|]. revert E.
      unfold semi_fast_hdbscan. destruct (Nat.eqb_spec (length X) 0) as [|_]; [lia|]. destruct (Nat.ltb_spec (length X) 2) as [|_]; [lia|].
      destruct (mst_of p (map fst X)) as [M|] eqn:EM; [|discriminate]. cbn [bind].
      assert (HMs : spanning_tree (length X) M) by (rewrite <- (map_length fst); apply (HM p); [now rewrite map_length|exact EM]).
      destruct (linkage_plain (length X) M HMs) as (L & EL & HL). rewrite EL. cbn [bind].
      destruct (semi_clusters_from_linkage_tree _ _ _ _ _ _ _ _ _ _ _ _ L) as [[[ls ps] T]|] eqn:ER; [|discriminate]. cbn [bind fst snd]. intros [= <-]. cbn [f_labels f_probabilities f_condensed f_linkage f_mst].
      destruct (c48_total lam LA A B NN garbage by_parent listed (st p) (map snd X) (virtual p) (length X) M HK HB Hlisted (map_length _ _) (Hleaf p (length X) EV (Nat.lt_le_trans 0 2 _ Nat.lt_0_2 H2)) HMs H2) as [(ls' & ps' & T' & E' & HCl & HT & _)|[_ E']].
      + unfold semi_clusters_from_spanning_tree in E'. rewrite EL in E'. cbn [bind] in E'. rewrite ER in E'. injection E' as <- <- <-.
        split; [apply (cl_labels _ _ _ _ _ HCl)|]. split; [apply (cl_strengths _ _ _ _ _ HCl)|]. intros _. split; [exact (some_rows T _ _ H2 HT)|exact (some_merges _ _ L H2 HL)].
      + unfold semi_clusters_from_spanning_tree in E'. rewrite EL in E'. cbn [bind] in E'. rewrite ER in E'. discriminate.
  Qed.

  Lemma graph_complete p g y r :
    (if valid p && match y with Some l => length l =? nodes g | None => true end then graph_fast_hdbscan lam LA garbage nodes (graph_mst p) A B by_parent listed (st p) (virtual p) g y else Err ValueError) = Ok r ->
    length (f_labels r) = nodes g /\ length (f_probabilities r) = nodes g /\ (2 <= nodes g -> f_condensed r <> [] /\ f_linkage r <> [] /\ spanning_tree (nodes g) (f_mst r)).
  Proof.
    destruct (valid p) eqn:EV; [|discriminate]. specialize (HK p EV). cbn [andb].
    destruct (match y with Some l => _ | None => _ end) eqn:EY; [|discriminate].
    unfold graph_fast_hdbscan. destruct (Nat.ltb_spec (nodes g) 2) as [H2|H2].
    - intros [= <-]. cbn. rewrite !repeat_length, seq_length. split; auto. split; auto. intro K. exfalso. lia.
    - destruct (graph_mst p g) as [M|] eqn:EM; [|discriminate]. cbn [bind]. assert (HMs : spanning_tree (nodes g) M) by (apply (HG p); auto).
      destruct (linkage_plain (nodes g) M HMs) as (L & EL & HL). rewrite EL. cbn [bind].
      destruct y as [l|].
      + apply Nat.eqb_eq in EY.
        destruct (semi_clusters_from_linkage_tree _ _ _ _ _ _ _ _ _ _ _ _ L) as [[[ls ps] T]|] eqn:ER; [|discriminate]. cbn [bind fst snd]. intros [= <-]. cbn [f_labels f_probabilities f_condensed f_linkage f_mst].
        destruct (c48_total lam LA A B NN garbage by_parent listed (st p) l (virtual p) (nodes g) M HK HB Hlisted EY (Hleaf p (nodes g) EV (Nat.lt_le_trans 0 2 _ Nat.lt_0_2 H2)) HMs H2) as [(ls' & ps' & T' & E' & HCl & HT & _)|[_ E']];
          unfold semi_clusters_from_spanning_tree in E'; rewrite EL in E'; cbn [bind] in E'; rewrite ER in E'; [|discriminate]. injection E' as <- <- <-.
        split; [apply (cl_labels _ _ _ _ _ HCl)|]. split; [apply (cl_strengths _ _ _ _ _ HCl)|]. intros _. split; [exact (some_rows T _ _ H2 HT)|]. split; [exact (some_merges _ _ L H2 HL)|]. eapply spanning_perm; [apply sort_mst_perm|exact HMs].
      + destruct (clusters_from_linkage_tree _ _ _ _ _ _ _ _ L) as [[[ls ps] T]|] eqn:ER; [|discriminate]. cbn [bind fst snd]. intros [= <-]. cbn [f_labels f_probabilities f_condensed f_linkage f_mst].
        destruct (plain_total lam LA A garbage by_parent (st p) (nodes g) M HK HMs H2) as [(ls' & ps' & T' & E' & HCl & HT & _)|[_ E']];
          unfold clusters_from_spanning_tree in E'; rewrite EL in E'; cbn [bind] in E'; rewrite ER in E'; [|discriminate]. injection E' as <- <- <-.
        split; [apply (cl_labels _ _ _ _ _ HCl)|]. split; [apply (cl_strengths _ _ _ _ _ HCl)|]. intros _. split; [exact (some_rows T _ _ H2 HT)|]. split; [exact (some_merges _ _ L H2 HL)|]. eapply spanning_perm; [apply sort_mst_perm|exact HMs].
  Qed.
End Run.

(** ** Points on a line and graphs; no sample weights *)
Record example_params := { x_mcs : nat; x_precomputed : bool; x_semi : bool }.
Definition example_graph : Type := nat * list (edge QInf).
Definition in_graph (g : example_graph) : bool := forallb (fun e => (esrc e <? fst g) && (edst e <? fst g)) (snd g).
Definition example_graph_mst (g : example_graph) : res (list (edge QInf)) :=
  if in_graph g then let* (r, core) := precomputed_kruskal (W := QInf) (Some 0%Qc) (snd g) (fst g) 1 CLNone in Ok (fst r) else Err ValueError.
Definition example_settings (p : example_params) : settings QInf NatSize := exact_settings (Sz := NatSize) (x_mcs p) Eom false 0%Qc 0%Qc.
Definition example_valid (p : example_params) : bool := 2 <=? x_mcs p.
Definition line_mst := pairs_mst (W := QInf) (Some 0%Qc) line_dist 1.
Definition example_run (p : example_params) (rows : list (option Z)) : res (fitted QInf QInf NatSize) :=
  if example_valid p then fast_hdbscan hdbscan_lambda_value ExactLam (fun _ => None) line_mst (ExactArith NatSize nat_as_q) by_parent_of (example_settings p) rows else Err ValueError.
Definition example_run_semi (p : example_params) (rows : list (option Z * Z)) : res (fitted QInf QInf NatSize) :=
  if example_valid p then semi_fast_hdbscan hdbscan_lambda_value ExactLam (fun _ => None) line_mst (ExactArith NatSize nat_as_q) ExactB by_parent_of (fun l => l) (example_settings p) true rows else Err ValueError.
Definition example_run_graph (p : example_params) (g : example_graph) (y : option (list Z)) : res (fitted QInf QInf NatSize) :=
  if example_valid p && match y with Some l => length l =? fst g | None => true end
  then graph_fast_hdbscan hdbscan_lambda_value ExactLam (fun _ => None) (fun g : example_graph => fst g) example_graph_mst (ExactArith NatSize nat_as_q) ExactB by_parent_of (fun l => l) (example_settings p) true g y
  else Err ValueError.

Definition example_parts : parts example_params QInf QInf NatSize (option Z) example_graph :=
  {| q_zero := la_zero ExactLam; q_isfinite := present; q_set_list := fun l => l; q_precomputed := x_precomputed; q_semi := x_semi;
     q_graph_ok := in_graph; q_nodes := fun g => fst g; q_accepted := fun X => match X with Features rows => negb (length rows =? 0) | Distances _ => true end;
     q_labels_ok := forallb (fun l => match l with Some _ => true | None => false end); q_y_ok := fun _ => true; q_weights_ok := fun _ => false;
     q_run := fun p _ => example_run p; q_run_semi := fun p _ => example_run_semi p; q_run_graph := example_run_graph |}.

Lemma example_setting_ok p : example_valid p = true -> setting_ok hdbscan_lambda_value ExactLam (ExactArith NatSize nat_as_q) by_parent_of (example_settings p).
Proof. intro H. apply Nat.leb_le in H. apply exact_ok; [exact ex_sorts|]. now apply nat_mcs. Qed.
Lemma line_mst_ok rows M : 2 <= length rows -> line_mst rows = Ok M -> spanning_tree (length rows) M.
Proof. intros H2 EM. destruct (pairs_ok (W := QInf) (Some 0%Qc) line_dist 1 rows ltac:(lia)) as (M' & E & H). unfold line_mst in EM. rewrite E in EM. injection EM as <-. exact H. Qed.
Lemma graph_mst_ok (g : example_graph) M : 2 <= fst g -> example_graph_mst g = Ok M -> spanning_tree (fst g) M.
Proof.
  intros H2. unfold example_graph_mst. destruct (in_graph g) eqn:EG; [|discriminate].
  assert (HI : in_range (fst g) (snd g)).
  { intros e He. unfold in_graph in EG. rewrite forallb_forall in EG. specialize (EG e He). apply andb_true_iff in EG as [H1 H3]. apply Nat.ltb_lt in H1, H3. auto. }
  destruct (c09_precomputed (W := QInf) (Some 0%Qc) (snd g) (fst g) 1 None None ltac:(lia) HI I) as (cl & T & nbrs & core & Ecl & ET & _ & (M0 & B0 & _ & _ & HT & _)).
  injection Ecl as <-. rewrite ET. cbn [bind fst]. intros [= <-]. exact HT.
Qed.

Lemma example_complete : complete_parts example_parts.
Proof.
  split; [|split].
  - intros [p w] rows r. cbn. apply (fast_complete (P := example_params) (W := QInf) (V := QInf) hdbscan_lambda_value ExactLam (fun _ => None) (fun _ => line_mst) (ExactArith NatSize nat_as_q) by_parent_of
      example_settings example_valid example_setting_ok (fun _ => line_mst_ok)).
  - intros [p w] rows r. cbn. apply (semi_complete (P := example_params) (W := QInf) (V := QInf) hdbscan_lambda_value ExactLam (fun _ => None) (fun _ => line_mst) (ExactArith NatSize nat_as_q) ExactB (fun b => (0 <= b)%Qc) by_parent_of (fun l => l)
      example_settings (fun _ => true) example_valid example_setting_ok exact_b_laws (fun l => Permutation_refl l)); [|exact (fun _ => line_mst_ok)].
    intros p0 n H Hn. apply Nat.leb_le in H. now apply exact_leaves.
  - intros p g y r HR. enough (length (f_labels r) = fst g /\ length (f_probabilities r) = fst g /\ (2 <= fst g -> f_condensed r <> [] /\ f_linkage r <> [] /\ spanning_tree (fst g) (f_mst r))) as (H1 & H2 & H3).
    { split; [exact H1|]. split; [exact H2|]. intro K. destruct (H3 K) as (K1 & K2 & _). auto. }
    revert HR. cbn. apply (graph_complete (P := example_params) (W := QInf) (V := QInf) hdbscan_lambda_value ExactLam (fun _ => None) (fun g : example_graph => fst g) (fun _ => example_graph_mst) (ExactArith NatSize nat_as_q) ExactB (fun b => (0 <= b)%Qc) by_parent_of (fun l => l)
      example_settings (fun _ => true) example_valid example_setting_ok exact_b_laws (fun l => Permutation_refl l)); [|exact (fun _ => graph_mst_ok)].
    intros p0 n H Hn. apply Nat.leb_le in H. now apply exact_leaves.
Qed.

Definition example_play (p : example_params) := mplay example_parts (new_mobject p).
Definition example_labels (o : mobject example_params QInf QInf NatSize (option Z) example_graph) : option (list Z) := option_map f_labels (m_results o).
Definition features_only : example_params := {| x_mcs := 2; x_precomputed := false; x_semi := false |}.
Definition with_labels : example_params := {| x_mcs := 2; x_precomputed := false; x_semi := true |}.
Definition graphs : example_params := {| x_mcs := 2; x_precomputed := true; x_semi := false |}.
Definition labelled_graphs : example_params := {| x_mcs := 2; x_precomputed := true; x_semi := true |}.
Definition qd (z : Z) : QInf := Some (Q2Qc (inject_Z z)).
Definition four_nodes : example_graph := (4, [((0, 1), qd 1); ((1, 2), qd 9); ((2, 3), qd 1)]).

(** After a graph that fails, the tree of the features is not shown any more. *)
Lemma tree_withheld : exists h X r, mlast_success example_parts features_only h features_only X r /\ (exists rows, X = Features rows) /\
  m_spanning_tree (example_play features_only h) = Ok None /\ f_mst r <> [].
Proof.
  set (rows := [Some 0; Some 1; Some 10; Some 11]%Z).
  destruct (moutcome example_parts features_only (Features rows) None false) as [r|] eqn:E.
  2:{ assert (H : match moutcome example_parts features_only (Features rows) None false with Ok _ => true | Err _ => false end = true) by (vm_compute; reflexivity). rewrite E in H. discriminate. }
  exists [MFit (Features rows) None false; MSet labelled_graphs; MFit (Distances four_nodes) None false], (Features rows), r.
  assert (HS : mlast_success example_parts features_only [MFit (Features rows) None false; MSet labelled_graphs; MFit (Distances four_nodes) None false] features_only (Features rows) r).
  { exists [], None, false, [MSet labelled_graphs; MFit (Distances four_nodes) None false]. split; [reflexivity|]. split; [reflexivity|]. split; [exact E|].
    intros [|c [|c' [|c'' a]]] X' y' w' b H; cbn in H; [discriminate| |discriminate|destruct a; discriminate].
    injection H as <- <- <- <- <-. cbn [mparams_after]. exists ValueError. vm_compute. reflexivity. }
  split; [exact HS|]. split; [eauto|]. split.
  - assert (H : match m_spanning_tree (example_play features_only [MFit (Features rows) None false; MSet labelled_graphs; MFit (Distances four_nodes) None false]) with Ok None => true | _ => false end = true) by (vm_compute; reflexivity).
    destruct (m_spanning_tree _) as [[t|]|]; [discriminate|reflexivity|discriminate].
  - intro HM. assert (H : match moutcome example_parts features_only (Features rows) None false with Ok r => length (f_mst r) | Err _ => 0 end = 3) by (vm_compute; reflexivity).
    rewrite E, HM in H. discriminate.
Qed.

(** After features that fail, the tree of a graph is shown with these features. *)
Lemma graph_tree_with_features : exists h M X e, m_spanning_tree (example_play graphs h) = Ok (Some (M, Features X)) /\ In e M /\ length X <= esrc e.
Proof.
  set (h := [MFit (Distances four_nodes) None false; MSet {| x_mcs := 1; x_precomputed := false; x_semi := false |}; MFit (Features [Some 7]%Z) None false]).
  assert (H : match m_spanning_tree (example_play graphs h) with Ok (Some (M, Features X)) => existsb (fun e => length X <=? esrc e) M | _ => false end = true) by (vm_compute; reflexivity).
  destruct (m_spanning_tree (example_play graphs h)) as [[[M [X|g]]|]|] eqn:E; try discriminate H. apply existsb_exists in H as (e & He & H). apply Nat.leb_le in H.
  exists h, M, X, e. exact (conj E (conj He H)).
Qed.
