(** The hierarchies a detector reports. *)
From Coq Require Import List Arith Lia Bool ZArith Permutation Sorted.
From Verif Require Import Prelude Order Graph Size Num P_Sort S_Kruskal M_Kruskal M_Precomputed M_Linkage S_Linkage M_Condense S_Condense M_Select M_Labels M_Pipeline S_Pipeline M_Estimator
  M_Layers M_LayerTree M_CoreGraph S_CoreGraph S_LayerTree M_SubClusters S_SubClusters M_LensGraph M_Detector M_Report M_ReportTrees
  P_Forest P_KruskalRun P_CoreGraph P_CoreGraphRun P_PrecomputedBoruvka P_BackendsAgree P_LensGraph P_PipelineRun P_PipelineEx P_Estimator P_SubRun P_SubTop P_Detector P_DetectorTop P_ReportTop P_ReportTrees.
Import ListNotations.
Local Open Scope nat_scope.

Lemma map_res_total {A B} (f : A -> res B) l : (forall x, In x l -> exists y, f x = Ok y) -> exists ys, map_res f l = Ok ys.
Proof.
  induction l as [|x l IH]; intro H; simpl; [eauto|]. destruct (H x (or_introl eq_refl)) as (y & ->). cbn [bind].
  destruct IH as (ys & ->); [intros; apply H; now right|]. cbn [bind]. eauto.
Qed.

Section Trees.
  Context {W V : WOrd} {Row : Type}.
  Variables (round : W -> W) (sort_row : list (nat * W) -> list (nat * W)) (average : V -> V -> V) (no_lens : W)
    (propagate : joined V W * list (list nat * sub_result W V) -> res ((nat -> Z) * (nat -> Z))).
  Hypothesis Hsort : forall l, Permutation (sort_row l) l /\ sorted_by (fun cw : nat * W => snd cw) (sort_row l).
  Variables (lam : W -> V) (LA : LamArith V) (A : Arith V NatSize) (garbage : nat -> V) (by_parent : list (crow V NatSize) -> list (crow V NatSize)) (st : settings V NatSize).
  Hypothesis HK : setting_ok lam LA A by_parent st.
  Notation zero := (la_zero LA).
  Notation one := (la_one LA).
  Notation cluster_of := (cluster_tree lam LA A garbage by_parent st).

  (** Of one part: what is reported for [n] samples with the links [E]. *)
  Definition hierarchy_of (n : nat) (E : list (edge W)) (part : sub_result W V) : Prop :=
    (~ (forall i j, i < n -> j < n -> connected E i j) /\ sr_tree part = false) \/
    ((forall i j, i < n -> j < n -> connected E i j) /\ sr_tree part = true /\
      exists L T, mst_to_linkage_tree (sr_mst part) = Ok L /\ linkage_of (Sz := NatSize) n (fun _ => 1) (sr_mst part) L /\
        condensed_tree_of lam garbage st (fun _ => 1) L = Ok T /\ condensed (Sz := NatSize) n (fun _ => 1) (min_cluster_size st) T /\ splits_once n T).

  Lemma one_hierarchy neighbors mst lens r : let n := length neighbors in 2 <= n ->
    (forall i j, i < n -> linked neighbors mst i j -> j < n /\ j <> i) -> (forall i, i < n -> exists j, linked neighbors mst i j) ->
    core_graph_clusters round sort_row one cluster_of neighbors mst lens = Ok r ->
    hierarchy_of n (csr_entries (lens_graph round sort_row neighbors mst lens)) r.
  Proof.
    intros n Hn Hlinked Hall. unfold core_graph_clusters. set (g := lens_graph _ _ _ _ _).
    destruct (c14_forest g) as (labels & M & -> & HF & [HL HC] & Hcount & _).
    { now apply lens_graph_stored. } { now apply lens_graph_sorted. } { now apply lens_graph_gap. } { now apply lens_graph_loops. }
    assert (Hg : csr_n g = n) by apply lens_graph_n. rewrite Hg in *. rewrite (distinct_unique labels) in *.
    assert (HU : unique labels <> []).
    { intro E0. destruct labels as [|a l]; [simpl in HL; lia|]. assert (In a (unique (a :: l))) by (apply unique_in; now left). rewrite E0 in *. contradiction. }
    cbn [bind]. destruct (Nat.ltb_spec 1 (length (unique labels))) as [H1|H1].
    - intro E. injection E as <-. left. split; [|reflexivity]. intro Hall'.
      pose proof (unique_NoDup labels) as HN. destruct (unique labels) as [|u [|v us]] eqn:Eu; try (simpl in H1; lia).
      assert (Huv : u <> v) by (inversion_clear HN as [|? ? H2 _]; intro; apply H2; now left).
      assert (Hu : In u labels) by (apply unique_in; rewrite Eu; now left). assert (Hv : In v labels) by (apply unique_in; rewrite Eu; right; now left).
      apply (In_nth _ _ 0) in Hu as (i & Hi & Ei). apply (In_nth _ _ 0) in Hv as (j & Hj & Ej). rewrite HL in *.
      apply Huv. rewrite <- Ei, <- Ej. apply HC; auto.
    - assert (H1' : length (unique labels) = 1) by (destruct (unique labels); [congruence|simpl in *; lia]).
      assert (Hconn : forall i j, i < n -> j < n -> connected (csr_entries g) i j).
      { intros i j Hi Hj. apply HC; auto. destruct (unique labels) as [|u [|? ?]] eqn:Eu; try (simpl in H1'; lia).
        assert (K : forall i, i < n -> nth i labels 0 = u).
        { intros i' Hi'. assert (Hin : In (nth i' labels 0) (unique labels)) by (apply unique_in, nth_In; lia). rewrite Eu in Hin. destruct Hin as [<-|[]]; auto. }
        now rewrite !K. }
      assert (HM : spanning_tree n M).
      { split; [|apply HF| |lia].
        - eapply in_range_incl; [apply HF|]. rewrite <- Hg. apply columns_range. now apply lens_graph_stored.
        - intros x y Hx Hy. apply (sf_connected _ _ HF). auto. }
      destruct (cluster_of M) as [ls|] eqn:EC; [|discriminate]. cbn [bind]. intro E. injection E as <-. right. split; [exact Hconn|]. cbn [sr_tree sr_mst].
      split; [apply Nat.ltb_lt; lia|].
      unfold cluster_tree in EC. destruct (clusters_from_spanning_tree lam LA A garbage by_parent st M) as [[[ls' ps'] T]|] eqn:ER; [|discriminate].
      assert (HLn : length (repeat tt n) = n) by apply repeat_length.
      destruct (linkage_plain n M HM) as (L & EL & _).
      assert (Q : fast_hdbscan lam LA garbage (fun _ : list unit => Ok M) A by_parent st (repeat tt n) =
        Ok {| f_labels := ls'; f_probabilities := ps'; f_linkage := L; f_condensed := T; f_mst := sort_mst M |}).
      { unfold fast_hdbscan. rewrite HLn. destruct (Nat.eqb_spec n 0) as [|_]; [lia|]. destruct (Nat.ltb_spec n 2) as [|_]; [lia|].
        cbn [bind]. rewrite EL. cbn [bind]. unfold clusters_from_spanning_tree in ER. rewrite EL in ER. cbn [bind] in ER. rewrite ER. reflexivity. }
      apply fast_run in Q; auto; [|rewrite HLn; lia|intros M' E'; injection E' as <-; now rewrite HLn].
      cbn [f_mst f_linkage f_condensed] in Q. rewrite HLn in Q. destruct Q as (_ & _ & QL & QT & QO). exists L, T. split; auto. split; auto. split; auto.
      unfold clusters_from_spanning_tree in ER. rewrite EL in ER. cbn [bind] in ER. unfold clusters_from_linkage_tree in ER.
      destruct (condensed_tree_of lam garbage st (fun _ => 1) L) as [T'|]; [|discriminate]. cbn [bind] in ER.
      destruct (selected_clusters_of _ _ _ _) as [s1|]; [|discriminate]. cbn [bind] in ER. destruct (epsilon_clusters_of _ _ _ _) as [s2|]; [|discriminate]. cbn [bind] in ER.
      destruct (labels_and_strengths_of _ _ _ _ _) as [l2|]; [|discriminate]. cbn [bind] in ER. now injection ER as _ ->.
  Qed.

  Lemma rows_parts flag (data : list Row) labels probs neighbors mst (value : list nat -> list W) K d :
    sub_input labels neighbors mst (fun k => value (members labels (Z.of_nat k))) K ->
    detect_rows round sort_row average zero one no_lens cluster_of propagate flag data labels probs neighbors mst value = Ok d ->
    length (d_parts d) = K /\ length (d_points d) = K /\
    forall k, k < K -> nth k (d_points d) [] = members labels (Z.of_nat k) /\ cluster_points labels k (nth k (d_points d) []) /\
      exists E part, nth_error (d_parts d) k = Some part /\ lens_edges round neighbors mst (nth k (d_points d) []) (value (nth k (d_points d) [])) E /\
        spanning_forest E (sr_mst part) /\ hierarchy_of (length (nth k (d_points d) [])) E part.
  Proof.
    intro HI. unfold detect_rows. pose proof (num_clusters_ok labels neighbors mst _ K HI) as EK. rewrite EK. cbn [bind].
    destruct (check_endpoints labels mst); [|discriminate]. cbn [bind].
    destruct (find_sub_clusters _ _ _ _ _ _ _ _ _ _ _ _) as [[s cs]|] eqn:EF; [|discriminate]. cbn [bind].
    destruct (maybe_propagate propagate flag (s, cs)) as [final|]; [|discriminate]. cbn [bind]. intro E. injection E as <-. cbn [d_parts d_points snd].
    unfold find_sub_clusters in EF. destruct (sub_clusters_per_cluster _ _ _ _ _ _ _ _) as [rs|] eqn:ER; [|discriminate]. cbn [bind] in EF.
    destruct (update_labels _ _ _ _ _) as [s'|] eqn:EU; [|discriminate]. cbn [bind] in EF. injection EF as _ <-.
    unfold sub_clusters_per_cluster in ER. rewrite EK in ER. cbn [bind] in ER. apply map_res_nth in ER as [HL HN]. rewrite seq_length in HL.
    assert (HC : forall k r, nth_error rs k = Some r -> nth_error (combine (seq 0 (length rs)) rs) k = Some (k, r)).
    { intros k r. assert (H : forall a, nth_error rs k = Some r -> nth_error (combine (seq a (length rs)) rs) k = Some (a + k, r)); [|apply (H 0)].
      clear. revert k. induction rs as [|r0 rs IH]; intros [|k] a Er; simpl in *; try discriminate.
      - injection Er as <-. now rewrite Nat.add_0_r.
      - rewrite (IH k (S a) Er). now rewrite Nat.add_succ_r. }
    rewrite !map_length, combine_length, seq_length, Nat.min_id. split; auto. split; auto. intros k Hk.
    destruct (nth_error rs k) as [r|] eqn:Er; [|apply nth_error_None in Er; lia]. pose proof (HC k r Er) as Hc.
    assert (E1 : nth k (map fst (map (fun kr : nat * sub_result W V => (members labels (Z.of_nat (fst kr)), snd kr)) (combine (seq 0 (length rs)) rs))) [] = members labels (Z.of_nat k)).
    { apply nth_error_nth. rewrite !nth_error_map, Hc. reflexivity. }
    rewrite E1. split; [reflexivity|]. split; [apply members_points|].
    destruct (HN k r Er) as (x & Hx & Ex). rewrite (nth_error_nth' _ 0), seq_nth in Hx by (rewrite ?seq_length; lia). injection Hx as <-.
    unfold sub_clusters_in_cluster in Ex. cbn [Nat.add] in Ex. eexists. exists r. split; [rewrite !nth_error_map, Hc; reflexivity|].
    split; [apply (graph_edges round sort_row Hsort labels neighbors mst _ K HI)|].
    pose proof Ex as Ex'. apply one_tree in Ex' as [X1 _]; auto;
      [|rewrite map_length; eapply pts_two; eauto|eapply sub_linked_range; eauto|eapply sub_linked_all; eauto].
    apply one_hierarchy in Ex; [|rewrite map_length; eapply pts_two; eauto|eapply sub_linked_range; eauto|eapply sub_linked_all; eauto].
    rewrite map_length in Ex. split; [exact X1|exact Ex].
    Unshelve. all: first [exact cluster_of | exact V].
  Qed.

  Lemma members_two labels neighbors (mst : list (edge W)) lens K k : sub_input labels neighbors mst lens K -> k < K -> 2 <= length (members labels (Z.of_nat k)).
  Proof. intros HI Hk. eapply pts_two; eauto. Unshelve. all: first [exact cluster_of | exact V | exact round | exact sort_row | exact one]. Qed.

  Let link_one (part : sub_result W V) : res (option (list (lrow W NatSize))) :=
    if sr_tree part then let* L := mst_to_linkage_tree (sr_mst part) in Ok (Some L) else Ok None.
  Let cond_one (part : sub_result W V) : res (option (list (crow V NatSize))) :=
    if sr_tree part then
      let* L := mst_to_linkage_tree (sr_mst part) in
      let* T := condensed_tree_of lam garbage st (fun _ => 1) L in
      Ok (match T with [] => None | _ => Some T end)
    else Ok None.

  Lemma detector_hierarchies {Sz : SOrd} flag (data : list Row) (T : list (crow V Sz)) labels probs neighbors mst (lens : lens_input W V Row) (value : list nat -> list W) K d :
    (forall r, In r T -> wlt zero (c_lam r) = true) -> lens_of no_lens lens (length data) None data probs = Ok value ->
    sub_input labels neighbors mst (fun k => value (members labels (Z.of_nat k))) K ->
    detect round sort_row average zero one no_lens cluster_of propagate flag data T labels probs neighbors mst lens = Ok d ->
    exists Ls Ts, linkage_trees d = Ok Ls /\ condensed_trees lam garbage st d = Ok Ts /\ length Ls = K /\ length Ts = K /\
    forall k, k < K -> let pts := nth k (d_points d) [] in let n := length pts in cluster_points labels k pts /\
      exists E, lens_edges round neighbors mst pts (value pts) E /\ spanning_forest E (nth k (spanning_trees d) []) /\
        (~ (forall i j, i < n -> j < n -> connected E i j) -> nth_error Ls k = Some None /\ nth_error Ts k = Some None) /\
        ((forall i j, i < n -> j < n -> connected E i j) -> exists L C, nth_error Ls k = Some (Some L) /\ nth_error Ts k = Some (Some C) /\
           linkage_of (Sz := NatSize) n (fun _ => 1) (nth k (spanning_trees d) []) L /\
           condensed (Sz := NatSize) n (fun _ => 1) (min_cluster_size st) C /\ splits_once n C).
  Proof.
    intros HT Hv HI. rewrite detect_plain by auto. destruct (forallb _ labels); [discriminate|]. rewrite Hv. cbn [bind]. intro Ed.
    destruct (rows_parts _ _ _ _ _ _ _ _ _ HI Ed) as (LP & LD & H).
    assert (HP : forall part, In part (d_parts d) -> exists n E, 2 <= n /\ hierarchy_of n E part).
    { intros part Hin. apply In_nth_error in Hin as (k & Ek). assert (Hk : k < K) by (rewrite <- LP; apply nth_error_Some; now rewrite Ek).
      destruct (H k Hk) as (HM & HC & E & part' & Ep & _ & _ & HH). rewrite Ek in Ep. injection Ep as <-. exists (length (nth k (d_points d) [])), E. split; auto.
      rewrite HM. eapply members_two; eauto. }
    assert (ET : forall n E part, 2 <= n -> hierarchy_of n E part ->
      (~ (forall i j, i < n -> j < n -> connected E i j) /\ link_one part = Ok None /\ cond_one part = Ok None) \/
      ((forall i j, i < n -> j < n -> connected E i j) /\ exists L C, link_one part = Ok (Some L) /\ cond_one part = Ok (Some C) /\
         linkage_of (Sz := NatSize) n (fun _ => 1) (sr_mst part) L /\ condensed (Sz := NatSize) n (fun _ => 1) (min_cluster_size st) C /\ splits_once n C)).
    { intros n E part Hn [[Hc Ht]|(Hc & Ht & L & C & EL & HL & EC & HC & HS)]; [left|right]; unfold link_one, cond_one; rewrite Ht; auto.
      split; auto. exists L, C. rewrite EL. cbn [bind]. rewrite EC. cbn [bind]. destruct C; auto 6.
      apply ct_samples in HC. simpl in HC. apply Permutation_length in HC. rewrite seq_length in HC. simpl in HC. lia. }
    destruct (map_res_total link_one (d_parts d)) as (Ls & EL).
    { intros part Hin. destruct (HP part Hin) as (n & E & Hn & HH). destruct (ET _ _ _ Hn HH) as [(_ & X & _)|(_ & L & C & X & _)]; eauto. }
    destruct (map_res_total cond_one (d_parts d)) as (Ts & EC).
    { intros part Hin. destruct (HP part Hin) as (n & E & Hn & HH). destruct (ET _ _ _ Hn HH) as [(_ & _ & X)|(_ & L & C & _ & X & _)]; eauto. }
    exists Ls, Ts. split; [exact EL|]. split; [exact EC|]. apply map_res_nth in EL as [L1 N1]. apply map_res_nth in EC as [L2 N2].
    split; [lia|]. split; [lia|]. intros k Hk. destruct (H k Hk) as (HM & HC & E & part & Ep & HE & HF & HH). split; auto. exists E. split; auto.
    assert (Em : nth k (spanning_trees d) [] = sr_mst part) by (apply nth_error_nth; unfold spanning_trees; now rewrite nth_error_map, Ep). rewrite Em. split; auto.
    destruct (nth_error Ls k) as [ol|] eqn:E1; [|apply nth_error_None in E1; lia]. destruct (nth_error Ts k) as [oc|] eqn:E2; [|apply nth_error_None in E2; lia].
    destruct (N1 _ _ E1) as (p1 & X1 & Y1). destruct (N2 _ _ E2) as (p2 & X2 & Y2). rewrite Ep in X1, X2. injection X1 as <-. injection X2 as <-.
    assert (Hn : 2 <= length (nth k (d_points d) [])) by (rewrite HM; eapply members_two; eauto).
    destruct (ET _ _ _ Hn HH) as [(Hc & Z1 & Z2)|(Hc & L & C & Z1 & Z2 & R)]; rewrite Z1 in Y1; rewrite Z2 in Y2; injection Y1 as <-; injection Y2 as <-.
    - split; auto. intro; contradiction.
    - split; [intro; contradiction|]. intros _. exists L, C. auto.
  Qed.
End Trees.
