(** The lens values that a branch detector reports. *)
From Coq Require Import List Arith Lia Bool ZArith Permutation QArith Qcanon.
From Verif Require Import Prelude Order Graph Size Num M_Kruskal M_KruskalEntry M_Linkage M_Condense M_Select M_Labels M_Pipeline M_Estimator M_Layers M_LayerTree
  M_SubClusters M_LensGraph M_Detector M_Centrality S_Centrality P_SubRun P_Detector P_DetectorTop P_ReportTop P_ReportTrees P_Centrality P_CentralityTop S_Estimator S_Detector P_Estimator P_MaxSizeMissing.
Import ListNotations.
Local Open Scope nat_scope.

Lemma same_entries {A} : forall l l' : list A, (forall i, nth_error l i = nth_error l' i) -> l = l'.
Proof.
  induction l as [|a l IH]; intros [|b l'] H; auto; try (specialize (H 0); discriminate).
  pose proof (H 0) as H0. injection H0 as <-. f_equal. apply IH. intro i. apply (H (S i)).
Qed.

Section Lens.
  Context {W V : WOrd} {Sz : SOrd} {Row : Type}.
  Variables (round : W -> W) (sort_row : list (nat * W) -> list (nat * W)) (average : V -> V -> V) (zero one : V) (no_lens : W)
    (cluster_of : list (edge W) -> res (list Z * list V))
    (propagate : joined V W * list (list nat * sub_result W V) -> res ((nat -> Z) * (nat -> Z))).

  Lemma rows_lens flag (data : list Row) labels probs neighbors mst (value : list nat -> list W) d : length labels = length data ->
    detect_rows round sort_row average zero one no_lens cluster_of propagate flag data labels probs neighbors mst value = Ok d ->
    forall pts, In pts (d_points d) -> map (fun x => nth x (d_lens d) no_lens) pts = value pts /\ forall x, In x pts -> x < length data.
  Proof.
    intro Hlen. unfold detect_rows. destruct (num_clusters labels) as [K|] eqn:EK; [|discriminate]. cbn [bind].
    destruct (check_endpoints labels mst); [|discriminate]. cbn [bind].
    destruct (find_sub_clusters _ _ _ _ _ _ _ _ _ _ _ _) as [[s cs]|] eqn:EF; [|discriminate]. cbn [bind].
    destruct (maybe_propagate propagate flag (s, cs)) as [final|]; [|discriminate]. cbn [bind]. intro E. injection E as <-.
    cbn [d_lens d_points fst snd]. unfold find_sub_clusters in EF. destruct (sub_clusters_per_cluster _ _ _ _ _ _ _ _) as [rs|] eqn:ER; [|discriminate]. cbn [bind] in EF.
    destruct (update_labels _ _ _ _ _) as [s'|] eqn:EU; [|discriminate]. cbn [bind] in EF. injection EF as <- <-.
    intros pts Hin. rewrite map_map in Hin. cbn [fst] in Hin. apply in_map_iff in Hin as ([k r] & <- & Hin). cbn [fst].
    unfold update_labels in EU. apply update_loop_lens in EU as [_ EU].
    2:{ rewrite map_map. cbn [piece_of pc_points].
        assert (HF : map (fun kr : nat * sub_result W V => fst kr) (combine (seq 0 (length rs)) rs) = seq 0 (length rs)).
        { clear. generalize 0. induction rs as [|r rs IH]; intro a; simpl; auto. now rewrite IH. }
        change (map (fun kr : nat * sub_result W V => members labels (Z.of_nat (fst kr))) (combine (seq 0 (length rs)) rs)) with
          (map (fun kr : nat * sub_result W V => members labels (Z.of_nat ((fun kr : nat * sub_result W V => fst kr) kr))) (combine (seq 0 (length rs)) rs)).
        rewrite <- (map_map (fun kr : nat * sub_result W V => fst kr) (fun k => members labels (Z.of_nat k))). rewrite HF. apply members_concat, seq_NoDup. }
    destruct (EU _ (in_map (piece_of labels (fun k => value (members labels (Z.of_nat k)))) _ _ Hin)) as [HL HU].
    cbn [piece_of pc_points pc_lens fst] in HL, HU. split.
    2:{ intros x Hx. apply In_nth_error in Hx as (i & Hi). destruct (member_label labels k i x Hi) as [_ Hx]. lia. }
    apply same_entries. intro i. rewrite nth_error_map.
    destruct (nth_error (members labels (Z.of_nat k)) i) as [x|] eqn:Ei; cbn [option_map].
    - rewrite (HU i x Ei). f_equal. destruct (member_label labels k i x Ei) as [_ Hx]. apply nth_error_nth.
      rewrite nth_error_map, (nth_error_nth' _ 0) by (rewrite seq_length; lia). rewrite seq_nth by lia. reflexivity.
    - symmetry. apply nth_error_None. apply nth_error_None in Ei. lia.
  Qed.
End Lens.

Lemma centralities_all {W V : WOrd} dim (inverse_root : Qc -> W) (as_q : V -> Qc) data probs cs :
  centralities dim inverse_root as_q data probs cs = Ok tt -> forall pts, In pts cs -> exists vs, compute_centrality dim inverse_root as_q data probs pts = Ok vs.
Proof.
  induction cs as [|c cs IH]; [intros _ pts []|]. cbn [centralities]. destruct (compute_centrality dim inverse_root as_q data probs c) as [vs|] eqn:E; [|discriminate].
  cbn [bind]. intros H pts [<-|Hp]; eauto.
Qed.

Lemma branch_lens {W V : WOrd} (complete : point -> bool) (dim : nat) (root inverse_root : Qc -> W) (as_q : V -> Qc) (wzero : W) (min_samples : nat)
    (lam : W -> V) (LA : LamArith V) (garbage : nat -> V) (A : Arith V NatSize) (by_parent : list (crow V NatSize) -> list (crow V NatSize))
    (st : settings V NatSize) (set_list : list nat -> list nat) (round : W -> W) (sort_row : list (nat * W) -> list (nat * W)) (average : V -> V -> V) (one : V)
    (no_lens : W) (cluster_of : list (edge W) -> res (list Z * list V))
    (propagate : joined V W * list (list nat * sub_result W V) -> res ((nat -> Z) * (nat -> Z))) (flag sides : bool) (X : list point) (r : fitted W V NatSize) (b : detected W V) :
  hdbscan_points complete dim root wzero min_samples lam LA garbage A by_parent st set_list X = Ok r ->
  length (f_labels r) = length X -> (forall row, In row (f_condensed r) -> wlt (la_zero LA) (c_lam row) = true) ->
  branches_of_points complete dim root inverse_root as_q wzero min_samples lam LA garbage A by_parent st set_list round sort_row average one no_lens cluster_of propagate
    flag sides X = Ok b ->
  forall pts, In pts (d_points b) ->
  exists rows ss c, values_at X pts rows /\ values_at (f_probabilities r) pts ss /\ qsum (map as_q ss) <> 0%Qc /\ balances dim rows (map as_q ss) c /\
    map (fun x => nth x (d_lens b) no_lens) pts = map (fun p => inverse_root (squared_distance dim p c)) rows.
Proof.
  intros Er Hlen HT. unfold branches_of_points. rewrite Er. cbn [bind]. destruct (points_mst _ _ _ _ _) as [m|]; [|discriminate]. cbn [bind].
  rewrite detect_plain by auto. destruct (forallb (fun l => (l =? -1)%Z) (f_labels r)); [discriminate|]. cbn [lens_of bind].
  destruct (detect_rows _ _ _ _ _ _ _ _ _ _ _ _ _ _ _) as [d|] eqn:ED; [|discriminate]. cbn [bind].
  destruct (centralities _ _ _ _ _ _) as [[]|] eqn:EC; [|discriminate]. cbn [bind]. unfold branch_fit.
  destruct (apply_branch_threshold _ _ _ _ _ _) as [t|]; [|discriminate]. cbn [bind]. intros E pts Hp. injection E as <-. cbn [d_points d_lens] in *.
  destruct (centralities_all _ _ _ _ _ _ EC pts Hp) as (vs & Ev). apply (rows_lens _ _ _ _ _ _ _ _ _ _ _ _ _ _ _ _ Hlen ED) in Hp as [Hp _]. rewrite Hp.
  unfold centrality_lens. rewrite Ev. apply centrality_ok in Ev as (rows & ss & c & H1 & H2 & H3 & H4 & ->).
  exists rows, ss, c. repeat (split; auto). apply map_ext. intro p. f_equal. apply square_minus.
Qed.

(** The same with missing rows. *)
Lemma gather_places {A} n m pos (a a0 : list A) : picked n m pos a a0 -> forall pts, (forall x, In x pts -> x < m) -> gather a (map pos pts) = gather a0 pts.
Proof.
  intros (_ & _ & H) pts Hp. induction pts as [|p pts IH]; [reflexivity|]. cbn [map gather]. rewrite (H p) by (apply Hp; now left).
  rewrite IH by (intros; apply Hp; now right). reflexivity.
Qed.
Lemma nth_by_error {A} (l : list A) i d : nth i l d = match nth_error l i with Some v => v | None => d end.
Proof. revert i. induction l as [|a l IH]; intros [|i]; simpl; auto. Qed.

Lemma branch_lens_missing {W V : WOrd} (complete : point -> bool) (dim : nat) (root inverse_root : Qc -> W) (as_q : V -> Qc) (wzero : W) (min_samples : nat)
    (lam : W -> V) (LA : LamArith V) (garbage : nat -> V) (A : Arith V NatSize) (by_parent : list (crow V NatSize) -> list (crow V NatSize))
    (st : settings V NatSize) (set_list : list nat -> list nat) (round : W -> W) (sort_row : list (nat * W) -> list (nat * W)) (average : V -> V -> V) (one : V)
    (no_lens : W) (cluster_of : list (edge W) -> res (list Z * list V))
    (propagate : joined V W * list (list nat * sub_result W V) -> res ((nat -> Z) * (nat -> Z))) (flag sides : bool) (X : list point) (r0 r : fitted W V NatSize) (b : detected W V) :
  (forall l, Permutation (set_list l) l) -> forallb complete X = false ->
  hdbscan_points complete dim root wzero min_samples lam LA garbage A by_parent st set_list (filter complete X) = Ok r0 ->
  (forall row, In row (f_condensed r0) -> wlt (la_zero LA) (c_lam row) = true) ->
  hdbscan_points complete dim root wzero min_samples lam LA garbage A by_parent st set_list X = Ok r ->
  branches_of_points complete dim root inverse_root as_q wzero min_samples lam LA garbage A by_parent st set_list round sort_row average one no_lens cluster_of propagate
    flag sides X = Ok b ->
  forall pts, In pts (d_points b) ->
  exists rows ss c, values_at X pts rows /\ values_at (f_probabilities r) pts ss /\ qsum (map as_q ss) <> 0%Qc /\ balances dim rows (map as_q ss) c /\
    map (fun x => nth x (d_lens b) no_lens) pts = map (fun p => inverse_root (squared_distance dim p c)) rows.
Proof.
  intros Hset HF E0 HT Er. unfold branches_of_points. rewrite Er. cbn [bind]. destruct (points_mst _ _ _ _ _) as [m|]; [|discriminate]. cbn [bind].
  destruct (detect _ _ _ _ _ _ _ _ _ _ _ _ _ _ _ _) as [d|] eqn:ED; [|discriminate]. cbn [bind].
  destruct (centralities _ _ _ _ _ _) as [[]|] eqn:EC; [|discriminate]. cbn [bind]. unfold branch_fit.
  destruct (apply_branch_threshold _ _ _ _ _ _) as [t|]; [|discriminate]. cbn [bind]. intros E pts Hp. injection E as <-. cbn [d_points d_lens] in *.
  destruct (centralities_all _ _ _ _ _ _ EC pts Hp) as (vs & Ev). unfold hdbscan_points in E0, Er.
  assert (E0' := E0). unfold fit in E0'. rewrite forallb_filter_self in E0'.
  pose proof (index_places complete X) as HP.
  destruct (fit_picked _ complete set_list _ X r0 r _ HF E0' Er HP) as [P1 P2].
  pose proof (fit_detect round sort_row average (la_zero LA) one no_lens cluster_of propagate complete set_list _ X r0 r _ Hset HF E0' Er HT HP
    (f_labels r) (f_labels r0) (f_probabilities r) (f_probabilities r0) (map (map Some) (snd (fst m)))
    (LensCallback (centrality_lens dim inverse_root as_q)) (LensCallback (centrality_lens dim inverse_root as_q)) flag P1 P2 eq_refl) as HD. cbv zeta in HD.
  rewrite detect_plain in HD by auto. destruct (forallb (fun l => (l =? -1)%Z) (f_labels r0)); [rewrite ED in HD; discriminate|]. cbn [lens_of bind] in HD.
  destruct (detect_rows _ _ _ _ _ _ _ _ _ _ _ _ _ _ _) as [d0|] eqn:ED0; [|rewrite ED in HD; discriminate]. destruct HD as (d' & Ed' & HS). rewrite ED in Ed'. injection Ed' as <-.
  rewrite (sp_points _ _ _ _ _ _ _ _ HS) in Hp. apply in_map_iff in Hp as (pts0 & <- & Hp0).
  destruct (rows_lens _ _ _ _ _ _ _ _ _ _ _ _ _ _ _ _ (proj1 (proj2 P1)) ED0 pts0 Hp0) as [HL Hb].
  assert (EV : compute_centrality dim inverse_root as_q (filter complete X) (f_probabilities r0) pts0 = Ok vs).
  { rewrite <- Ev. unfold compute_centrality. rewrite (gather_places _ _ _ _ _ (rows_picked complete X _ HP) pts0 Hb), (gather_places _ _ _ _ _ P2 pts0 Hb). reflexivity. }
  unfold centrality_lens in HL. rewrite EV in HL.
  assert (HL' : map (fun x => nth x (d_lens d) no_lens) (map (fun i => nth i (finite_index_of complete X) 0) pts0) = vs).
  { rewrite <- HL, map_map. apply map_ext_in. intros x Hx. rewrite (nth_by_error (d_lens d)), (nth_by_error (d_lens d0)). destruct (sp_lens _ _ _ _ _ _ _ _ HS) as ((_ & _ & H) & _). now rewrite H by auto. }
  rewrite HL'. apply centrality_ok in Ev as (rows & ss & c & H1 & H2 & H3 & H4 & ->).
  exists rows, ss, c. repeat (split; auto). apply map_ext. intro p. f_equal. apply square_minus.
Qed.
