(** Statements about the user-level precomputed and feature-matrix entry points. *)
From Coq Require Import List Arith Lia Bool Permutation Sorted ZArith.
From Verif Require Import Prelude Order Graph UF M_Kruskal M_Precomputed M_KruskalEntry S_Kruskal S_Precomputed
  P_Sort P_Kruskal P_Forest P_KruskalCL P_Precomputed P_Precomputed2 P_KruskalRun P_KruskalEntry.
Import ListNotations.

Section Top.
  Context {W : WOrd}.

  Lemma c09_bridge n (M : list (edge W)) labels :
    0 < n -> acyclic M -> in_range n M -> labels_classes n labels (connected M) ->
    exists B, bridge_forest_with_inf M labels = Ok (M ++ B) /\ spanning_tree n (M ++ B) /\
      length B + 1 = distinct labels /\
      Forall (fun e => ewt e = winf /\ smallest_of_component M (esrc e) /\
                       smallest_of_component M (edst e)) B.
  Proof.
    intros Hn HA HR HL. destruct (bridge_ok n M labels Hn HA HR HL) as (B & H1 & H2 & H3).
    exists B. split; auto. split; auto. split; auto.
    pose proof (labels_count n M labels HA HR HL) as Hc. rewrite <- distinct_unique in Hc.
    destruct H2 as [_ _ _ Hcnt]. rewrite app_length in Hcnt. lia.
  Qed.

  Lemma c09_thresholds (M B : list (edge W)) t :
    wlt t winf = true -> Forall (fun e => ewt e = winf) B ->
    passing (fun w => wle w t) (M ++ B) = passing (fun w => wle w t) M.
  Proof.
    intros Ht HF. unfold passing. rewrite filter_app.
    assert (filter (fun e => wle (ewt e) t) B = []) as ->; [|apply app_nil_r].
    induction HF as [|e B He HF IH]; auto. simpl. rewrite He, (proj1 (wlt_nle _ _) Ht). auto.
  Qed.

  Lemma c10_unbridge n (E : list (edge W)) :
    in_range n E -> S (length E) = n ->
    exists labels, unbridge_mst E = Ok (filter (fun e => wfinite (ewt e)) E, labels) /\
      labels_classes n labels (connected (filter (fun e => wfinite (ewt e)) E)) /\
      (forall c, In c labels <-> c < distinct labels).
  Proof.
    intros HR HL. destruct (unbridge_ok n E HR HL) as (labels & H1 & H2 & H3).
    exists labels. split; auto. split; auto. intro c. rewrite H3, distinct_unique. tauto.
  Qed.

  Lemma filter_all {A} (f : A -> bool) l : (forall x, In x l -> f x = true) -> filter f l = l.
  Proof. induction l as [|x l IH]; simpl; intro H; auto. rewrite H, IH; auto. Qed.
  Lemma filter_none {A} (f : A -> bool) l : (forall x, In x l -> f x = false) -> filter f l = [].
  Proof. induction l as [|x l IH]; simpl; intro H; auto. rewrite H, IH; auto. Qed.

  Lemma c10_round_trip n (M : list (edge W)) labels :
    0 < n -> acyclic M -> in_range n M -> labels_classes n labels (connected M) ->
    (forall e, In e M -> wfinite (ewt e) = true) ->
    exists T labels', bridge_forest_with_inf M labels = Ok T /\ unbridge_mst T = Ok (M, labels') /\
      labels_classes n labels' (connected M).
  Proof.
    intros Hn HA HR HL Hfin. destruct (c09_bridge n M labels Hn HA HR HL) as (B & H1 & H2 & _ & H3).
    exists (M ++ B).
    assert (E : filter (fun e => wfinite (ewt e)) (M ++ B) = M).
    { rewrite filter_app, (filter_all _ M) by auto.
      rewrite filter_none; [apply app_nil_r|]. rewrite Forall_forall in H3. intros e He.
      destruct (H3 e He) as [-> _]. apply wlt_irrefl. }
    destruct (c10_unbridge n (M ++ B)) as (labels' & K1 & K2 & _); [apply H2|apply H2|].
    rewrite E in *. exists labels'. auto.
  Qed.

  Lemma c13_csr core (g : csr W) i j w :
    In (i, j, w) (mrd_entries core g) <->
    exists d, In (i, j, d) (csr_entries g) /\ w = mrd3 (nth i core winf) (nth j core winf) d.
  Proof.
    unfold mrd_entries. rewrite in_map_iff. split.
    - intros ([[a b] d] & [= <- <- <-] & H). eauto.
    - intros (d & H & ->). exists (i, j, d). auto.
  Qed.

  Lemma c13_csr_ok core (g : csr W) :
    (forall i j w, In (i, j, w) (mrd_entries core g) ->
       exists d, In (i, j, d) (csr_entries g) /\
                 greatest_of_three (nth i core winf) (nth j core winf) d w) /\
    (forall i j d, In (i, j, d) (csr_entries g) ->
       exists w, In (i, j, w) (mrd_entries core g) /\
                 greatest_of_three (nth i core winf) (nth j core winf) d w).
  Proof.
    split.
    - intros i j w H. apply c13_csr in H as (d & H & ->). exists d. split; auto. apply mrd3_ok.
    - intros i j d H. eexists. split; [apply c13_csr; eauto|apply mrd3_ok].
  Qed.

  Lemma c13_brute zero (D : nat -> nat -> W) n ms :
    (forall i j w, In (i, j, w) (brute_edges zero D n ms) ->
       i < j < n /\ greatest_of_three (brute_core zero D n ms i) (brute_core zero D n ms j) (D i j) w) /\
    (forall i j, i < j < n -> exists w, In (i, j, w) (brute_edges zero D n ms) /\
       greatest_of_three (brute_core zero D n ms i) (brute_core zero D n ms j) (D i j) w).
  Proof.
    split.
    - intros i j w H. apply brute_edges_in in H as (H1 & H2 & ->). split; [lia|apply mrd3_ok].
    - intros i j H. eexists. split; [apply brute_edges_in; split; [|split]; [lia|lia|reflexivity]|apply mrd3_ok].
  Qed.

  Lemma c13_knn (knn : list (list (option nat * W))) core :
    (forall i j w, i <> j -> In (i, j, w) (knn_edges knn core) ->
       exists d, In (Some j, d) (nth i knn []) /\
                 greatest_of_three (nth i core winf) (nth j core winf) d w) /\
    (forall i j d, i < length knn -> i <> j -> In (Some j, d) (nth i knn []) ->
       exists w, In (i, j, w) (knn_edges knn core) /\
                 greatest_of_three (nth i core winf) (nth j core winf) d w).
  Proof.
    split.
    - intros i j w Hij H. apply knn_edges_in in H as (_ & d & H & ->); auto.
      exists d. split; auto. apply mrd3_ok.
    - intros i j d Hi Hij H. eexists. split; [|apply mrd3_ok]. apply knn_edges_in; auto.
      split; auto. eauto.
  Qed.

  (** Symmetry of the weights, up to the order (the maximum of the same three
      values taken in another order). *)
  Lemma c13_symmetric (a b c : W) :
    wle (mrd3 a b c) (mrd3 b a c) = true /\ wle (mrd3 b a c) (mrd3 a b c) = true.
  Proof.
    destruct (mrd3_ok a b c) as (_ & H1 & H2 & H3). destruct (mrd3_ok b a c) as (_ & K1 & K2 & K3).
    split; unfold mrd3; repeat apply wmax_lub; auto.
  Qed.

  Lemma c09_precomputed (zero : W) entries n ms X g :
    0 < n -> in_range n entries -> valid_constraints n X g ->
    exists cl T nbrs core, resolve_cl_params n X true g = Ok cl /\
      precomputed_kruskal zero entries n ms cl = Ok (T, nbrs, core) /\
      (nbrs, core) = core_distances_csr zero (symmetrize_min entries n) ms /\
      bridged_result n (user_constraints (option_map sp_entries X) g)
        (mrd_entries core (symmetrize_min entries n)) T.
  Proof.
    intros Hn HR HV. destruct (resolve_all n X g HV) as (cl & C & D).
    destruct (precomputed_ok zero entries n ms cl _ Hn HR D) as (T & nbrs & core & H).
    exists cl, T, nbrs, core. auto.
  Qed.

  Lemma c09_brute (zero : W) D n ms X g :
    0 < n -> valid_constraints n X g ->
    exists cl T nbrs core, resolve_cl_params n X true g = Ok cl /\
      kruskal_mst_brute zero D n ms cl = Ok (T, nbrs, core) /\
      bridged_result n (user_constraints (option_map sp_entries X) g) (brute_edges zero D n ms) T.
  Proof.
    intros Hn HV. destruct (resolve_all n X g HV) as (cl & C & Hd).
    destruct (brute_ok zero D n ms cl _ Hn Hd) as (T & nbrs & core & H1 & _ & H2).
    exists cl, T, nbrs, core. auto.
  Qed.

  Lemma c03_brute (zero : W) D n ms :
    0 < n ->
    exists T nbrs core, kruskal_mst_brute zero D n ms CLNone = Ok (T, nbrs, core) /\
      spanning_tree n T /\ min_spanning_forest (brute_edges zero D n ms) T.
  Proof.
    intros Hn. destruct (brute_ok zero D n ms CLNone no_constraint Hn) as (T & nbrs & core & H1 & _ & H2).
    { intros x y []. }
    exists T, nbrs, core. split; auto.
    apply bridged_connected in H2 as [K1 K2]; auto using brute_edges_range, brute_connected.
  Qed.

  Lemma c09_knn (zero : W) query ms knn_k X g n :
    let k := if 1 <? ms then Nat.max knn_k ms + 1 else knn_k + 1 in
    0 < n -> length (query k) = n ->
    (forall row j d, In row (query k) -> In (Some j, d) row -> j < n) ->
    valid_constraints n X g ->
    exists cl T nbrs core, resolve_cl_params n X true g = Ok cl /\
      kruskal_mst_knn zero query ms knn_k cl = Ok (T, nbrs, core) /\
      bridged_result n (user_constraints (option_map sp_entries X) g)
        (filter (fun e => negb (esrc e =? edst e) && wfinite (ewt e))
                (knn_edges (map (skipn 1) (query k)) core)) T.
  Proof.
    intros k Hn HL Hr HV. destruct (resolve_all n X g HV) as (cl & C & Hd).
    destruct (knn_ok zero query ms knn_k cl _ n Hn HL Hr Hd) as (T & nbrs & core & H1 & _ & H2).
    exists cl, T, nbrs, core. auto.
  Qed.
End Top.
