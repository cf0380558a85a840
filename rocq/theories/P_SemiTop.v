(** Complete runs with labelled samples: the theorems. *)
From Coq Require Import List Arith Lia Bool ZArith Permutation Sorted QArith Qcanon.
From Verif Require Import Prelude Order Graph Size Num P_Sort S_Kruskal S_Precomputed M_Kruskal M_KruskalEntry M_Precomputed M_Linkage S_Linkage M_Condense S_Condense
  M_Select S_Select P_CTree P_Below P_Eom P_EomTop P_EomValue P_SelectTop M_Labels S_Labels P_LabelsEx M_Epsilon P_EpsilonTop M_Simplify P_SimplifyTop M_Pipeline S_Pipeline
  P_Pipeline P_PipelineTop P_PipelineRun P_PipelineEx M_BCubed S_BCubed P_BCScore P_BCFinal P_BCSame P_Semi.
Import ListNotations.
Local Open Scope nat_scope.

(** ** The order of the selected clusters does not matter *)
Lemma sorted_unique (l l' : list nat) : StronglySorted le l -> StronglySorted le l' -> Permutation l l' -> l = l'.
Proof.
  revert l'. induction l as [|x l IH]; intros l' H1 H2 HP; [now apply Permutation_nil in HP|].
  destruct l' as [|y l']; [symmetry in HP; now apply Permutation_nil in HP|].
  inversion_clear H1 as [|? ? K1 F1]. inversion_clear H2 as [|? ? K2 F2]. rewrite Forall_forall in F1, F2.
  assert (x = y) as <-.
  { assert (Hx : In x (y :: l')) by (eapply Permutation_in; [exact HP|simpl; auto]).
    assert (Hy : In y (x :: l)) by (eapply Permutation_in; [symmetry; exact HP|simpl; auto]).
    destruct Hx as [|Hx]; auto. destruct Hy as [|Hy]; auto. apply F2 in Hx. apply F1 in Hy. lia. }
  f_equal. apply IH; auto. now apply Permutation_cons_inv in HP.
Qed.

Section Order.
  Context {V : WOrd} {Sz : SOrd} (LA : LamArith V).
  Variables (C C' : list nat).
  Hypothesis HP : Permutation C C'.
  Implicit Types (T : list (crow V Sz)) (d : list (nat * V)).

  Lemma nsort_perm_eq : nsort (fun c => c) C = nsort (fun c => c) C'.
  Proof.
    apply sorted_unique; try apply nsort_sorted.
    exact (Permutation_trans (Permutation_sym (nsort_perm _ C)) (Permutation_trans HP (nsort_perm _ C'))).
  Qed.
  Lemma in_set_perm c : in_set C c = in_set C' c.
  Proof.
    unfold in_set. apply eq_iff_eq_true. rewrite !existsb_exists. split; intros (x & Hx & E); exists x; split; auto;
    [exact (Permutation_in x HP Hx)|exact (Permutation_in x (Permutation_sym HP) Hx)].
  Qed.
  Lemma nodup_perm : Permutation (nodup Nat.eq_dec C) (nodup Nat.eq_dec C').
  Proof.
    apply NoDup_Permutation; try apply NoDup_nodup. intro x. rewrite !nodup_In.
    split; [exact (Permutation_in x HP)|exact (Permutation_in x (Permutation_sym HP))].
  Qed.
  Lemma label_map_perm : cluster_label_map C = cluster_label_map C'.
  Proof. unfold cluster_label_map. now rewrite nsort_perm_eq, (Permutation_length HP). Qed.

  Lemma label_union_perm T n : forall d : M_DisjointSet.disjoint_set, fold_res (label_union LA C n) T d = fold_res (label_union LA C' n) T d.
  Proof.
    induction T as [|r T IH]; intro d; auto. cbn [fold_res]. unfold label_union at 1 3. rewrite in_set_perm.
    destruct (if in_set C' (c_child r) then _ else _) as [d'|]; auto. cbn [bind]. apply IH.
  Qed.

  Lemma labels_perm T eps n : get_cluster_label_vector LA T C eps n = get_cluster_label_vector LA T C' eps n.
  Proof.
    unfold get_cluster_label_vector. destruct T as [|r T]; auto. destruct C as [|c0 C0] eqn:E0; destruct C' as [|c1 C1] eqn:E1.
    - auto.
    - apply Permutation_nil in HP. discriminate.
    - symmetry in HP. apply Permutation_nil in HP. discriminate.
    - cbv beta iota. rewrite <- E0, <- E1 in *. clear E0 E1 c0 C0 c1 C1.
      assert (EL : forall T root x c, label_of T C eps root x c = label_of T C' eps root x c).
      { intros. unfold label_of. now rewrite (Permutation_length nodup_perm), label_map_perm. }
      destruct (array_min _) as [root|]; auto. cbn [bind]. destruct (array_max (map c_parent _)); auto. cbn [bind]. destruct (array_max (map c_child _)); auto. cbn [bind]. rewrite label_union_perm.
      destruct (fold_res _ _ _) as [d|]; auto. cbn [bind]. destruct (n <? root); auto. destruct (cut_roots d _) as [reps|]; auto. cbn [bind].
      assert (EM : forall l, map_res (fun xc => label_of (r :: T) C eps root (fst xc) (snd xc)) l = map_res (fun xc => label_of (r :: T) C' eps root (fst xc) (snd xc)) l).
      { induction l as [|x l IH]; auto. cbn [map_res]. rewrite EL, IH. reflexivity. }
      now rewrite EM.
  Qed.

  Definition same d d' : Prop := forall k, dict_get d k = dict_get d' k.
  Lemma same_set d d' k v : same d d' -> same (dict_set d k v) (dict_set d' k v).
  Proof. intros H x. rewrite !dict_get_set. destruct (x =? k); auto. Qed.

  Lemma max_lambda_perm T : forall d d', same d d' ->
    match fold_res (max_lambda_step C) T d, fold_res (max_lambda_step C') T d' with
    | Ok x, Ok y => same x y
    | Err e, Err e' => e = e'
    | _, _ => False
    end.
  Proof.
    induction T as [|r T IH]; intros d d' H; auto. cbn [fold_res].
    assert (HS : match max_lambda_step C r d, max_lambda_step C' r d' with Ok x, Ok y => same x y | Err e, Err e' => e = e' | _, _ => False end).
    { unfold max_lambda_step. rewrite in_set_perm. destruct (in_set C' (c_parent r) && _); auto. rewrite (H (c_parent r)).
      destruct (dict_get d' (c_parent r)) as [o|]; cbn [bind]; auto. now apply same_set. }
    destruct (max_lambda_step C r d), (max_lambda_step C' r d'); cbn [bind]; try tauto. now apply IH.
  Qed.

  Lemma start_same : same (map (fun c => (c, la_zero LA)) (nodup Nat.eq_dec C)) (map (fun c => (c, la_zero LA)) (nodup Nat.eq_dec C')).
  Proof.
    intro k.
    assert (HG : forall l : list nat, NoDup l -> dict_get (map (fun c => (c, la_zero LA)) l) k = if in_dec Nat.eq_dec k l then Ok (la_zero LA) else Err KeyError).
    { intros l Hl. destruct (in_dec Nat.eq_dec k l) as [Hi|Hi].
      - apply dict_get_unique; [now rewrite map_map, map_id|]. apply in_map_iff. eauto.
      - apply dict_get_none. now rewrite map_map, map_id. }
    rewrite !HG by apply NoDup_nodup.
    destruct (in_dec Nat.eq_dec k (nodup Nat.eq_dec C)) as [H|H], (in_dec Nat.eq_dec k (nodup Nat.eq_dec C')) as [H'|H']; auto; exfalso.
    - apply H'. apply (Permutation_in _ nodup_perm H).
    - apply H. apply (Permutation_in _ (Permutation_sym nodup_perm) H').
  Qed.

  Lemma strengths_perm T ls : get_point_membership_strength_vector LA T C ls = get_point_membership_strength_vector LA T C' ls.
  Proof.
    unfold get_point_membership_strength_vector, max_lambdas. pose proof (max_lambda_perm T _ _ start_same) as H.
    destruct (fold_res (max_lambda_step C) T _) as [d|], (fold_res (max_lambda_step C') T _) as [d'|]; cbn [bind]; try tauto; [|now rewrite H].
    destruct (array_min _) as [root|]; auto. cbn [bind].
    assert (E : forall (l : list (crow V Sz)) (x : nat -> V), fold_res (strength_step LA C ls d root) l x = fold_res (strength_step LA C' ls d' root) l x).
    { induction l as [|r l IH]; intro x; auto. cbn [fold_res]. assert (ES : strength_step LA C ls d root r x = strength_step LA C' ls d' root r x).
      { unfold strength_step. rewrite nsort_perm_eq. destruct (root <=? c_child r); auto. destruct (nth_error ls (c_child r)) as [z|]; auto.
        destruct (z <? 0)%Z; auto. destruct (nth_error (nsort _ C') _) as [c|]; auto. now rewrite (H c). }
      rewrite ES. destruct (strength_step LA C' ls d' root r x); auto. cbn [bind]. apply IH. }
    now rewrite E.
  Qed.

  Lemma finish_perm (st : settings V Sz) T n : labels_and_strengths_of LA st T n C = labels_and_strengths_of LA st T n C'.
  Proof.
    unfold labels_and_strengths_of. rewrite labels_perm. destruct (get_cluster_label_vector LA T C' _ n) as [ls|]; auto. cbn [bind]. now rewrite strengths_perm.
  Qed.
End Order.

(** ** Runs *)
Section General.
  Context {W V : WOrd}.
  Variables (lam : W -> V) (LA : LamArith V) (A : Arith V NatSize) (B : BArith) (NN : bscore B -> Prop) (garbage : nat -> V)
    (by_parent : list (crow V NatSize) -> list (crow V NatSize)) (listed : list nat -> list nat) (st : settings V NatSize) (labels : list Z) (virtual : bool).
  Variables (n : nat) (M : list (edge W)).
  Hypothesis HK : setting_ok lam LA A by_parent st.
  Hypothesis HBL : BLaws B NN.
  Hypothesis Hlisted : forall l, Permutation (listed l) l.
  Hypothesis Hlen : length labels = n.
  Hypothesis Hleaf : leaves_ok A (la_zero LA) n (fun _ => 1) (min_cluster_size st).
  Hypothesis HM : spanning_tree n M.
  Hypothesis Hn : 2 <= n.
  Notation run := (semi_clusters_from_spanning_tree lam LA A B garbage by_parent listed st labels virtual M).

  Lemma unit_small x : x < n -> sle (min_cluster_size st) 1 = false.
  Proof. intros _. pose proof (us_size _ _ (so_usable _ _ _ _ _ HK)) as H. now apply slt_true in H. Qed.

  Lemma c48_total : completes LA st n (fun _ => 1) run.
  Proof.
    destruct (linkage_plain n M HM) as (L & EL & HL). unfold semi_clusters_from_spanning_tree. rewrite EL. cbn [bind]. rewrite (facts_length n M HM).
    apply (semi_total lam LA A B NN garbage by_parent listed st labels virtual n _ M L); auto. apply unit_small.
  Qed.

  Lemma c48_sizes ls ps T : run = Ok (ls, ps, T) -> (forall e, In e M -> wlt (la_zero LA) (lam (ewt e)) = true) -> root_ok st ->
    large_clusters (Sz := NatSize) n (fun _ => 1) (min_cluster_size st) ls /\ numbered n ls.
  Proof.
    intros ER Hf HR. destruct (linkage_plain n M HM) as (L & EL & HL). unfold semi_clusters_from_spanning_tree in ER. rewrite EL in ER. cbn [bind] in ER.
    rewrite (facts_length n M HM) in ER. eapply (semi_sizes lam LA A B NN garbage by_parent listed st labels virtual n _ M L); eauto. apply unit_small.
  Qed.

  Lemma c48_meaning ls ps T : run = Ok (ls, ps, T) -> exists R E,
    semi_selected_clusters_of A B listed st labels virtual T n = Ok R /\
    condensed (Sz := NatSize) n (fun _ => 1) (min_cluster_size st) T /\ epsilon_clusters_of by_parent st T R = Ok E /\
    NoDup E /\ (forall c, In c E -> is_cluster n T c) /\ disjoint_clusters n T E /\ (cluster_selection_epsilon st = None -> E = R) /\
    (E = [] -> ls = repeat (-1)%Z n) /\
    (E <> [] -> forall r, In r T -> c_child r < n ->
       right_label (la_zero LA) n T E (option_map snd (cluster_selection_epsilon st)) r (nth (c_child r) ls 0%Z)).
  Proof.
    intros ER. destruct (linkage_plain n M HM) as (L & EL & HL). unfold semi_clusters_from_spanning_tree in ER. rewrite EL in ER. cbn [bind] in ER.
    rewrite (facts_length n M HM) in ER. eapply (semi_meaning lam LA A B NN garbage by_parent listed st labels virtual n _ M L); eauto. apply unit_small.
  Qed.
End General.

Section ExactSemi.
  Variables (garbage : nat -> QInf) (by_parent : list (crow QInf NatSize) -> list (crow QInf NatSize)) (listed : list nat -> list nat)
    (mcs : nat) (m : selection_method) (a : bool) (e p : Qc) (labels : list Z) (virtual : bool) (n : nat) (M : list (edge QInf)).
  Hypothesis HB : sorts_by_parent by_parent.
  Hypothesis Hlisted : forall l, Permutation (listed l) l.
  Hypothesis Hm : 2 <= mcs.
  Hypothesis HM : spanning_tree n M.
  Hypothesis Hn : 2 <= n.
  Hypothesis Hlen : length labels = n.
  Notation st := (exact_settings (Sz := NatSize) mcs m a e p).
  Notation run := (exact_semi_clusters garbage by_parent listed st labels virtual M).

  Lemma exact_st : setting_ok hdbscan_lambda_value ExactLam (ExactArith NatSize nat_as_q) by_parent st.
  Proof. apply exact_ok; auto. now apply nat_mcs. Qed.
  Lemma exact_lv : leaves_ok (Sz := NatSize) (ExactArith NatSize nat_as_q) (Some 0%Qc : QInf) n (fun _ => 1) mcs.
  Proof. apply exact_leaves; auto. lia. Qed.

  Lemma c48_exact : completes ExactLam st n (fun _ => 1) run.
  Proof. apply (c48_total _ _ _ ExactB (fun b => (0 <= b)%Qc)); auto; [apply exact_st|apply exact_b_laws|apply exact_lv]. Qed.

  Lemma c48_exact_sizes ls ps T : run = Ok (ls, ps, T) -> (forall x, In x M -> wfinite (ewt x) = true) ->
    (a = true -> m = Eom -> (e <= 0)%Qc /\ (p <= 0)%Qc) ->
    numbered n ls /\
    forall x, x < n -> nth x ls 0%Z <> (-1)%Z ->
      exists ys, NoDup ys /\ (forall y, In y ys <-> y < n /\ nth y ls 0%Z = nth x ls 0%Z) /\ mcs <= length ys.
  Proof.
    intros ER Hf HR.
    destruct (c48_sizes hdbscan_lambda_value ExactLam (ExactArith NatSize nat_as_q) ExactB (fun b => (0 <= b)%Qc) garbage by_parent listed st labels virtual n M
      exact_st exact_b_laws Hlisted Hlen exact_lv HM Hn ls ps T ER) as [H1 H2].
    - intros x Hx. apply exact_positive; auto.
    - intros Ha Hme. cbn in Ha, Hme. destruct (HR Ha Hme) as [He Hp]. apply Qcleb_le in He. apply Qcleb_le in Hp. cbn. rewrite He, Hp. auto.
    - split; auto. intros x Hx Hl. destruct (H1 x Hx Hl) as (ys & H3 & H4 & H5). exists ys. split; auto. split; auto.
      rewrite ssum_ones in H5. apply Nat.leb_le. auto.
  Qed.

  (** Without labels and without an epsilon the run is the unsupervised one. *)
  Lemma c48_unlabelled ls ps T : run = Ok (ls, ps, T) -> (forall x, x < n -> (nth x labels (-1) < 0)%Z) -> (e <= 0)%Qc -> all_finite T ->
    exact_clusters garbage by_parent st M = Ok (ls, ps, T).
  Proof.
    intros ER Hnone He Hfin. pose proof exact_st as HK. destruct (linkage_plain n M HM) as (L & EL & HL).
    unfold exact_semi_clusters, semi_clusters_from_spanning_tree in ER. unfold exact_clusters, clusters_from_spanning_tree. rewrite EL in *. cbn [bind] in *.
    rewrite (facts_length n M HM) in *.
    pose proof HK as [H1 H2 H3 H4 H5 H6]. pose proof HL as (L1 & L2 & L3 & _).
    assert (Hsel := semi_selects (W := QInf) hdbscan_lambda_value ExactLam (ExactArith NatSize nat_as_q) ExactB (fun b => (0 <= b)%Qc) by_parent listed st labels virtual n
      (fun _ => 1) HK exact_b_laws Hlisted Hlen exact_lv Hn eq_refl).
    destruct (run_good hdbscan_lambda_value ExactLam (semi_sel (ExactArith NatSize nat_as_q) ExactB listed st labels virtual n) garbage by_parent st n (fun _ => 1) L H2 H1 H3
      Hsel eq_refl Hn H5 H6 L1 L2 L3 (unit_small _ _ _ _ _ _ HK) ls ps T ER) as (R & E & HX & HT & _ & Hpos & _).
    assert (Eeps : cluster_selection_epsilon st = None) by (cbn; now rewrite (proj2 (Qcleb_le _ _) He)).
    assert (EC : condensed_tree_of hdbscan_lambda_value garbage st (fun _ => 1) L = Ok T).
    { unfold semi_clusters_from_linkage_tree in ER. destruct (condensed_tree_of _ _ _ _ _) as [T'|]; [|discriminate]. cbn [bind] in ER.
      destruct (semi_selected_clusters_of _ _ _ _ _ _ T' n) as [S'|]; [|discriminate]. cbn [bind] in ER.
      destruct (epsilon_clusters_of _ _ T' S') as [E'|]; [|discriminate]. cbn [bind] in ER.
      destruct (labels_and_strengths_of _ _ T' n E') as [[? ?]|]; [|discriminate]. cbn [bind] in ER. congruence. }
    unfold clusters_from_linkage_tree. rewrite EC. cbn [bind].
    destruct (plain_selects ExactLam (ExactArith NatSize nat_as_q) st n (fun _ => 1) H1 H4 Hn T HT Hpos) as (R' & ER' & HR').
    unfold plain_sel in ER'. rewrite ER'. cbn [bind].
    pose proof (oc_select _ _ _ _ _ _ _ _ _ _ HX) as ES. pose proof (oc_labels _ _ _ _ _ _ _ _ _ _ HX) as Elab.
    pose proof (oc_eps_none _ _ _ _ _ _ _ _ _ _ HX Eeps) as ->.
    assert (HP : Permutation R R').
    { apply NoDup_Permutation; [apply (oc_S_nodup _ _ _ _ _ _ _ _ _ _ HX)|apply HR'|].
      unfold semi_sel, semi_selected_clusters_of in ES. unfold selected_clusters_of in ER'. destruct m; cbn [cluster_selection_method exact_settings] in *.
      - eapply (c40_unlabelled n mcs T labels listed virtual a HT Hlisted Hm ltac:(lia) Hlen Hfin); eauto.
        intros r Hr. pose proof (Hpos r Hr) as Hp. unfold lam_q. destruct (c_lam r); [now apply Qcleb_le in Hp|apply Qcle_refl].
      - unfold selected_clusters_of in ES. cbn [cluster_selection_method exact_settings] in ES. intro c. rewrite ER' in ES. injection ES as ->. tauto. }
    unfold epsilon_clusters_of. rewrite Eeps. cbn [bind]. rewrite <- (finish_perm ExactLam R R' HP), Elab. reflexivity.
  Qed.
End ExactSemi.

(** ** Cannot-link pairs with labelled samples *)
Definition semi_labels (given : list Z) : option (list Z) :=
  match resolve_cl_params 6 (Some ex_pairs) true None with
  | Err _ => None
  | Ok cl => match precomputed_kruskal (Some 0%Qc : QInf) ex_entries 6 1 cl with
    | Err _ => None
    | Ok (M, _, _) => match exact_semi_clusters (fun _ => None) by_parent_of (fun l => l) (exact_settings (Sz := NatSize) 2 Eom false 0%Qc 0%Qc) given true M with
      | Err _ => None
      | Ok (ls, _, _) => Some ls
      end
    end
  end.

Lemma semi_constraints_refuted :
  exists entries X cl M nbrs core given ls ps T x y,
    in_range 6 entries /\ valid_constraints 6 (Some X) None /\
    resolve_cl_params 6 (Some X) true None = Ok cl /\
    precomputed_kruskal (Some 0%Qc : QInf) entries 6 1 cl = Ok (M, nbrs, core) /\
    exact_semi_clusters (fun _ => None) by_parent_of (fun l => l) (exact_settings (Sz := NatSize) 2 Eom false 0%Qc 0%Qc) given true M = Ok (ls, ps, T) /\
    user_constraints (Some (sp_entries X)) None x y /\ nth x given (-1)%Z = (-1)%Z /\ nth y given (-1)%Z = (-1)%Z /\
    nth x ls 0%Z = nth y ls 0%Z /\ nth x ls 0%Z <> (-1)%Z.
Proof.
  assert (H : semi_labels [-1; 0; -1; 0; 1; 1]%Z = Some [0; 0; 0; 0; 1; 1]%Z) by (vm_compute; reflexivity).
  unfold semi_labels in H. destruct (resolve_cl_params 6 (Some ex_pairs) true None) as [cl|] eqn:E1; [|discriminate].
  destruct (precomputed_kruskal _ ex_entries 6 1 cl) as [[[M nbrs] core]|] eqn:E2; [|discriminate].
  destruct (exact_semi_clusters _ by_parent_of _ _ _ _ M) as [[[ls ps] T]|] eqn:E3; [|discriminate]. injection H as ->.
  exists ex_entries, ex_pairs, cl, M, nbrs, core, [-1; 0; -1; 0; 1; 1]%Z, [0; 0; 0; 0; 1; 1]%Z, ps, T, 0, 2.
  split; [exact ex_range|]. split; [exact ex_valid|]. split; auto. split; auto. split; auto.
  split; [|repeat split; discriminate]. split; [discriminate|]. exists 1%Z. split; [discriminate|]. left. left. reflexivity.
Qed.
