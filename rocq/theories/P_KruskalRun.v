(** The Kruskal entry points. *)
From Coq Require Import List Arith Lia Bool Permutation Sorted ZArith.
From Verif Require Import Prelude Order Graph UF M_Kruskal M_Precomputed M_KruskalEntry S_Kruskal S_Precomputed
  P_Sort P_Kruskal P_Forest P_KruskalCL P_Precomputed P_Precomputed2.
Import ListNotations.

Lemma map_nth_seq {A} (l : list A) d : map (fun j => nth j l d) (seq 0 (length l)) = l.
Proof.
  apply (nth_ext _ _ d d); [now rewrite map_length, seq_length|].
  intros i Hi. rewrite map_length, seq_length in Hi. now rewrite nth_map_seq.
Qed.

Lemma distinct_unique l : distinct l = length (unique l).
Proof. unfold distinct, unique. now rewrite nsort_length. Qed.

(** ** From user constraints to the relation the kernels enforce *)
Section Resolve.
  Lemma indptr_at rows i :
    i <= length rows ->
    nth i (cl_indptr (pattern_of_rows rows)) 0 = length (concat (firstn i rows)).
  Proof. intro H. unfold pattern_of_rows; cbn [cl_indptr]. rewrite nth_map_seq by lia. auto. Qed.

  Lemma pattern_wf rows : csr_wf (length rows) (pattern_of_rows rows).
  Proof.
    split; [|split].
    - now rewrite indptr_at by lia.
    - intros i Hi. rewrite !indptr_at by lia.
      destruct (nth_error rows i) as [r|] eqn:E; [|apply nth_error_None in E; lia].
      rewrite (firstn_S_nth rows i r E), concat_app, app_length. lia.
    - rewrite indptr_at by lia. now rewrite firstn_all.
  Qed.

  Lemma pattern_row rows i : i < length rows -> cl_row (pattern_of_rows rows) i = nth i rows [].
  Proof.
    intro H. unfold cl_row. rewrite !indptr_at by lia. cbn [cl_indices pattern_of_rows].
    now apply slice_concat.
  Qed.

  Lemma value_at_nonneg E i j :
    (forall e, In e E -> (0 <= ewt e)%Z) -> (0 <= value_at E i j)%Z.
  Proof.
    intro H. unfold value_at. induction E as [|e E IH]; simpl; [lia|].
    assert (0 <= ewt e)%Z by (apply H; simpl; auto).
    assert (forall f, In f E -> (0 <= ewt f)%Z) by (intros; apply H; simpl; auto).
    destruct ((esrc e =? i) && (edst e =? j)); simpl; auto. specialize (IH H1). lia.
  Qed.

  Lemma value_at_zero E i j :
    (forall e, In e E -> (0 <= ewt e)%Z) ->
    (value_at E i j <> 0%Z <-> exists v, v <> 0%Z /\ In (i, j, v) E).
  Proof.
    induction E as [|e E IH]; intro H.
    - split; [intro K; now destruct K|intros (v & _ & [])].
    - assert (He : (0 <= ewt e)%Z) by (apply H; simpl; auto).
      assert (HE : forall f, In f E -> (0 <= ewt f)%Z) by (intros; apply H; simpl; auto).
      specialize (IH HE). pose proof (value_at_nonneg E i j HE) as Hnn.
      destruct e as [[a b] v]. unfold value_at in *; unfold esrc, edst, ewt in *; cbn [filter fst snd] in *.
      destruct (Nat.eqb_spec a i) as [->|Ha]; destruct (Nat.eqb_spec b j) as [->|Hb];
        cbn [andb map fold_right snd] in *;
        try (rewrite IH; split; intros (u & Hu & Hin); exists u; split; auto; simpl in *;
             [tauto|destruct Hin as [Hin|?]; auto; inversion Hin; congruence]).
      split.
      + intro K. destruct (Z.eq_dec v 0) as [->|Hv].
        * destruct IH as [IH _]. destruct IH as (u & Hu & Hin); [intro; lia|].
          exists u. simpl; auto.
        * exists v. simpl; auto.
      + intros (u & Hu & [[= ->]|Hin]); [lia|].
        destruct IH as [_ IH]. apply (fun K => IH (ex_intro _ u (conj Hu K))) in Hin. lia.
  Qed.

  (** What a resolved parameter dictionary means. *)
  Definition denotes (n : nat) (cl : cl_params) (CL : cannot_link) : Prop :=
    match cl with
    | CLNone => forall x y, ~ CL x y
    | CLPairs c =>
        csr_wf n c /\
        (forall x y, cl_rel n c x y -> y < n) /\
        (forall x y, cl_rel n c x y -> cl_rel n c y x) /\
        (forall x y, CL x y <-> x <> y /\ cl_rel n c x y)
    | CLGroups labels k =>
        length labels = n /\
        (forall i, i < n -> (nth i labels (-1) < Z.of_nat k)%Z) /\
        (forall x y, CL x y <-> same_group labels x y)
    end.

  Lemma resolve_pairs n X :
    sp_rows X = n -> sp_cols X = n -> in_range n (sp_entries X) ->
    (forall e, In e (sp_entries X) -> (0 <= ewt e)%Z) ->
    exists cl, resolve_cl_params n (Some X) true None = Ok cl /\
               denotes n cl (linked_pairs (sp_entries X)).
  Proof.
    intros Hr Hc HR Hnn. unfold resolve_cl_params, validate_cannot_link. cbn [negb].
    rewrite Hr, Hc, Nat.eqb_refl. cbn [andb negb].
    destruct (Nat.eqb_spec (length (sp_entries X)) 0) as [E|E]; cbn [bind].
    - eexists. split; [reflexivity|]. apply length_zero_iff_nil in E. rewrite E.
      assert (Hz : forall i, nth i (repeat 0 (S n)) 0 = 0).
      { intro i. destruct (Nat.lt_ge_cases i (S n)).
        - apply nth_repeat.
        - apply nth_overflow. rewrite repeat_length. lia. }
      assert (Hrow : forall x y, ~ cl_rel n (empty_pattern n) x y).
      { intros x y [_ H]. unfold cl_row, empty_pattern, slice in H. cbn [cl_indices cl_indptr] in H.
        rewrite skipn_nil, firstn_nil in H. auto. }
      unfold denotes. split; [|split; [|split]].
      + unfold csr_wf, empty_pattern; cbn [cl_indptr cl_indices]. rewrite !Hz.
        split; auto. split; auto. intros. rewrite !Hz. auto.
      + intros x y H. now apply Hrow in H.
      + intros x y H. now apply Hrow in H.
      + intros x y. split; [intros (_ & v & _ & [[]|[]])|intros [_ H]; now apply Hrow in H].
    - eexists. split; [reflexivity|].
      set (rows := map _ _). assert (HL : length rows = n) by (unfold rows; now rewrite map_length, seq_length).
      assert (Hrel : forall x y, cl_rel n (pattern_of_rows rows) x y <->
                x < n /\ y < n /\ exists v, v <> 0%Z /\ (In (x, y, v) (sp_entries X) \/ In (y, x, v) (sp_entries X))).
      { intros x y. unfold cl_rel. split.
        - intros [Hx H]. rewrite pattern_row in H by lia. unfold rows in H.
          rewrite nth_map_seq in H by lia. apply filter_In in H as [H1 H2]. apply in_seq in H1.
          split; auto. split; [lia|]. apply negb_true_iff, Z.eqb_neq in H2.
          destruct (Z.eq_dec (value_at (sp_entries X) x y) 0) as [Ez|Ez].
          + assert (value_at (sp_entries X) y x <> 0%Z) as K by lia.
            apply value_at_zero in K as (v & ? & ?); auto. eauto.
          + apply value_at_zero in Ez as (v & ? & ?); auto. eauto.
        - intros (Hx & Hy & v & Hv & Hin). split; auto.
          rewrite pattern_row by lia. unfold rows. rewrite nth_map_seq by lia.
          apply filter_In. split; [apply in_seq; lia|]. apply negb_true_iff, Z.eqb_neq.
          pose proof (value_at_nonneg (sp_entries X) x y Hnn). pose proof (value_at_nonneg (sp_entries X) y x Hnn).
          destruct Hin as [Hin|Hin].
          + assert (value_at (sp_entries X) x y <> 0%Z) by (apply value_at_zero; eauto). lia.
          + assert (value_at (sp_entries X) y x <> 0%Z) by (apply value_at_zero; eauto). lia. }
      unfold denotes. split; [|split; [|split]].
      + rewrite <- HL. apply pattern_wf.
      + intros x y H. now apply Hrel in H.
      + intros x y H. apply Hrel in H as (Hx & Hy & v & Hv & Hin). apply Hrel.
        split; auto. split; auto. exists v. tauto.
      + intros x y. rewrite Hrel. unfold linked_pairs. split.
        * intros (Hne & v & Hv & Hin). split; auto.
          assert (x < n /\ y < n).
          { destruct Hin as [Hin|Hin]; apply HR in Hin; unfold esrc, edst in Hin; simpl in Hin; lia. }
          destruct H. split; auto. split; auto. eauto.
        * intros (Hne & _ & _ & K). auto.
  Qed.

  (** Without validation the caller promises a symmetric pattern. *)
  Lemma resolve_pairs_unvalidated n X :
    sp_rows X = n -> sp_cols X = n -> in_range n (sp_entries X) ->
    (forall e, In e (sp_entries X) -> ewt e <> 0%Z) ->
    (forall i j v, In (i, j, v) (sp_entries X) -> exists v', In (j, i, v') (sp_entries X)) ->
    exists cl, resolve_cl_params n (Some X) false None = Ok cl /\
               denotes n cl (linked_pairs (sp_entries X)).
  Proof.
    intros Hr Hc HR Hnz Hsym. unfold resolve_cl_params, validate_cannot_link. cbn [negb].
    destruct (Nat.eqb_spec (length (sp_entries X)) 0) as [E|E]; cbn [bind].
    - destruct (resolve_pairs n X Hr Hc HR) as (cl & H1 & H2).
      { apply length_zero_iff_nil in E. rewrite E. intros e []. }
      unfold resolve_cl_params, validate_cannot_link in H1. cbn [negb] in H1.
      rewrite Hr, Hc, Nat.eqb_refl in H1. cbn [andb negb] in H1.
      rewrite (proj2 (Nat.eqb_eq _ _) E) in H1. eauto.
    - eexists. split; [reflexivity|]. rewrite Hr.
      set (rows := map _ _). assert (HL : length rows = n) by (unfold rows; now rewrite map_length, seq_length).
      assert (Hrel : forall x y, cl_rel n (pattern_of_rows rows) x y <->
                x < n /\ exists v, In (x, y, v) (sp_entries X)).
      { intros x y. unfold cl_rel. split.
        - intros [Hx H]. rewrite pattern_row in H by lia. unfold rows in H.
          rewrite nth_map_seq in H by lia. apply in_map_iff in H as ([[a b] v] & <- & H).
          apply filter_In in H as [H1 H2]. apply Nat.eqb_eq in H2. unfold esrc in H2. simpl in H2. subst.
          split; auto. exists v. auto.
        - intros (Hx & v & Hin). split; auto. rewrite pattern_row by lia. unfold rows.
          rewrite nth_map_seq by lia. apply in_map_iff. exists (x, y, v). split; auto.
          apply filter_In. split; auto. unfold esrc. simpl. apply Nat.eqb_refl. }
      unfold denotes. split; [|split; [|split]].
      + rewrite <- HL. apply pattern_wf.
      + intros x y H. apply Hrel in H as (_ & v & H). apply HR in H. apply H.
      + intros x y H. apply Hrel in H as (_ & v & H). pose proof (Hsym _ _ _ H) as [v' H'].
        apply Hrel. apply HR in H as [_ H]. split; [exact H|eauto].
      + intros x y. rewrite Hrel. unfold linked_pairs. split.
        * intros (Hne & v & Hv & [Hin|Hin]); split; auto.
          -- split; [now apply HR in Hin|eauto].
          -- split; [now apply HR in Hin|]. eauto.
        * intros (Hne & _ & v & Hin). split; auto. exists v. split; auto. apply (Hnz _ Hin).
  Qed.

  Lemma resolve_groups n g :
    length g = n -> (forall x, In x g -> (-1 <= x)%Z) ->
    exists cl, resolve_cl_params n None true (Some g) = Ok cl /\ denotes n cl (same_group g).
  Proof.
    intros HL Hmin. unfold resolve_cl_params, validate_groups.
    rewrite HL, Nat.eqb_refl. cbn [negb].
    destruct (existsb (fun x => (x <? -1)%Z) g) eqn:E1.
    { apply existsb_exists in E1 as (x & Hx & E1). apply Z.ltb_lt in E1. apply Hmin in Hx. lia. }
    assert (Hmax : forall x, In x g -> (x <= fold_right Z.max (-1) g)%Z).
    { clear. induction g as [|a g IH]; simpl; [tauto|]. intros x [->|H]; [lia|].
      specialize (IH x H). lia. }
    destruct (existsb (fun x => (0 <=? x)%Z) g) eqn:E2; cbn [bind]; eexists; (split; [reflexivity|]).
    - unfold denotes. split; auto. split; [|tauto]. intros i Hi.
      apply existsb_exists in E2 as (x & Hx & E2). apply Z.leb_le in E2.
      pose proof (Hmax x Hx). pose proof (Hmax (nth i g (-1)%Z) (nth_In g (-1)%Z (n := i) ltac:(lia))).
      rewrite Nat2Z.inj_add, Z2Nat.id by lia. simpl. lia.
    - unfold denotes. split; auto. split; [|tauto]. intros i Hi.
      assert (K : (0 <=? nth i g (-1))%Z = false).
      { destruct (0 <=? nth i g (-1))%Z eqn:K; auto.
        rewrite <- E2. symmetry. apply existsb_exists. exists (nth i g (-1)%Z). split; auto.
        apply nth_In. lia. }
      apply Z.leb_gt in K. simpl. lia.
  Qed.

  Lemma resolve_none n : exists cl, resolve_cl_params n None true None = Ok cl /\ denotes n cl no_constraint.
  Proof. eexists. split; [reflexivity|]. intros x y []. Qed.

  Lemma denotes_shape n cl CL : denotes n cl CL ->
    (forall x y, CL x y -> x < n /\ y < n) /\ (forall x y, CL x y -> CL y x) /\ (forall x, ~ CL x x).
  Proof.
    destruct cl as [|c|labels k]; simpl.
    - intro H. split; [|split]; [intros x y K|intros x y K|intros x K]; exfalso; eapply H; exact K.
    - intros (_ & H1 & H2 & H3). split; [|split].
      + intros x y H. apply H3 in H as [_ H]. split; [apply H|eapply H1; eauto].
      + intros x y H. apply H3 in H as [Hn H]. apply H3. auto.
      + intros x H. apply H3 in H. tauto.
    - intros (HL & _ & H). split; [|split].
      + intros x y K. apply H in K. unfold same_group in K. lia.
      + intros x y K. apply H in K. apply H. unfold same_group in *. lia.
      + intros x K. apply H in K. unfold same_group in *. tauto.
  Qed.
End Resolve.

(** ** The core, for every kind of constraint *)
Section Run.
  Context {W : WOrd}.

  Lemma sorts_edges (edges : list (edge W)) order :
    sorts edges order ->
    exists es, map (nth_error edges) order = map Some es /\ sorted_by ewt es /\ Permutation es edges.
  Proof.
    intros [HP HS].
    destruct edges as [|d edges'] eqn:Ee.
    { simpl in HP. apply Permutation_nil in HP as ->. exists []. split; auto. split; constructor. }
    rewrite <- Ee in *.
    assert (Hlt : forall j, In j order -> j < length edges).
    { intros j Hj. eapply Permutation_in in Hj; [|apply Permutation_sym; eauto]. apply in_seq in Hj. lia. }
    assert (Hne : forall j, In j order -> nth_error edges j = Some (nth j edges d)).
    { intros j Hj. apply nth_error_nth'. auto. }
    exists (map (fun j => nth j edges d) order). split; [|split].
    - rewrite map_map. apply map_ext_in. auto.
    - clear HP Hlt. unfold sorted_by in *. induction HS as [|j l Hs IH Hf]; simpl; constructor.
      + apply IH. intros; apply Hne; simpl; auto.
      + rewrite Forall_forall in *. intros e He. apply in_map_iff in He as (k & <- & Hk).
        specialize (Hf k Hk). rewrite !Hne in Hf by (simpl; auto). auto.
    - pose proof (Permutation_map (fun j => nth j edges d) (Permutation_sym HP)) as K.
      now rewrite map_nth_seq in K.
  Qed.

  Lemma argsort_sorts (edges : list (edge W)) : sorts edges (argsort edges).
  Proof. split; [apply isort_perm|apply isort_sorted]. Qed.

  Definition run_post (n : nat) (CL : cannot_link) (es : list (edge W)) (M : list (edge W)) (p : nat -> nat) : Prop :=
    uf_wf n p /\ classes n p (connected M) /\ in_range n M /\
    nroots n p + length M = n /\ greedy CL [] es M.

  Lemma greedy_rel (CL CL' : cannot_link) M es M' :
    (forall x y, CL x y <-> CL' x y) -> greedy (W := W) CL M es M' -> greedy CL' M es M'.
  Proof.
    intros He H.
    assert (Hf : forall M u v, forbidden (W := W) CL M u v <-> forbidden CL' M u v)
      by (intros; split; apply forbidden_ext; apply He).
    induction H; [constructor|apply greedy_keep|apply greedy_drop]; auto; rewrite <- ?Hf; auto.
  Qed.

  Lemma core_free_ok n (edges : list (edge W)) order es :
    0 < n -> in_range n edges -> map (nth_error edges) order = map Some es ->
    exists M p, kruskal_core n edges order = Ok (M, p) /\ run_post n no_constraint es M p.
  Proof.
    intros Hn HR Hm.
    destruct (kernel_ok (W := W) (A := unit) n (fun _ _ _ _ => Ok false) (fun a _ _ => a) no_constraint (fun _ _ => True))
      with (edges := edges) (order := order) (es := es) (a := tt)
      as (M & p & H1 & H2); auto.
    - intros x y [].
    - intros. exists false. split; auto. split; [discriminate|intros (x & y & [] & _)].
    - exists M, p. split; auto.
  Qed.

  Lemma pairs_kernel_ok n (edges : list (edge W)) order es c CL :
    0 < n -> in_range n edges -> map (nth_error edges) order = map Some es ->
    denotes n (CLPairs c) CL ->
    exists M p, kruskal_core_constrained n edges order c = Ok (M, p) /\ run_post n CL es M p.
  Proof.
    intros Hn HR Hm Hd. destruct (denotes_shape n (CLPairs c) CL Hd) as (Hrange & Hsym & Hirr).
    destruct Hd as (Hwf & H1 & H2 & H3).
    destruct (kernel_ok (W := W) n (pool_conflict n) pool_merge CL (pool_inv n c))
      with (edges := edges) (order := order) (es := es) (a := pool_init n c)
      as (M & p & K1 & K2); auto.
    - intros p a ru rv Hp Ha Hu Hv Pu Pv Hne.
      destruct (pool_conflict_ok n c) with (p := p) (a := a) (ru := ru) (rv := rv)
        as (b & B1 & B2); auto.
      { intros x y H. split; [apply H|eapply H1; eauto]. }
      exists b. split; auto. rewrite B2. split; intros (x & y & C1 & C2 & C3); exists x, y.
      + split; auto. apply H3. split; auto. intros ->. apply Hne. eapply Root_det; eauto.
      + split; auto. now apply H3 in C1.
    - intros p q a. apply pool_inv_stable.
    - intros p a new old. apply pool_inv_merge.
    - now apply pool_init_inv.
    - exists M, p. split; auto.
  Qed.

  Lemma groups_kernel_ok n (edges : list (edge W)) order es labels k CL :
    0 < n -> in_range n edges -> map (nth_error edges) order = map Some es ->
    denotes n (CLGroups labels k) CL ->
    exists M p, kruskal_core_group n edges order labels k = Ok (M, p) /\ run_post n CL es M p.
  Proof.
    intros Hn HR Hm Hd. destruct (denotes_shape n (CLGroups labels k) CL Hd) as (Hrange & Hsym & Hirr).
    destruct Hd as (HL & Hk & HC). subst n.
    destruct (kernel_ok (W := W) (length labels) (mask_conflict ((k + 63) / 64)) (mask_merge ((k + 63) / 64)) CL (mask_inv labels))
      with (edges := edges) (order := order) (es := es) (a := mask_init labels)
      as (M & p & K1 & K2); auto.
    - intros p a ru rv Hp Ha Hu Hv Pu Pv Hne.
      destruct (mask_conflict_ok labels k Hk p a ru rv) as (b & B1 & B2); auto.
      exists b. split; auto. rewrite B2.
      split; intros (x & y & C1 & C2); exists x, y; (split; [now apply HC|auto]).
    - intros p q a. apply mask_inv_stable.
    - intros p a new old. now apply mask_inv_merge.
    - apply mask_init_inv.
    - exists M, p. split; auto.
  Qed.

  Lemma run_ok n (edges : list (edge W)) order es cl CL :
    0 < n -> in_range n edges -> map (nth_error edges) order = map Some es -> denotes n cl CL ->
    exists M p, run_kruskal_core n edges order cl = Ok (M, p) /\ run_post n CL es M p.
  Proof.
    intros Hn HR Hm Hd.
    assert (Hfree : (forall x y, ~ CL x y) ->
      exists M p, kruskal_core n edges order = Ok (M, p) /\ run_post n CL es M p).
    { intro H. destruct (core_free_ok n edges order es Hn HR Hm) as (M & p & H1 & H2).
      exists M, p. split; auto. destruct H2 as (A1 & A2 & A3 & A4 & A5).
      split; [|split; [|split; [|split]]]; auto.
      apply (greedy_rel no_constraint); auto. intros x y. split; [intros []|intro K; now apply H in K]. }
    destruct cl as [|c|labels k]; unfold run_kruskal_core.
    - auto.
    - destruct (Nat.ltb_spec 0 (length (cl_indices c))) as [Hlen|Hlen].
      + now apply pairs_kernel_ok.
      + apply Hfree. destruct Hd as (_ & _ & _ & H3). intros x y K. apply H3 in K as [_ [_ K]].
        unfold cl_row in K. apply slice_in in K. destruct (cl_indices c); simpl in *; [auto|lia].
    - destruct (Nat.ltb_spec 0 k) as [Hk0|Hk0].
      + now apply groups_kernel_ok.
      + apply Hfree. destruct Hd as (HL & Hk & HC). intros x y K.
        apply HC in K as (_ & Hx & _ & H0 & _). specialize (Hk x ltac:(lia)). lia.
  Qed.

  Lemma constrained_perm CL (es E M : list (edge W)) :
    Permutation es E -> constrained_forest CL es M -> constrained_forest CL E M.
  Proof.
    intros HP [H1 H2 H3 H4]. split; auto.
    - intros e He. eapply Permutation_in; eauto.
    - intros e He. apply H4. eapply Permutation_in; [apply Permutation_sym|]; eauto.
  Qed.

  Lemma constrained_msf (E M : list (edge W)) :
    constrained_forest no_constraint E M -> min_spanning_forest E M.
  Proof.
    intros [H1 H2 H3 H4]. split; auto. apply levels_of_bottleneck; auto.
    intros e He. destruct (H4 e He) as [H|(x & y & [] & _)]. auto.
  Qed.

  (** The whole core with its labels. *)
  Lemma run_full n (edges : list (edge W)) order cl CL :
    0 < n -> in_range n edges -> sorts edges order -> denotes n cl CL ->
    exists M p labels, run_kruskal_core n edges order cl = Ok (M, p) /\
      get_component_labels n p = Ok labels /\
      constrained_forest CL edges M /\ in_range n M /\
      labels_classes n labels (connected M) /\ distinct labels + length M = n.
  Proof.
    intros Hn HR Hs Hd. destruct (sorts_edges edges order Hs) as (es & Hm & Hsort & HP).
    destruct (run_ok n edges order es cl CL Hn HR Hm Hd) as (M & p & H1 & Hwf & Hc & HRM & Hcnt & HG).
    destruct (get_component_labels_ok n p Hwf) as (ls & L1 & L2 & L3).
    destruct (denotes_shape n cl CL Hd) as (_ & Hsym & Hirr).
    exists M, p, ls. split; auto. split; auto. split.
    - apply (constrained_perm CL es); auto. apply greedy_constrained; auto.
    - split; auto. split.
      + eapply labels_classes_of; eauto.
      + rewrite distinct_unique, (unique_count_roots n p); auto.
  Qed.

  Lemma run_same n (edges : list (edge W)) order cl1 cl2 CL1 CL2 :
    0 < n -> in_range n edges -> sorts edges order ->
    denotes n cl1 CL1 -> denotes n cl2 CL2 -> (forall x y, CL1 x y <-> CL2 x y) ->
    exists M p1 p2, run_kruskal_core n edges order cl1 = Ok (M, p1) /\
                    run_kruskal_core n edges order cl2 = Ok (M, p2).
  Proof.
    intros Hn HR Hs H1 H2 He. destruct (sorts_edges edges order Hs) as (es & Hm & _ & _).
    destruct (run_ok n edges order es cl1 CL1 Hn HR Hm H1) as (M1 & p1 & K1 & _ & _ & _ & _ & G1).
    destruct (run_ok n edges order es cl2 CL2 Hn HR Hm H2) as (M2 & p2 & K2 & _ & _ & _ & _ & G2).
    assert (M1 = M2) as -> by (eapply greedy_det; eauto).
    exists M2, p1, p2. auto.
  Qed.

  (** *** Statements about the user arguments *)
  Lemma resolve_all n X g :
    valid_constraints n X g ->
    exists cl, resolve_cl_params n X true g = Ok cl /\
               denotes n cl (user_constraints (option_map sp_entries X) g).
  Proof.
    destruct X as [X|], g as [g|]; simpl; try tauto.
    - intros (H1 & H2 & H3 & H4). now apply resolve_pairs.
    - intros (H1 & H2). now apply resolve_groups.
    - intros _. apply resolve_none.
  Qed.

  Lemma c03_msf n (edges : list (edge W)) order :
    0 < n -> in_range n edges -> sorts edges order ->
    exists M p, run_kruskal_core n edges order CLNone = Ok (M, p) /\ min_spanning_forest edges M.
  Proof.
    intros Hn HR Hs. destruct (run_full n edges order CLNone no_constraint)
      as (M & p & labels & H1 & _ & H3 & _); auto; [intros x y []|].
    exists M, p. split; auto. now apply constrained_msf.
  Qed.

  Lemma c03_total n (edges : list (edge W)) order M p :
    0 < n -> in_range n edges -> sorts edges order ->
    run_kruskal_core n edges order CLNone = Ok (M, p) ->
    forall F, incl F edges -> acyclic F -> (forall x y, connected F x y <-> connected edges x y) ->
    Forall2 (fun x y => wle x y = true) (sorted_weights M) (sorted_weights F) /\
    forall cost : W -> Z, (forall x y, wle x y = true -> (cost x <= cost y)%Z) ->
      (total cost (map ewt M) <= total cost (map ewt F))%Z.
  Proof.
    intros Hn HR Hs HM F FI FA FC.
    destruct (c03_msf n edges order Hn HR Hs) as (M' & p' & H1 & H2).
    rewrite HM in H1. injection H1 as <- <-.
    pose proof (msf_pointwise n edges M F HR H2 FI FA FC) as HP. split; auto.
    intros cost Hc. rewrite <- !total_sorted. now apply total_pointwise.
  Qed.

  Lemma c04_labels n (edges : list (edge W)) order X g :
    0 < n -> in_range n edges -> sorts edges order -> valid_constraints n X g ->
    exists cl M p labels, resolve_cl_params n X true g = Ok cl /\
      run_kruskal_core n edges order cl = Ok (M, p) /\ get_component_labels n p = Ok labels /\
      labels_classes n labels (connected M) /\ length M + distinct labels = n.
  Proof.
    intros Hn HR Hs HV. destruct (resolve_all n X g HV) as (cl & Hcl & Hd).
    destruct (run_full n edges order cl _ Hn HR Hs Hd) as (M & p & labels & H1 & H2 & H3 & H4 & H5 & H6).
    exists cl, M, p, labels. split; auto. split; auto. split; auto. split; auto. lia.
  Qed.

  Lemma c05_constrained n (edges : list (edge W)) order X g :
    0 < n -> in_range n edges -> sorts edges order -> valid_constraints n X g ->
    exists cl M p, resolve_cl_params n X true g = Ok cl /\
      run_kruskal_core n edges order cl = Ok (M, p) /\
      constrained_forest (user_constraints (option_map sp_entries X) g) edges M.
  Proof.
    intros Hn HR Hs HV. destruct (resolve_all n X g HV) as (cl & Hcl & Hd).
    destruct (run_full n edges order cl _ Hn HR Hs Hd) as (M & p & labels & H1 & H2 & H3 & _).
    exists cl, M, p. auto.
  Qed.

  Lemma c05_unvalidated n (edges : list (edge W)) order X :
    0 < n -> in_range n edges -> sorts edges order ->
    sp_rows X = n -> sp_cols X = n -> in_range n (sp_entries X) ->
    (forall e, In e (sp_entries X) -> ewt e <> 0%Z) ->
    (forall i j v, In (i, j, v) (sp_entries X) -> exists v', In (j, i, v') (sp_entries X)) ->
    exists cl M p, resolve_cl_params n (Some X) false None = Ok cl /\
      run_kruskal_core n edges order cl = Ok (M, p) /\
      constrained_forest (linked_pairs (sp_entries X)) edges M.
  Proof.
    intros Hn HR Hs H1 H2 H3 H4 H5.
    destruct (resolve_pairs_unvalidated n X H1 H2 H3 H4 H5) as (cl & Hcl & Hd).
    destruct (run_full n edges order cl _ Hn HR Hs Hd) as (M & p & labels & K1 & K2 & K3 & _).
    exists cl, M, p. auto.
  Qed.

  Lemma constrained_final CL (edges M : list (edge W)) e :
    constrained_forest CL edges M -> In e edges -> ~ connected M (esrc e) (edst e) ->
    forbidden CL M (esrc e) (edst e).
  Proof.
    intros [_ _ _ H] He Hn.
    assert (HI : incl (passing (fun w => wle w (ewt e)) M) M)
      by (intros f Hf; now apply in_passing in Hf).
    destruct (H e He) as [K|(x & y & K1 & K2 & K3)].
    - exfalso. apply Hn. eapply connected_incl; eauto.
    - exists x, y. split; auto. split; eapply connected_incl; eauto.
  Qed.

  Lemma c06_same_as_pairs n (edges : list (edge W)) order g X :
    0 < n -> in_range n edges -> sorts edges order ->
    valid_constraints n None (Some g) -> valid_constraints n (Some X) None ->
    (forall x y, linked_pairs (sp_entries X) x y <-> same_group g x y) ->
    exists cl1 cl2 M p1 p2,
      resolve_cl_params n None true (Some g) = Ok cl1 /\ resolve_cl_params n (Some X) true None = Ok cl2 /\
      run_kruskal_core n edges order cl1 = Ok (M, p1) /\ run_kruskal_core n edges order cl2 = Ok (M, p2).
  Proof.
    intros Hn HR Hs V1 V2 He.
    destruct (resolve_all n _ _ V1) as (cl1 & C1 & D1). destruct (resolve_all n _ _ V2) as (cl2 & C2 & D2).
    simpl in D1, D2.
    destruct (run_same n edges order cl1 cl2 _ _ Hn HR Hs D1 D2) as (M & p1 & p2 & R1 & R2).
    { intros x y. symmetry. apply He. }
    exists cl1, cl2, M, p1, p2. auto.
  Qed.

  Lemma c07_resolved n (edges : list (edge W)) order X g :
    0 < n -> in_range n edges -> sorts edges order -> valid_constraints n X g ->
    (forall x y, ~ user_constraints (option_map sp_entries X) g x y) ->
    exists cl M p p', resolve_cl_params n X true g = Ok cl /\
      run_kruskal_core n edges order cl = Ok (M, p) /\
      run_kruskal_core n edges order CLNone = Ok (M, p').
  Proof.
    intros Hn HR Hs HV He. destruct (resolve_all n X g HV) as (cl & C & D).
    destruct (run_same n edges order cl CLNone _ no_constraint Hn HR Hs D) as (M & p1 & p2 & R1 & R2).
    { intros x y []. }
    { intros x y. split; [intro K; now apply He in K|intros []]. }
    exists cl, M, p1, p2. auto.
  Qed.

  Lemma c07_kernels n (edges : list (edge W)) order labels k :
    0 < n -> in_range n edges -> sorts edges order ->
    length labels = n -> (forall x, In x labels -> (x < 0)%Z) ->
    exists M p1 p2 p3, kruskal_core n edges order = Ok (M, p1) /\
      kruskal_core_constrained n edges order (empty_pattern n) = Ok (M, p2) /\
      kruskal_core_group n edges order labels k = Ok (M, p3).
  Proof.
    intros Hn HR Hs HL Hneg. destruct (sorts_edges edges order Hs) as (es & Hm & _ & _).
    destruct (core_free_ok n edges order es Hn HR Hm) as (M & p1 & R1 & _ & _ & _ & _ & G1).
    destruct (resolve_pairs n {| sp_rows := n; sp_cols := n; sp_entries := [] |}) as (cl & C & D);
      try (simpl; auto; fail); try (intros e []).
    unfold resolve_cl_params, validate_cannot_link in C. simpl in C. rewrite Nat.eqb_refl in C.
    simpl in C. injection C as <-.
    destruct (pairs_kernel_ok n edges order es _ _ Hn HR Hm D) as (M2 & p2 & R2 & _ & _ & _ & _ & G2).
    destruct (groups_kernel_ok n edges order es labels k (same_group labels) Hn HR Hm)
      as (M3 & p3 & R3 & _ & _ & _ & _ & G3).
    { split; auto. split; [|tauto]. intros i Hi.
      assert (nth i labels (-1) < 0)%Z by (apply Hneg, nth_In; lia). lia. }
    assert (M = M2).
    { eapply greedy_det; [|exact G1|exact G2]. intros x y. split; [intros []|].
      intros (_ & v & _ & [[]|[]]). }
    assert (M = M3).
    { eapply greedy_det; [|exact G1|exact G3]. intros x y. split; [intros []|].
      intros (_ & Hx & _ & H0 & _).
      assert (nth x labels (-1) < 0)%Z by (apply Hneg, nth_In; lia). lia. }
    subst M2 M3. exists M, p1, p2, p3. auto.
  Qed.
End Run.
