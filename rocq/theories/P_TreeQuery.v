(** Nearest neighbour queries are exact. *)
From Coq Require Import List Arith Lia Bool Permutation Sorted.
From Verif Require Import Prelude Order M_Linkage M_TreeQuery S_SpaceTree P_Heap.
Import ListNotations.

Lemma map_repeat' {A B} (f : A -> B) x c : map f (repeat x c) = repeat (f x) c.
Proof. induction c; cbn; congruence. Qed.

(** ** Shape of the tree *)

Lemma below_samples t node q : below t node q <-> In q (node_samples t node).
Proof.
  unfold below, node_samples. rewrite in_map_iff. split.
  - intros (k & Hk & E). exists k. split; [auto|]. apply in_seq. lia.
  - intros (k & E & Hk). apply in_seq in Hk. exists k. split; [lia|auto].
Qed.

Section Shape.
  Variables (t : space_tree) (n : nat).
  Hypothesis TS : tree_shape t n.

  Lemma idx_inj a b : a < n -> b < n -> t_idx t a = t_idx t b -> a = b.
  Proof.
    intros Ha Hb E.
    assert (ND : NoDup (map (t_idx t) (seq 0 n))).
    { eapply Permutation_NoDup; [symmetry; apply (ts_samples _ _ TS)|]. apply seq_NoDup. }
    rewrite NoDup_nth_error in ND. apply ND.
    - rewrite map_length, seq_length. exact Ha.
    - rewrite !nth_error_map. rewrite !(nth_error_nth' _ 0) by (rewrite seq_length; lia).
      rewrite !seq_nth by lia. cbn [option_map Nat.add]. now rewrite E.
  Qed.

  Lemma below_range node q : node < t_nodes t -> below t node q -> q < n.
  Proof.
    intros Hn (k & Hk & E). assert (H := ts_within _ _ TS node Hn).
    assert (I : In q (seq 0 n)).
    { eapply Permutation_in; [apply (ts_samples _ _ TS)|]. rewrite <- E. apply in_map.
      apply in_seq. lia. }
    apply in_seq in I. lia.
  Qed.

  Lemma below_root q : q < n -> below t 0 q.
  Proof.
    intros Hq. destruct (ts_root _ _ TS) as [R1 R2].
    assert (I : In q (map (t_idx t) (seq 0 n))).
    { eapply Permutation_in; [symmetry; apply (ts_samples _ _ TS)|]. apply in_seq. lia. }
    apply in_map_iff in I. destruct I as (k & E & Hk). apply in_seq in Hk.
    exists k. split; [lia|auto].
  Qed.

  Lemma below_children node q : node < t_nodes t -> t_leaf t node = false ->
    below t node q <-> below t (2 * node + 1) q \/ below t (2 * node + 2) q.
  Proof.
    intros Hn Hl. destruct (ts_split _ _ TS node Hn Hl) as (S1 & S2 & S3 & S4).
    assert (N1 := ts_nonempty _ _ TS (2 * node + 1) ltac:(lia)).
    assert (N2 := ts_nonempty _ _ TS (2 * node + 2) ltac:(lia)).
    split.
    - intros (k & Hk & E).
      destruct (le_lt_dec (t_start t (2 * node + 2)) k) as [H|H]; [right|left];
        (exists k; split; [lia|auto]).
    - intros [(k & Hk & E)|(k & Hk & E)]; (exists k; split; [lia|auto]).
  Qed.

  Lemma below_disjoint node q : node < t_nodes t -> t_leaf t node = false ->
    below t (2 * node + 1) q -> below t (2 * node + 2) q -> False.
  Proof.
    intros Hn Hl (k & Hk & E) (k' & Hk' & E').
    destruct (ts_split _ _ TS node Hn Hl) as (S1 & S2 & S3 & S4).
    assert (B1 := ts_within _ _ TS (2 * node + 1) ltac:(lia)).
    assert (B2 := ts_within _ _ TS (2 * node + 2) ltac:(lia)).
    assert (k = k') by (apply idx_inj; [lia|lia|congruence]). lia.
  Qed.

  Lemma samples_NoDup node : node < t_nodes t -> NoDup (node_samples t node).
  Proof.
    intros Hn. assert (B := ts_within _ _ TS node Hn). unfold node_samples.
    apply NoDup_nth_error. intros i j Hi E.
    rewrite map_length, seq_length in Hi.
    assert (Hj : j < t_end t node - t_start t node).
    { destruct (le_lt_dec (t_end t node - t_start t node) j) as [H|H]; [|auto].
      rewrite (proj2 (nth_error_None _ j)) in E by (now rewrite map_length, seq_length).
      apply nth_error_None in E. rewrite map_length, seq_length in E. lia. }
    rewrite !nth_error_map in E. rewrite !(nth_error_nth' _ 0) in E by (rewrite seq_length; lia).
    rewrite !seq_nth in E by lia. cbn [option_map] in E. injection E as E.
    apply idx_inj in E; lia.
  Qed.
End Shape.

Section Query.
  Context {W : WOrd}.
  Variables (t : space_tree) (n : nat) (size : nat) (rd : nat -> W) (lb : nat -> W).
  Hypothesis TS : tree_shape t n.
  Hypothesis Hsize : 0 < size.
  Hypothesis LB : forall node q, node < t_nodes t -> below t node q -> wle (lb node) (rd q) = true.
  Implicit Types (h : heap W).

  Let entry (q : nat) : W * option nat := (rd q, Some q).

  (** The heap holds the nearest of the samples in [P]. *)
  Definition collected (P : nat -> Prop) h (near : list nat) : Prop :=
    is_heap size h /\
    Permutation (map h (seq 0 size)) (map entry near ++ repeat (winf, None) (size - length near)) /\
    length near <= size /\ NoDup near /\
    (forall q, In q near -> P q /\ wfinite (rd q) = true) /\
    (forall q, P q -> ~ In q near -> wle (prio h 0) (rd q) = true).

  Lemma seq_head : seq 0 size = 0 :: seq 1 (size - 1).
  Proof. destruct size; [lia|]. cbn. now rewrite Nat.sub_0_r. Qed.

  Lemma in_padded near x :
    In x (map entry near ++ repeat (winf, None) (size - length near)) ->
    (exists q, In q near /\ x = entry q) \/ (x = (winf, None) /\ length near < size).
  Proof.
    intros H. apply in_app_or in H. destruct H as [H|H].
    - apply in_map_iff in H. destruct H as (q & E & I). left. eauto.
    - assert (E := repeat_spec _ _ _ H). right. split; [auto|].
      destruct (size - length near) eqn:D; [destruct H|lia].
  Qed.

  Lemma collected_ext (P Q : nat -> Prop) h near :
    (forall q, P q <-> Q q) -> collected P h near -> collected Q h near.
  Proof.
    intros E (A & B & C & D & F & G). repeat (split; [assumption|]). split.
    - intros q Hq. destruct (F q Hq). split; [now apply E|auto].
    - intros q Hq. apply G. now apply E.
  Qed.

  (** A sample that is not nearer than the top can be ignored. *)
  Lemma collected_skip P (Q : nat -> Prop) h near :
    collected P h near ->
    (forall q, Q q -> wle (prio h 0) (rd q) = true) ->
    collected (fun q => P q \/ Q q) h near.
  Proof.
    intros (A & B & C & D & F & G) H. repeat (split; [assumption|]). split.
    - intros q Hq. destruct (F q Hq). auto.
    - intros q [Hq|Hq] N; auto.
  Qed.

  Lemma collected_push P h near x :
    collected P h near -> ~ P x -> wlt (rd x) (prio h 0) = true ->
    exists h' near', simple_heap_push size h (rd x) x = Ok h' /\
      collected (fun q => P q \/ q = x) h' near'.
  Proof.
    intros (A & B & C & D & F & G) NP Hlt.
    destruct (push_ok size h (rd x) x Hsize A Hlt) as (h' & E1 & E2 & E3).
    assert (Hfin : wfinite (rd x) = true).
    { unfold wfinite. eapply wlt_le_trans; [exact Hlt|]. apply winf_top. }
    assert (Nx : ~ In x near) by (intro I; apply F in I; tauto).
    (* the new top is no larger than the old one *)
    assert (Top : wle (prio h' 0) (prio h 0) = true).
    { assert (I : In (h' 0) ((rd x, Some x) :: map h (seq 1 (size - 1)))).
      { eapply Permutation_in; [exact E3|]. apply in_map, in_seq. lia. }
      unfold prio at 1. destruct I as [I|I].
      - rewrite <- I. cbn [fst]. now apply wlt_le.
      - apply in_map_iff in I. destruct I as (i & I1 & I2). apply in_seq in I2.
        rewrite <- I1. apply (heap_top size); [exact A|lia]. }
    assert (I0 : In (h 0) (map entry near ++ repeat (winf, None) (size - length near))).
    { eapply Permutation_in; [exact B|]. apply in_map, in_seq. lia. }
    rewrite seq_head in B. cbn [map] in B.
    exists h'.
    destruct (in_padded _ _ I0) as [(q0 & Q1 & Q2)|(Q1 & Q2)].
    - (* a sample leaves the heap: then no place was empty *)
      destruct (in_split _ _ Q1) as (l1 & l2 & Es).
      assert (Full : length near = size).
      { destruct (Nat.eq_dec (length near) size) as [|Ne]; [auto|exfalso].
        assert (I1 : In (winf, None) (map h (seq 0 size))).
        { rewrite seq_head. cbn [map]. eapply Permutation_in; [symmetry; exact B|].
          apply in_or_app. right. destruct (size - length near) eqn:Z; [lia|]. now left. }
        apply in_map_iff in I1. destruct I1 as (i & J1 & J2). apply in_seq in J2.
        assert (T := heap_top size h i A ltac:(lia)). unfold prio in T. rewrite J1 in T.
        cbn [fst] in T. rewrite Q2 in T. cbn [fst entry] in T.
        destruct (F q0 Q1) as [_ Fq]. unfold wfinite in Fq. apply wlt_nle in Fq. congruence. }
      exists (x :: l1 ++ l2). split; [exact E1|].
      assert (Len : length (x :: l1 ++ l2) = length near).
      { rewrite Es. cbn. rewrite !app_length. cbn. lia. }
      split; [exact E2|]. split; [|split; [|split; [|split]]].
      + rewrite Len. rewrite Full, Nat.sub_diag in B |- *. cbn [repeat] in *.
        rewrite app_nil_r in B |- *. etransitivity; [exact E3|]. cbn [map]. apply perm_skip.
        apply Permutation_cons_inv with (a := h 0). etransitivity; [exact B|].
        rewrite Es, !map_app, Q2. cbn [map]. symmetry. apply Permutation_middle.
      + rewrite Len. exact C.
      + rewrite Es in D, Nx. constructor.
        * intro I. apply Nx. apply in_app_or in I. apply in_or_app. cbn. tauto.
        * eapply NoDup_remove_1; eauto.
      + intros q [->|I]; [auto|].
        assert (I' : In q near). { rewrite Es. apply in_app_or in I. apply in_or_app. cbn. tauto. }
        destruct (F q I'). auto.
      + intros q Hq Ni. destruct (Nat.eq_dec q q0) as [->|Nq].
        * replace (rd q0) with (prio h 0) by (unfold prio; now rewrite Q2). exact Top.
        * destruct Hq as [Hq| ->]; [|exfalso; apply Ni; now left].
          eapply wle_trans; [exact Top|]. apply G; [auto|].
          intro I. apply Ni. right. rewrite Es in I. apply in_app_or in I. apply in_or_app.
          destruct I as [I|[I|I]]; [now left|congruence|now right].
    - exists (x :: near). split; [exact E1|]. split; [exact E2|].
      split; [|split; [|split; [|split]]].
      + etransitivity; [exact E3|]. cbn [map app]. apply perm_skip.
        apply Permutation_cons_inv with (a := h 0). etransitivity; [exact B|].
        rewrite Q1. replace (size - length near) with (S (size - length (x :: near))) by (cbn; lia).
        cbn [repeat]. symmetry. apply Permutation_middle.
      + cbn. lia.
      + now constructor.
      + intros q [->|I]; [auto|]. destruct (F q I). auto.
      + intros q [Hq| ->] Ni; [|exfalso; apply Ni; now left].
        eapply wle_trans; [exact Top|]. apply G; [auto|]. intro I. apply Ni. now right.
  Qed.

  Lemma leaf_loop_ok samples : forall P h near,
    collected P h near -> NoDup samples -> (forall q, In q samples -> ~ P q) ->
    exists h' near', leaf_loop size rd samples h = Ok h' /\
      collected (fun q => P q \/ In q samples) h' near'.
  Proof.
    induction samples as [|x samples IH]; intros P h near HC ND HP; cbn [leaf_loop].
    - exists h, near. split; [auto|]. eapply collected_ext; [|exact HC]. cbn. tauto.
    - inversion ND as [|? ? Nx ND']; subst.
      assert (Step : exists h1 near1,
        (if wlt (rd x) (prio h 0) then simple_heap_push size h (rd x) x else Ok h) = Ok h1 /\
        collected (fun q => P q \/ q = x) h1 near1).
      { destruct (wlt (rd x) (prio h 0)) eqn:E.
        - eapply collected_push; eauto. apply HP. now left.
        - exists h, near. split; [auto|]. apply collected_skip; [auto|].
          intros q ->. now apply wlt_false. }
      destruct Step as (h1 & near1 & S1 & S2). rewrite S1. cbn [bind].
      destruct (IH _ _ _ S2 ND') as (h' & near' & E1 & E2).
      + intros q Hq [A| ->]; [|auto]. apply (HP q); [now right|auto].
      + exists h', near'. split; [auto|]. eapply collected_ext; [|exact E2].
        intro q. cbn. intuition congruence.
  Qed.

  Lemma tree_query_ok fuel : forall node P h near,
    node < t_nodes t -> t_nodes t <= fuel + node ->
    collected P h near -> (forall q, below t node q -> ~ P q) ->
    exists h' near', tree_query t size rd lb fuel node (lb node) h = Ok h' /\
      collected (fun q => P q \/ below t node q) h' near'.
  Proof.
    induction fuel as [|fuel IH]; intros node P h near Hn Hf HC HP; [lia|].
    cbn [tree_query].
    destruct (wlt (prio h 0) (lb node)) eqn:E.
    { exists h, near. split; [auto|]. apply collected_skip; [auto|].
      intros q Hq. eapply wle_trans; [apply wlt_le; exact E|]. auto. }
    destruct (t_leaf t node) eqn:L.
    { destruct (leaf_loop_ok (node_samples t node) P h near HC) as (h' & near' & E1 & E2).
      - eapply samples_NoDup; eauto.
      - intros q Hq. apply HP. now apply below_samples.
      - exists h', near'. split; [auto|]. eapply collected_ext; [|exact E2].
        intro q. cbn beta. rewrite below_samples. tauto. }
    destruct (ts_split _ _ TS node Hn L) as (S1 & _).
    assert (Ch := fun q => below_children t n TS node q Hn L).
    assert (Dj := fun q => below_disjoint t n TS node q Hn L).
    replace (2 * node + 1 + 1) with (2 * node + 2) by lia.
    assert (Two : forall a b, (a = 2 * node + 1 /\ b = 2 * node + 2) \/ (a = 2 * node + 2 /\ b = 2 * node + 1) ->
      exists h' near', (let* h := tree_query t size rd lb fuel a (lb a) h in
                        tree_query t size rd lb fuel b (lb b) h) = Ok h' /\
        collected (fun q => P q \/ below t node q) h' near').
    { intros a b Hab.
      assert (Ha : forall q, below t a q -> below t node q).
      { intros q Hq. apply Ch. destruct Hab as [[-> ->]|[-> ->]]; auto. }
      assert (Hb : forall q, below t b q -> below t node q).
      { intros q Hq. apply Ch. destruct Hab as [[-> ->]|[-> ->]]; auto. }
      destruct (IH a P h near) as (h1 & near1 & A1 & A2); [lia|lia|auto|auto|].
      rewrite A1. cbn [bind].
      destruct (IH b (fun q => P q \/ below t a q) h1 near1) as (h2 & near2 & B1 & B2); [lia|lia|exact A2| |].
      - intros q Hq [X|X]; [exact (HP q (Hb q Hq) X)|].
        destruct Hab as [[-> ->]|[-> ->]]; eauto.
      - exists h2, near2. split; [auto|]. eapply collected_ext; [|exact B2].
        intro q. cbn beta. rewrite (Ch q). destruct Hab as [[-> ->]|[-> ->]]; tauto. }
    destruct (wle (lb (2 * node + 1)) (lb (2 * node + 2))); apply Two; auto.
  Qed.

  Lemma sorted_positions {A} (key : A -> W) (l : list A) :
    (forall a b x y, a < b -> nth_error l a = Some x -> nth_error l b = Some y ->
       wle (key x) (key y) = true) -> sorted_by key l.
  Proof.
    induction l as [|x l IH]; intro H; [constructor|].
    constructor.
    - apply IH. intros a b u v Hab Ha Hb. apply (H (S a) (S b)); auto. lia.
    - apply Forall_forall. intros y Hy. destruct (In_nth_error _ _ Hy) as [b Hb].
      apply (H 0 (S b)); auto. lia.
  Qed.

  Hypothesis Fin : forall q, q < n -> wfinite (rd q) = true.

  (** Sorting the padded list puts the empty places at the end. *)
  Lemma padded_split (key : W * option nat -> W) c (x : W * option nat) : forall l good,
    sorted_by key l -> Permutation l (good ++ repeat x c) ->
    (forall y, In y good -> wlt (key y) (key x) = true) ->
    exists good', l = good' ++ repeat x c /\ Permutation good' good.
  Proof.
    induction l as [|y l IH]; intros good HS HP HL.
    - apply Permutation_nil in HP. apply app_eq_nil in HP. destruct HP as [-> E].
      exists []. rewrite E. auto.
    - inversion HS as [|? ? HS' Hall]; subst.
      assert (I : In y (good ++ repeat x c)) by (eapply Permutation_in; [exact HP|now left]).
      apply in_app_or in I. destruct I as [I|I].
      + destruct (in_split _ _ I) as (g1 & g2 & E). subst good.
        destruct (IH (g1 ++ g2)) as (g' & E1 & E2).
        * exact HS'.
        * apply Permutation_cons_inv with (a := y). etransitivity; [exact HP|].
          rewrite <- !app_assoc. cbn [app]. symmetry. apply Permutation_middle.
        * intros z Hz. apply HL. apply in_app_or in Hz. apply in_or_app. cbn. tauto.
        * exists (y :: g'). split; [cbn; now rewrite <- E1|].
          etransitivity; [apply perm_skip; exact E2|]. apply Permutation_middle.
      + assert (E := repeat_spec _ _ _ I). subst y.
        assert (G : good = []).
        { destruct good as [|g good]; [auto|exfalso].
          assert (Hg := HL g (or_introl eq_refl)).
          assert (J : In g (x :: l)).
          { eapply Permutation_in; [symmetry; exact HP|]. now left. }
          destruct J as [->|J]; [rewrite wlt_irrefl in Hg; discriminate|].
          rewrite Forall_forall in Hall. apply Hall in J. apply wlt_nle in Hg. congruence. }
        subst good. cbn [app] in *. exists []. split; [|auto]. cbn [app].
        assert (All : forall z, In z (x :: l) -> z = x).
        { intros z Hz. eapply repeat_spec. eapply Permutation_in; [exact HP|exact Hz]. }
        assert (Len := Permutation_length HP). rewrite repeat_length in Len.
        rewrite <- Len. clear -All. induction (x :: l) as [|z m IHm]; [auto|]. cbn.
        rewrite (All z) by now left. f_equal. apply IHm. intros u Hu. apply All. now right.
  Qed.

  Variable out : W -> W.
  Hypothesis out_mono : forall x y, wle x y = true -> wle (out x) (out y) = true.
  Hypothesis out_finite : forall x, wfinite x = true -> wlt (out x) (out winf) = true.

  Lemma sorted_map_inv {A B} (key : B -> W) (f : A -> B) (l : list A) :
    sorted_by key (map f l) -> sorted_by (fun x => key (f x)) l.
  Proof.
    induction l as [|x l IH]; intro H; [constructor|]. inversion H as [|? ? H1 H2]; subst.
    constructor; [now apply IH|]. rewrite Forall_map in H2. exact H2.
  Qed.

  Theorem query_row_ok : exists row,
    query_row t size rd lb out = Ok row /\ nearest out rd n size row.
  Proof.
    assert (C0 : collected (fun _ => False) (fun _ => (winf, None)) []).
    { split; [|split; [|split; [|split; [|split]]]].
      - intros c Hc. unfold prio. apply wle_refl.
      - cbn. rewrite Nat.sub_0_r. clear. generalize 0. induction size as [|m IH]; intro a; cbn; auto.
      - cbn. lia.
      - constructor.
      - intros q [].
      - intros q []. }
    destruct (tree_query_ok (t_nodes t) 0 _ _ _ (ts_nodes _ _ TS) ltac:(lia) C0) as (h & near & E1 & HC).
    { intros q _ []. }
    unfold query_row. rewrite E1. cbn [bind].
    destruct HC as (A & B & C & D & F & G).
    set (h0 := fun i => (out (prio h i), snd (h i))).
    destruct (deheap_row_ok size h0) as (h' & E2 & So & Pe).
    { intros c Hc. unfold prio, h0. cbn [fst]. apply out_mono. now apply A. }
    rewrite E2. cbn [bind]. eexists. split; [reflexivity|].
    assert (P : forall q, In q near <-> In q near /\ q < n).
    { intros q. split; [|tauto]. intros I. split; [auto|]. destruct (F q I) as [[[]|Hb] _].
      eapply below_range; eauto. apply (ts_nodes _ _ TS). }
    set (far := filter (fun q => negb (existsb (Nat.eqb q) near)) (seq 0 n)).
    assert (InF : forall q, In q far <-> q < n /\ ~ In q near).
    { intros q. unfold far. rewrite filter_In, in_seq, negb_true_iff.
      assert (X : existsb (Nat.eqb q) near = false <-> ~ In q near).
      { rewrite <- not_true_iff_false, existsb_exists. split.
        - intros H I. apply H. exists q. split; [auto|apply Nat.eqb_refl].
        - intros H (y & I & Ey). apply Nat.eqb_eq in Ey. subst. auto. }
      rewrite X. split; (intros []; split; [lia|auto]). }
    assert (Pall : Permutation (near ++ far) (seq 0 n)).
    { apply NoDup_Permutation.
      - apply NoDup_app_iff; split; [auto|]; split.
        + apply NoDup_filter, seq_NoDup.
        + intros q I J. apply InF in J. tauto.
      - apply seq_NoDup.
      - intros q. rewrite in_app_iff, InF, in_seq, (P q).
        assert (0 <= q < 0 + n <-> q < n) as -> by lia.
        destruct (in_dec Nat.eq_dec q near); tauto. }
    assert (Hfar : forall q, In q far -> wle (prio h 0) (rd q) = true).
    { intros q Hq. apply InF in Hq. apply G; [|tauto]. right. apply (below_root t n TS). tauto. }
    assert (Len : length near = min size n).
    { assert (L := Permutation_length Pall). rewrite app_length, seq_length in L.
      destruct (Nat.eq_dec (length near) size) as [|Ne]; [lia|].
      destruct far as [|q far'] eqn:Ef; [cbn in L; lia|exfalso].
      assert (Hq : In q (q :: far')) by now left.
      assert (Hr := Hfar q Hq). apply InF in Hq.
      assert (I1 : In (winf, None) (map h (seq 0 size))).
      { eapply Permutation_in; [symmetry; exact B|]. apply in_or_app. right.
        destruct (size - length near) eqn:Z; [lia|]. now left. }
      apply in_map_iff in I1. destruct I1 as (i & J1 & J2). apply in_seq in J2.
      assert (T := heap_top size h i A ltac:(lia)). unfold prio at 1 in T. rewrite J1 in T.
      cbn [fst] in T. assert (Hfin := Fin q ltac:(tauto)). unfold wfinite in Hfin.
      apply wlt_nle in Hfin. assert (wle winf (rd q) = true) by (eapply wle_trans; eauto). congruence. }
    assert (Pe' : Permutation (map h' (seq 0 size))
       (map (fun q => (out (rd q), Some q)) near ++ repeat (out winf, None) (size - length near))).
    { etransitivity; [exact Pe|].
      assert (M : map h0 (seq 0 size) = map (fun e => (out (fst e), snd e)) (map h (seq 0 size))).
      { rewrite map_map. reflexivity. }
      rewrite M. etransitivity; [apply Permutation_map; exact B|].
      rewrite map_app, map_map, map_repeat'. reflexivity. }
    assert (Srt : sorted_by (fun e : W * option nat => fst e) (map h' (seq 0 size))).
    { apply sorted_positions. intros a b x y Hab Ha Hb.
      assert (La : a < size) by (rewrite <- (seq_length size 0), <- (map_length h'); apply nth_error_Some; congruence).
      assert (Lb : b < size) by (rewrite <- (seq_length size 0), <- (map_length h'); apply nth_error_Some; congruence).
      rewrite nth_error_map, (nth_error_nth' _ 0) in Ha by (rewrite seq_length; lia).
      rewrite nth_error_map, (nth_error_nth' _ 0) in Hb by (rewrite seq_length; lia).
      rewrite seq_nth in Ha, Hb by lia. cbn [option_map Nat.add] in Ha, Hb.
      injection Ha as <-. injection Hb as <-. apply So. lia. }
    destruct (padded_split (fun e => fst e) (size - length near) (out winf, None) _ _ Srt Pe') as (good & G1 & G2).
    { intros y Hy. apply in_map_iff in Hy. destruct Hy as (q & <- & I). cbn [fst].
      apply out_finite. now apply F. }
    destruct (Permutation_map_inv _ _ G2) as (near' & N1 & N2).
    exists near', far. split; [|split; [|split; [|split]]].
    - rewrite G1, N1. f_equal. f_equal. lia.
    - rewrite <- (Permutation_length N2). exact Len.
    - rewrite <- N2. exact Pall.
    - rewrite G1 in Srt. apply sorted_map_inv with (f := fun q => (out (rd q), Some q)) (key := fun e => fst e).
      rewrite <- N1. clear -Srt. induction good as [|x g IH]; [constructor|].
      cbn in Srt. inversion Srt as [|? ? S1 S2]; subst. constructor; [now apply IH|].
      apply Forall_app in S2. tauto.
    - intros q r Hq Hr. assert (Iq : In q near) by (eapply Permutation_in; [symmetry; exact N2|auto]).
      eapply wle_trans; [|apply Hfar; exact Hr].
      assert (I1 : In (entry q) (map h (seq 0 size))).
      { eapply Permutation_in; [symmetry; exact B|]. apply in_or_app. left. now apply in_map. }
      apply in_map_iff in I1. destruct I1 as (i & J1 & J2). apply in_seq in J2.
      assert (T := heap_top size h i A ltac:(lia)). unfold prio at 1 in T. rewrite J1 in T. exact T.
  Qed.
End Query.

Lemma map_res_ok {A B} (f : A -> res B) (Q : A -> B -> Prop) (l : list A) :
  (forall x, In x l -> exists y, f x = Ok y /\ Q x y) ->
  exists ys, map_res f l = Ok ys /\ Forall2 Q l ys.
Proof.
  induction l as [|x l IH]; intro H; cbn [map_res].
  - exists []. auto.
  - destruct (H x (or_introl eq_refl)) as (y & E1 & Q1). rewrite E1. cbn [bind].
    destruct IH as (ys & E2 & Q2); [intros z Hz; apply H; now right|].
    rewrite E2. cbn [bind]. exists (y :: ys). auto.
Qed.

Section All.
  Context {W : WOrd}.
  Variables (t : space_tree) (n m k : nat) (rd lb : nat -> nat -> W) (out : W -> W).

  Theorem parallel_tree_query_ok :
    tree_shape t n -> lower_bounds t rd lb -> 0 < k ->
    (forall i q, i < m -> q < n -> wfinite (rd i q) = true) ->
    (forall x y, wle x y = true -> wle (out x) (out y) = true) ->
    (forall x, wfinite x = true -> wlt (out x) (out winf) = true) ->
    exists rows, parallel_tree_query t rd lb out m k = Ok rows /\
      Forall2 (fun i row => nearest out (rd i) n k row) (seq 0 m) rows.
  Proof.
    intros TS LB Hk Fin M F. apply map_res_ok. intros i Hi. apply in_seq in Hi.
    apply query_row_ok; auto.
    intros q. apply Fin. lia.
  Qed.
End All.
