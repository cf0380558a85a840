(** Spanning trees and clusters with sample weights. *)
From Coq Require Import List Arith Lia Bool Permutation Relations Sorted ZArith QArith Qcanon Qround.
From Verif Require Import Prelude Order Size Num Graph M_DisjointSet M_Kruskal M_Precomputed M_Linkage
  M_TreeQuery M_Boruvka M_KruskalEntry S_Kruskal S_Precomputed S_CoreGraph S_SpaceTree S_Boruvka
  P_Sort P_KruskalRun P_KruskalEntry P_PrecomputedTop P_Precomputed2 P_ParallelBoruvka
  P_TreeQuery M_NNDescent S_NNDescent P_NNDescent M_Weights S_Weights P_Weights P_WeightsBoruvka.
Import ListNotations.
Local Open Scope nat_scope.

Lemma Forall_in {A} (P : A -> Prop) l : Forall P l <-> forall x, In x l -> P x.
Proof. apply Forall_forall. Qed.

Section Enough.
  Context {W : WOrd} {Sz : SOrd}.

  Lemma listed_near (out : W -> W) (d : nat -> W) (ws : list Sz) near pad :
    listed_weight ws (map (fun q => (out (d q), Some q)) near ++ repeat (out winf, None) pad) = ssum (map (fun q => nth q ws szero) near).
  Proof.
    unfold listed_weight. rewrite flat_map_app. set (g := fun x : W * option nat => match snd x with Some q => [nth q ws szero] | None => [] end).
    assert (G1 : forall j, flat_map g (repeat (out winf, None) j) = []) by (induction j; simpl; auto).
    assert (G2 : forall l, flat_map g (map (fun q => (out (d q), Some q)) l) = map (fun q => nth q ws szero) l) by (induction l; simpl; congruence).
    now rewrite G1, G2, app_nil_r.
  Qed.

  Lemma listed_enough (out : W -> W) (d : nat -> W) n k (ws : list Sz) m row :
    length ws = n -> nearest out d n k row -> enough_listed n k ws m -> sle m (listed_weight ws row) = true.
  Proof.
    intros Hw (near & far & -> & HL & HP & _) He. rewrite listed_near. apply He; auto.
    - assert (N : NoDup (near ++ far)) by (eapply Permutation_NoDup; [apply Permutation_sym; exact HP|apply seq_NoDup]).
      clear - N. induction near as [|x l IH]; [constructor|]. cbn [app] in N. inversion N as [|? ? A B]; subst. constructor; auto. intro H. apply A. apply in_or_app; auto.
    - intros q Hq. assert (K : In q (seq 0 n)) by (eapply Permutation_in; [exact HP|apply in_or_app; auto]). apply in_seq in K. lia.
  Qed.

  Lemma all_listed n k (ws : list Sz) m : length ws = n -> n <= k -> sle m (ssum ws) = true -> enough_listed n k ws m.
  Proof.
    intros Hw Hk Hs l HL ND HR. assert (HP : Permutation l (seq 0 n)).
    { apply NoDup_Permutation_bis; auto. - rewrite seq_length. lia. - intros q Hq. apply in_seq. specialize (HR q Hq). lia. }
    rewrite (ssum_perm _ _ (Permutation_map _ HP)).
    replace (map (fun q => nth q ws szero) (seq 0 n)) with ws; auto.
    apply (nth_ext _ _ szero szero); [now rewrite map_length, seq_length|]. intros i Hi. rewrite (nth_map_seq (fun q => nth q ws szero)); auto. lia.
  Qed.
End Enough.

Lemma as_weight_add a b : as_weight (a + b) = (as_weight a + as_weight b)%Qc.
Proof.
  apply Qc_is_canon. unfold as_weight, Qcplus, Q2Qc, this. rewrite !Qred_correct. unfold Qeq, Qplus. cbn [Qnum Qden]. lia.
Qed.
Lemma as_weight_mul a b : as_weight (a * b) = (as_weight a * as_weight b)%Qc.
Proof.
  apply Qc_is_canon. unfold as_weight, Qcmult, Q2Qc, this. rewrite !Qred_correct. unfold Qeq, Qmult. cbn [Qnum Qden]. lia.
Qed.
Lemma as_weight_0 : as_weight 0 = 0%Qc.
Proof. apply Qc_is_canon. reflexivity. Qed.
Lemma as_weight_1 : as_weight 1 = 1%Qc.
Proof. apply Qc_is_canon. reflexivity. Qed.

Lemma Qc_sum_mul (c : Qc) (l : list Qc) : (forall w, In w l -> c <= w)%Qc -> (as_weight (length l) * c <= @ssum QcSize l)%Qc.
Proof.
  induction l as [|w l IH]; intro H.
  - cbn [length]. rewrite as_weight_0, Qcmult_0_l. apply Qcle_refl.
  - cbn [length]. replace (as_weight (S (length l))) with (1 + as_weight (length l))%Qc.
    + rewrite Qcmult_plus_distr_l, Qcmult_1_l. change (@ssum QcSize (w :: l)) with (w + @ssum QcSize l)%Qc.
      apply Qcplus_le_compat; [apply H; simpl; auto|apply IH; intros; apply H; simpl; auto].
    + now rewrite <- as_weight_1, <- as_weight_add.
Qed.

Lemma as_weight_pos k : 0 < k -> (0 < as_weight k)%Qc.
Proof. intro H. unfold as_weight, Qclt, Q2Qc, this. rewrite !Qred_correct. unfold Qlt. cbn [Qnum Qden]. change (Qnum 0) with 0%Z. lia. Qed.
Lemma as_weight_le a b : a <= b -> (as_weight a <= as_weight b)%Qc.
Proof. intro H. unfold as_weight, Qcle, Q2Qc, this. rewrite !Qred_correct. unfold Qle. cbn [Qnum Qden]. lia. Qed.

Lemma heavy_listed n k (ws : list Qc) (m : Qc) : length ws = n ->
  (forall w, In w ws -> m <= as_weight (min k n) * w)%Qc -> 0 < min k n -> enough_listed (Sz := QcSize) n k ws m.
Proof.
  intros Hw H Hp l HL ND HR. apply Qcleb_le. assert (P := as_weight_pos (min k n) Hp).
  eapply Qcle_trans; [|apply (Qc_sum_mul (m / as_weight (min k n)))].
  - rewrite map_length, HL. rewrite Qcmult_div_r; [apply Qcle_refl|]. intro E. rewrite E in P. discriminate.
  - intros w Hin. apply in_map_iff in Hin as (q & <- & Hq). specialize (HR q Hq).
    apply (Qcmult_lt_0_le_reg_r _ _ (as_weight (min k n))); auto.
    rewrite (Qcmult_comm (m / _)), Qcmult_div_r; [|intro E; rewrite E in P; discriminate].
    rewrite (Qcmult_comm (nth q ws _)). apply H. apply nth_In. lia.
Qed.

(** Samples that weigh at least half the average: the extra neighbour asked for by
    the Kruskal variant makes up for rounding. *)
Lemma half_mean_listed n (ws : list Qc) ms k knn_k : length ws = n -> expected_neighbors ms ws = Ok k ->
  (forall w, In w ws -> 0 <= w /\ @ssum QcSize ws <= as_weight (2 * n) * w)%Qc -> (as_weight ms <= @ssum QcSize ws)%Qc -> 0 < n ->
  enough_listed (Sz := QcSize) n (Nat.max knn_k k + 1) ws (as_weight ms).
Proof.
  intros Hw He Hh Ht Hn. destruct (le_lt_dec n (Nat.max knn_k k + 1)) as [H|H].
  { apply all_listed; auto. apply Qcleb_le. auto. }
  apply heavy_listed; auto; [|lia]. rewrite Nat.min_l by lia. intros w Hin. destruct (Hh w Hin) as [H0 H1].
  unfold expected_neighbors in He. cbv zeta in He. set (s := @ssum QcSize ws) in *. rewrite Hw in He.
  destruct (Qc_eq_bool s 0) eqn:E0; [discriminate|]. injection He as He.
  assert (Ps : (0 < s)%Qc).
  { assert (0 <= s)%Qc.
    { unfold s. eapply Qcle_trans; [|apply (Qc_sum_mul 0); intros; apply Hh; auto]. rewrite Qcmult_0_r. apply Qcle_refl. }
    apply Qcle_lt_or_eq in H2 as [H2|H2]; auto. rewrite <- H2 in E0. discriminate. }
  assert (Pn := as_weight_pos n Hn).
  assert (Lt : (as_weight (2 * ms) * as_weight n < as_weight (k + 1) * s)%Qc).
  { set (x := (as_weight (2 * ms) / (s / as_weight n))%Qc) in *.
    change (Z.to_nat (Qfloor (this x)) = k) in He.
    assert (Lx : (x < as_weight (k + 1))%Qc).
    { unfold Qclt. eapply Qlt_le_trans; [apply Qlt_floor|].
      assert (Ek : this (as_weight (k + 1)) == inject_Z (Z.of_nat (k + 1))) by (unfold as_weight, Q2Qc, this; rewrite Qred_correct; reflexivity).
      rewrite Ek, <- Zle_Qle. lia. }
    assert (Ex : (x * s = as_weight (2 * ms) * as_weight n)%Qc).
    { unfold x. field. split; intro E; [rewrite E in Pn; discriminate|rewrite E in Ps; discriminate]. }
    rewrite <- Ex. apply Qcmult_lt_compat_r; auto. }
  (* 2 ms n < (k+1) s <= (k+1) 2 n w *)
  assert (Le : (as_weight (2 * ms) * as_weight n <= as_weight (k + 1) * (as_weight (2 * n) * w))%Qc).
  { eapply Qcle_trans; [apply Qclt_le_weak; exact Lt|]. rewrite !(Qcmult_comm (as_weight (k + 1))). apply Qcmult_le_compat_r; auto.
    apply Qclt_le_weak, as_weight_pos. lia. }
  assert (D : forall a, as_weight (2 * a) = (as_weight 2 * as_weight a)%Qc).
  { intro a. apply as_weight_mul. }
  rewrite !D in Le.
  assert (Le2 : (as_weight ms * (as_weight 2 * as_weight n) <= (as_weight (k + 1) * w) * (as_weight 2 * as_weight n))%Qc).
  { eapply Qcle_trans; [|eapply Qcle_trans; [exact Le|]]; match goal with |- (?a <= ?b)%Qc => replace a with b by ring; apply Qcle_refl end. }
  assert (P2 : (0 < as_weight 2 * as_weight n)%Qc).
  { rewrite <- (Qcmult_0_l (as_weight n)). apply Qcmult_lt_compat_r; auto. apply as_weight_pos. lia. }
  apply Qcmult_lt_0_le_reg_r in Le2; auto. eapply Qcle_trans; [exact Le2|]. apply Qcmult_le_compat_r; auto. apply as_weight_le. lia.
Qed.

(** ** Whole numbers as weights stand for copies *)
Section Copies.
  Context {W : WOrd}.
  Hypothesis Hanti : forall a b : W, wle a b = true -> wle b a = true -> a = b.

  Lemma as_weight_sle a b : sle (s := QcSize) (as_weight a) (as_weight b) = true <-> a <= b.
  Proof.
    split; intro H.
    - apply Qcleb_le in H. unfold as_weight, Qcle, Q2Qc, this in H. rewrite !Qred_correct in H. unfold Qle in H. cbn [Qnum Qden] in H. lia.
    - apply Qcleb_le. now apply as_weight_le.
  Qed.

  Lemma copies_weight counts (d : nat -> W) p : forall l,
    @ssum QcSize (map (fun q => nth q (map as_weight counts) (@szero QcSize)) (filter (fun q => p (d q)) l)) =
    as_weight (countp p (flat_map (fun q => repeat (d q) (nth q counts 0)) l)).
  Proof.
    assert (R : forall x c, countp p (repeat x c) = if p x then c else 0).
    { intros x c. induction c as [|c IH]; cbn [repeat countp]; [destruct (p x); auto|]. rewrite IH. destruct (p x); auto. }
    induction l as [|q l IH]; [symmetry; apply as_weight_0|]. cbn [filter flat_map]. rewrite countp_app, R, as_weight_add, <- IH.
    destruct (p (d q)); cbn [map].
    - change (@ssum QcSize (?a :: ?b)) with (a + @ssum QcSize b)%Qc. f_equal. change (@szero QcSize) with 0%Qc. rewrite <- as_weight_0. apply map_nth.
    - rewrite as_weight_0. now rewrite Qcplus_0_l.
  Qed.

  Lemma copies_core n counts (d : nat -> W) m r :
    weighted_core (Sz := QcSize) n (map as_weight counts) d (as_weight m) r <-> kth_smallest m (with_copies n counts d) r.
  Proof.
    unfold weighted_core, weight_where, kth_smallest. rewrite (copies_weight counts d (fun x => wle x r)), (copies_weight counts d (fun x => wlt x r)). fold (with_copies n counts d).
    rewrite slt_true, <- not_true_iff_false, !as_weight_sle. split.
    - intros (_ & A & B). split; [|lia].
      assert (K : exists x, In x (with_copies n counts d) /\ wle x r = true /\ wlt x r = false).
      { revert A B. generalize (with_copies n counts d). intros l A B.
        assert (K : countp (fun x => wlt x r) l < countp (fun x => wle x r) l) by lia. clear A B. induction l as [|x l IH]; cbn [countp] in K; [lia|].
        destruct (wlt x r) eqn:E1, (wle x r) eqn:E2; try (destruct IH as (y & Hy & K2); [lia|exists y; simpl; auto]).
        exists x. simpl. auto. }
      destruct K as (x & Hx & K1 & K2). apply wlt_false in K2. now rewrite (Hanti r x).
    - intros (A & B & C). split; [|lia]. unfold with_copies in A. apply in_flat_map in A as (q & Hq & Hr). apply repeat_spec in Hr. apply in_seq in Hq. exists q. split; [lia|auto].
  Qed.

  Lemma units_core n (d : nat -> W) m r :
    weighted_core (Sz := QcSize) n (repeat 1%Qc n) d (as_weight m) r <-> kth_smallest m (map d (seq 0 n)) r.
  Proof.
    assert (E1 : repeat 1%Qc n = map as_weight (repeat 1 n)) by (rewrite <- as_weight_1; induction n; simpl; congruence).
    rewrite E1, copies_core. replace (with_copies n (repeat 1 n) d) with (map d (seq 0 n)); [tauto|].
    unfold with_copies. assert (K : forall l, (forall q, In q l -> q < n) -> map d l = flat_map (fun q => repeat (d q) (nth q (repeat 1 n) 0)) l).
    { induction l as [|q l IH]; intro H; [reflexivity|]. cbn [map flat_map]. rewrite <- IH by (intros; apply H; simpl; auto).
      rewrite (nth_indep _ 0 1) by (rewrite repeat_length; apply H; simpl; auto). rewrite nth_repeat. reflexivity. }
    apply K. intros q Hq. apply in_seq in Hq. lia.
  Qed.
End Copies.

Lemma units_neighbors n ms : 0 < n -> expected_neighbors ms (repeat 1%Qc n) = Ok (2 * ms).
Proof.
  intro Hn. unfold expected_neighbors. cbv zeta. rewrite repeat_length.
  assert (E : @ssum QcSize (repeat 1%Qc n) = as_weight n).
  { clear. induction n as [|n IH]; [symmetry; apply as_weight_0|]. change (S n) with (1 + n). rewrite as_weight_add, as_weight_1. cbn [Nat.add repeat].
    change (@ssum QcSize (?a :: ?b)) with (a + @ssum QcSize b)%Qc. now rewrite IH. }
  rewrite E. assert (P := as_weight_pos n Hn). assert (NZ : as_weight n <> 0%Qc) by (intro K; rewrite K in P; discriminate).
  destruct (Qc_eq_bool (as_weight n) 0) eqn:E0; [apply Qc_eq_bool_correct in E0; contradiction|]. f_equal.
  fold (as_weight n). fold (as_weight (2 * ms)).
  replace (as_weight (2 * ms) / (as_weight n / as_weight n))%Qc with (as_weight (2 * ms)).
  2:{ field. repeat split; auto; discriminate. }
  assert (Ek : this (as_weight (2 * ms)) == inject_Z (Z.of_nat (2 * ms))) by (unfold as_weight, Q2Qc, this; rewrite Qred_correct; reflexivity).
  rewrite Ek, Qfloor_Z. lia.
Qed.

(** ** Kruskal *)
Section Kruskal.
  Context {W : WOrd}.

  Lemma weighted_knn_ok (query : nat -> list (list (W * option nat))) ms knn_k (ws : list Qc) k cl CL n :
    expected_neighbors ms ws = Ok k -> let rows := query (Nat.max knn_k k + 1) in let core := sample_weight_core_distance (Sz := QcSize) ws (as_weight ms) rows in
    0 < n -> length rows = n -> (forall row j d, In row rows -> In (d, Some j) row -> j < n) -> denotes n cl CL ->
    exists E T, kruskal_mst_knn_weighted query ms knn_k ws cl = Ok (T, map (fun row => map snd (skipn 1 row)) rows, core) /\
      bridged_result n CL E T /\
      (forall i j w, In (i, j, w) E <-> i < n /\ i <> j /\ wfinite w = true /\ exists c d, nth_error (nth i rows []) (S c) = Some (d, Some j) /\
         w = mrd3 (nth i core winf) (nth j core winf) d).
  Proof.
    intros He rows core Hn HL Hr Hd. unfold kruskal_mst_knn_weighted. rewrite He. cbn [bind]. fold rows. rewrite HL. fold core.
    set (knn := map (fun row => map (fun x => (snd x, fst x)) (skipn 1 row)) rows).
    set (edges := filter (fun e => negb (esrc e =? edst e) && wfinite (ewt e)) (knn_edges knn core)).
    assert (K : forall i j d, i < n -> In (Some j, d) (nth i knn []) <-> exists c, nth_error (nth i rows []) (S c) = Some (d, Some j)).
    { intros i j d Hi. unfold knn. rewrite (nth_indep _ [] ((fun row : list (W * option nat) => map (fun x => (snd x, fst x)) (skipn 1 row)) [])) by (rewrite map_length; lia).
      rewrite (map_nth (fun row : list (W * option nat) => map (fun x => (snd x, fst x)) (skipn 1 row))). rewrite in_map_iff.
      destruct (nth i rows []) as [|r0 l]; cbn [skipn].
      - split; [intros (x & _ & [])|]. intros (c & Hc). destruct c; discriminate.
      - cbn [nth_error]. split.
        + intros ([a o] & E & Hx). cbn in E. injection E as -> ->. now apply In_nth_error.
        + intros (c & Hc). apply nth_error_In in Hc. exists (d, Some j). auto. }
    assert (IE : forall i j w, In (i, j, w) edges <-> i < n /\ i <> j /\ wfinite w = true /\ exists c d, nth_error (nth i rows []) (S c) = Some (d, Some j) /\
         w = mrd3 (nth i core winf) (nth j core winf) d).
    { intros i j w. unfold edges. rewrite filter_In. unfold esrc, edst, ewt. cbn [fst snd]. rewrite andb_true_iff, negb_true_iff, Nat.eqb_neq.
      assert (LK : length knn = n) by (unfold knn; now rewrite map_length). split.
      - intros (HI & Hne & Hf). apply knn_edges_in in HI as (Hi & d & Hin & ->); auto. apply K in Hin as (c & Hc); [|lia]. split; [lia|]. eauto 8.
      - intros (Hi & Hne & Hf & c & d & Hc & ->). split; auto. apply knn_edges_in; auto. split; [lia|]. exists d. split; auto. apply K; eauto. }
    destruct (finish_ok n edges (argsort edges) cl CL) as (M & p & T & H1 & H2 & H3); auto; [|apply argsort_sorts|].
    { intros [[i j] w] HI. apply IE in HI as (Hi & Hne & Hf & c & d & Hc & _). unfold esrc, edst. cbn [fst snd]. split; auto.
      apply (Hr (nth i rows []) j d); [apply nth_In; lia|]. eapply nth_error_In; eauto. }
    rewrite H1. cbn [bind]. rewrite H2. cbn [bind]. exists edges, T. auto.
  Qed.

  Variables (t : space_tree) (n : nat) (rd lb : nat -> nat -> W) (root : W -> W).
  Hypothesis TS : tree_shape t n.
  Hypothesis LB : lower_bounds t rd lb.
  Hypothesis Fin : forall i j, i < n -> j < n -> wfinite (rd i j) = true.
  Hypothesis Mono : forall x y, wle x y = true -> wle (root x) (root y) = true.
  Hypothesis RInf : forall x, wfinite x = true -> wlt (root x) (root winf) = true.

  Lemma rows_ok k : 0 < k -> parallel_tree_query t rd lb root n k = Ok (tree_rows t rd lb root n k) /\
    length (tree_rows t rd lb root n k) = n /\ forall i, i < n -> nearest root (rd i) n k (nth i (tree_rows t rd lb root n k) []).
  Proof.
    intro Hk. destruct (parallel_tree_query_ok t n n k rd lb root TS LB Hk Fin Mono RInf) as (rows & E & R).
    unfold tree_rows. rewrite E. split; auto. split.
    - apply Forall2_len in R. now rewrite seq_length in R.
    - intros i Hi. apply (Forall2_seq_get (fun i row => nearest root (rd i) n k row) [] n 0); auto.
  Qed.

  Lemma core_ok ms k (ws : list Qc) rows i : length ws = n -> (forall w, In w ws -> (0 <= w)%Qc) -> 0 < ms ->
    nearest root (rd i) n k (nth i rows []) -> i < length rows -> enough_listed (Sz := QcSize) n k ws (as_weight ms) ->
    weighted_core (Sz := QcSize) n ws (fun q => root (rd i q)) (as_weight ms) (nth i (sample_weight_core_distance (Sz := QcSize) ws (as_weight ms) rows) winf).
  Proof.
    intros Hw Hnn Hms HN Hi He. unfold sample_weight_core_distance.
    rewrite (nth_indep _ winf ((fun row : list (W * option nat) => weighted_scan (Sz := QcSize) ws (as_weight ms) szero (fst (last row (winf, None))) row) []))
      by (rewrite map_length; lia).
    rewrite (map_nth (fun row : list (W * option nat) => weighted_scan (Sz := QcSize) ws (as_weight ms) szero (fst (last row (winf, None))) row) rows []).
    eapply scan_core; eauto.
    - intro q. apply Qcleb_le. destruct (le_lt_dec (length ws) q) as [H|H]; [rewrite nth_overflow by auto; apply Qcle_refl|]. apply Hnn. now apply nth_In.
    - apply slt_true, Qcleb_gt. now apply as_weight_pos.
    - eapply listed_enough; eauto.
  Qed.
End Kruskal.
