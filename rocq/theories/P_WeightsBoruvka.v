(** Boruvka with sample weights: a spanning tree, and what its weights are. *)
From Coq Require Import List Arith Lia Bool Permutation Relations Sorted QArith Qcanon.
From Verif Require Import Prelude Order Size Graph UF M_DisjointSet P_DisjointSet M_Kruskal M_Precomputed M_Linkage M_Select
  M_CoreGraph M_TreeQuery M_Boruvka M_KruskalEntry S_Kruskal S_Precomputed S_CoreGraph S_SpaceTree S_Boruvka
  P_Sort P_Forest P_LabelsTop P_Precomputed2 P_KruskalRun P_KruskalEntry P_Boruvka P_CoreGraph P_CoreGraphRun
  P_PrecomputedBoruvka P_BackendsAgree P_TreeQuery P_BoruvkaQuery P_BoruvkaRound P_BoruvkaTree P_ParallelBoruvka P_BoruvkaAgree
  M_Weights S_Weights P_Weights P_BoruvkaAny.
Import ListNotations.
Local Open Scope nat_scope.

Section Init.
  Context {W : WOrd}.
  Variables (n : nat) (core : nat -> W) (Q : nat -> edge W -> Prop).

  Lemma initialize_any rows :
    (forall i e, Q i e -> esrc e = i /\ edst e < n) ->
    Forall2 (fun i row => exists oe, initial_edge (n - 1) core i (tl row) = Ok oe /\ forall e, oe = Some e -> Q i e) (seq 0 n) rows ->
    exists d new, initialize_from_knn core (ds_rank_create n) rows = Ok (d, new) /\
      tracks n d new /\ acyclic new /\ forall e, In e new -> esrc e < n /\ Q (esrc e) e.
  Proof.
    intros HQ H. assert (L := Forall2_len _ _ _ H). rewrite seq_length in L. unfold initialize_from_knn.
    destruct (map_res_ok (fun ir => initial_edge (length rows - 1) core (fst ir) (tl (snd ir)))
                (fun ir oe => fst ir < n /\ forall e, oe = Some e -> Q (fst ir) e) (combine (seq 0 (length rows)) rows)) as (chosen & E & C).
    { intros [i row] Hin. assert (Hi : i < n) by (apply in_combine_l in Hin; apply in_seq in Hin; lia).
      rewrite <- L in Hin |- *. cbn [fst snd].
      assert (K : exists oe, initial_edge (n - 1) core i (tl row) = Ok oe /\ forall e, oe = Some e -> Q i e).
      { clear -H Hin. induction H as [|i' row' l l' H1 H2 IH]; [destruct Hin|].
        cbn [combine] in Hin. destruct Hin as [[= <- <-]|Hin]; auto. }
      destruct K as (oe & K1 & K2). eauto. }
    rewrite E. cbn [bind].
    assert (In' : forall e, In e (somes chosen) -> esrc e < n /\ Q (esrc e) e).
    { intros e He. unfold somes in He. apply in_flat_map in He. destruct He as (oe & Ho & He).
      destruct oe as [e'|]; [|destruct He]. destruct He as [->|[]]. clear -C Ho HQ.
      induction C as [|ir oe l l' [C1 C2] C3 IH]; [destruct Ho|]. destruct Ho as [->|Ho]; auto.
      specialize (C2 e eq_refl). destruct (HQ _ _ C2) as [E0 _]. rewrite E0. auto. }
    destruct (merge_edges_ok n (somes chosen) (ds_rank_create n) [] (tracks_create n) acyclic_nil) as (d & new & E1 & T1 & I1 & A1 & C1).
    { intros e He. destruct (In' e He) as [A B]. apply HQ in B. tauto. }
    exists d, new. split; [auto|]. split; [exact T1|]. split; [exact A1|]. auto.
  Qed.
End Init.

Lemma scan_in {W : WOrd} {Sz : SOrd} (ws : list Sz) m : forall (row : list (W * option nat)) total d,
  weighted_scan ws m total d row = d \/ exists x, In x row /\ weighted_scan ws m total d row = fst x.
Proof.
  induction row as [|[d' o] row IH]; intros total d; cbn [weighted_scan]; [auto|]. destruct (slt total m); [|auto].
  right. destruct (IH (sadd total (neighbor_weight ws o)) d') as [E|(x & Hx & E)]; rewrite E.
  - exists (d', o). simpl. auto.
  - exists x. simpl. auto.
Qed.

Lemma reweigh_tree {W : WOrd} n (f : W -> W) (M : list (edge W)) : spanning_tree n M -> spanning_tree n (map (reweigh f) M).
Proof.
  intros [S1 S2 S3 S4]. split.
  - intros e He. apply in_map_iff in He. destruct He as (g & <- & Hg). apply (S1 g Hg).
  - apply acyclic_strip. apply acyclic_strip in S2. unfold strip in *. rewrite map_map. exact S2.
  - intros x y Hx Hy. apply connected_reweigh. auto.
  - now rewrite map_length.
Qed.

Section Run.
  Context {W : WOrd}.
  Variables (t : space_tree) (n : nat) (rd lb : nat -> nat -> W) (root : W -> W) (mode : @query_mode) (ms k : nat) (ws : list Qc).
  Hypothesis TS : tree_shape t n.
  Hypothesis LB : lower_bounds t rd lb.
  Hypothesis Sym : forall i j, i < n -> j < n -> rd i j = rd j i.
  Hypothesis Fin : forall i j, i < n -> j < n -> wfinite (rd i j) = true.
  Hypothesis Mono : forall x y, wle x y = true -> wle (root x) (root y) = true.
  Hypothesis RFin : forall x, wfinite x = true -> wfinite (root x) = true.
  Hypothesis RInf : forall x, wfinite x = true -> wlt (root x) (root winf) = true.
  Hypothesis Hmode : match mode with Plain _ => True | Reproducible nt _ => 0 < nt end.
  Hypothesis Hk : expected_neighbors ms ws = Ok k.
  Hypothesis Hn : 0 < n.
  Hypothesis Hk1 : 1 <= k.
  Hypothesis Hkn : k <= n \/ forall i row, i < n -> nearest root (rd i) n k row ->
    wfinite (weighted_scan (Sz := QcSize) ws (as_weight ms) szero (fst (last row (winf, None))) row) = true.

  (** What the code reports for a pair: [root] of a value that mixes distances with
      their squares. *)
  Definition mixed (core : nat -> W) (e : edge W) : Prop :=
    (wle (core (edst e)) (core (esrc e)) = true /\ ewt e = root (wmax (core (esrc e)) (root (rd (esrc e) (edst e))))) \/
    ewt e = root (mutual core rd (esrc e) (edst e)).

  Lemma weighted_boruvka_run : exists rows T,
    let core := sample_weight_core_distance (Sz := QcSize) ws (as_weight ms) rows in
    parallel_boruvka_weighted t n rd lb root mode ms ws = Ok (T, map (fun row => map snd (tl row)) rows, map root core) /\
    Forall2 (fun i row => nearest root (rd i) n k row) (seq 0 n) rows /\
    spanning_tree n T /\
    forall e, In e T -> mixed (fun i => nth i core winf) e.
  Proof.
    destruct (parallel_tree_query_ok t n n k rd lb root TS LB ltac:(lia) Fin Mono RInf) as (rows & E & R).
    assert (L := Forall2_len _ _ _ R). rewrite seq_length in L.
    set (core := sample_weight_core_distance (Sz := QcSize) ws (as_weight ms) rows).
    set (core_of := fun i => nth i core winf).
    assert (Row : forall i, i < n -> exists near,
        nth i rows [] = map (fun q => (root (rd i q), Some q)) near ++ repeat (root winf, None) (k - n) /\ near <> [] /\ (forall q, In q near -> q < n) /\
        (n < k -> forall q, q < n -> In q near)).
    { intros i Hi. assert (N : nearest root (rd i) n k (nth i rows [])).
      { apply (Forall2_seq_get (fun i row => nearest root (rd i) n k row) [] n 0); auto. }
      destruct N as (near & far & A & B & C & _).
      exists near. split; [auto|]. split; [intros ->; cbn in B; lia|]. split.
      - intros q Hq. assert (K : In q (seq 0 n)) by (eapply Permutation_in; [exact C|apply in_or_app; auto]). apply in_seq in K. lia.
      - intros Hlt q Hq. rewrite Nat.min_r in B by lia.
        assert (far = []) as ->. { apply Permutation_length in C. rewrite app_length, seq_length in C. destruct far; [reflexivity|cbn [length] in C; lia]. }
        rewrite app_nil_r in C. eapply Permutation_in; [apply Permutation_sym; exact C|]. apply in_seq. lia. }
    assert (CF : forall i, i < n -> wfinite (core_of i) = true).
    { intros i Hi. destruct (Row i Hi) as (near & A & B & C & _). unfold core_of, core, sample_weight_core_distance.
      rewrite (nth_indep _ winf ((fun row : list (W * option nat) => weighted_scan (Sz := QcSize) ws (as_weight ms) szero (fst (last row (winf, None))) row) []))
        by (rewrite map_length; lia).
      rewrite (map_nth (fun row : list (W * option nat) => weighted_scan (Sz := QcSize) ws (as_weight ms) szero (fst (last row (winf, None))) row) rows []).
      destruct Hkn as [Hle|HF].
      2:{ apply (HF i); auto. apply (Forall2_seq_get (fun i row => nearest root (rd i) n k row) [] n 0); auto. }
      replace (k - n) with 0 in A by lia. cbn [repeat] in A. rewrite app_nil_r in A.
      assert (F : forall x, In x (nth i rows []) -> wfinite (fst x) = true).
      { intros x Hx. rewrite A in Hx. apply in_map_iff in Hx as (q & <- & Hq). cbn [fst]. auto. }
      destruct (scan_in (Sz := QcSize) ws (as_weight ms) (nth i rows []) szero (fst (last (nth i rows []) (winf, None)))) as [->|(x & Hx & ->)]; auto.
      apply F. apply last_in. rewrite A. destruct near; [congruence|discriminate]. }
    assert (MF : forall i j, i < n -> j < n -> wfinite (mutual core_of rd i j) = true).
    { intros i j Hi Hj. unfold mutual, wmax. repeat match goal with |- context [if ?c then _ else _] => destruct c end; auto. }
    destruct (initialize_any n core_of (fun i e => esrc e = i /\ edst e < n /\ wle (core_of (edst e)) (core_of i) = true /\
                ewt e = wmax (core_of i) (root (rd i (edst e)))) rows) as (d & new & E1 & T1 & A1 & Q1).
    { tauto. }
    { apply (Forall2_seq_make _ []); auto. intros i Hi. cbn [Nat.add]. destruct (Row i Hi) as (near & A & B & C & D). rewrite A. clear A.
      assert (K : forall l : list nat, (forall q, In q l -> q < n) ->
        (n < k -> i = n - 1 \/ exists q, (q = i \/ q = n - 1) /\ In q l) ->
        exists oe, initial_edge (n - 1) core_of i (map (fun q => (root (rd i q), Some q)) l ++ repeat (root winf, None) (k - n)) = Ok oe /\
        (forall e : edge W, oe = Some e -> esrc e = i /\ edst e < n /\ wle (core_of (edst e)) (core_of i) = true /\ ewt e = wmax (core_of i) (root (rd i (edst e))))).
      { assert (Pad : i = n - 1 \/ wle (core_of (n - 1)) (core_of i) = false -> forall m, initial_edge (n - 1) core_of i (repeat (root winf, None) m) = Ok None).
        { intros Hp m. induction m as [|m IH]; [reflexivity|]. cbn [repeat initial_edge].
          destruct (wle (core_of (n - 1)) (core_of i)) eqn:Ew; [|exact IH]. destruct Hp as [->|Hp]; [now rewrite Nat.eqb_refl|congruence]. }
        assert (K0 : forall l, (forall q, In q l -> q < n) -> (n < k -> i = n - 1 \/ wle (core_of (n - 1)) (core_of i) = false \/ exists q, (q = i \/ q = n - 1) /\ In q l) ->
          exists oe, initial_edge (n - 1) core_of i (map (fun q => (root (rd i q), Some q)) l ++ repeat (root winf, None) (k - n)) = Ok oe /\
          (forall e : edge W, oe = Some e -> esrc e = i /\ edst e < n /\ wle (core_of (edst e)) (core_of i) = true /\ ewt e = wmax (core_of i) (root (rd i (edst e))))).
        { induction l as [|q l IH]; intros Hl Hp; cbn [map app initial_edge].
          - exists None. split; [|intros e [=]]. destruct (le_lt_dec k n) as [H|H]; [now replace (k - n) with 0 by lia|].
            apply Pad. destruct (Hp H) as [Hq|[Hq|(q & _ & [])]]; auto.
          - destruct (wle (core_of q) (core_of i)) eqn:Ew.
            + eexists. split; [reflexivity|]. intros e [= <-]. unfold esrc, edst, ewt. cbn [fst snd]. split; [auto|]. split; [apply Hl; simpl; auto|]. auto.
            + apply IH; [intros; apply Hl; simpl; auto|]. intro H. destruct (Hp H) as [Hq|[Hq|(q' & Hq & [->|Hin])]]; auto.
              * destruct Hq as [->| ->]; [rewrite wle_refl in Ew; discriminate|auto].
              * right. right. eauto. }
        intros l Hl Hp. apply K0; auto. intro H. destruct (Hp H); auto. }
      destruct near as [|q0 near]; [congruence|]. cbn [map app tl].
      apply K; [intros; apply C; simpl; auto|]. intro H.
      destruct (Nat.eq_dec i (n - 1)) as [->|Hne]; [auto|]. right.
      destruct (D H i Hi) as [->|Hin]; [|eauto].
      destruct (D H (n - 1) ltac:(lia)) as [->|Hin]; [congruence|eauto]. }
    destruct (refresh_any t n TS d (fun _ => None) (seq 0 n) (@nil (edge W)) new) as (d2 & nc2 & comps & E2 & R2); auto.
    { split; [apply seq_length|]. intros x y Hx Hy. rewrite !seq_nth by auto. cbn. rewrite connected_nil. tauto. }
    { intros node c q _ [=]. }
    { intros x y H. apply connected_nil in H as ->. apply connected_refl. }
    { intros e He. destruct (Q1 e He) as (A & _ & B & _). auto. }
    destruct (rounds_any t n rd lb core_of TS LB Sym MF mode Hmode n 0 d2 nc2 comps
                (length (nodup Nat.eq_dec comps)) new R2) as (new2 & E3 & A3 & R3 & C3 & W3).
    { assert (K := ainv_count t n _ _ _ _ _ R2). lia. }
    exists rows, (map (reweigh root) (new ++ new2)). cbv zeta. fold core.
    split.
    { unfold parallel_boruvka_weighted. rewrite Hk. cbn [bind]. destruct (Nat.eqb_spec k 0); [lia|]. rewrite E. cbn [bind]. fold core. fold core_of.
      rewrite E1. cbn [bind]. rewrite E2. cbn [bind]. rewrite E3. cbn [bind]. reflexivity. }
    split; [exact R|]. split.
    - apply reweigh_tree. apply (tree_of_parts n); auto.
    - intros e He. apply in_map_iff in He as (f & <- & Hf). unfold mixed, reweigh, esrc, edst, ewt. cbn [fst snd].
      apply in_app_iff in Hf as [Hf|Hf].
      + left. destruct (Q1 f Hf) as (_ & _ & _ & A & B). unfold esrc, edst, ewt in *. rewrite B. auto.
      + right. f_equal. apply (W3 f Hf).
  Qed.
End Run.
