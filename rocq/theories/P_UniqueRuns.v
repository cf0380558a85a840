(** Whole runs: the order of the samples, the search tree, the schedule and the
    algorithm do not change the clusters unless there are ties. *)
From Coq Require Import List Arith Lia Bool ZArith QArith Qcanon Permutation.
From Verif Require Import Prelude Order Size Num Graph M_Kruskal M_KruskalEntry S_Kruskal P_Kruskal P_KruskalEntry P_PrecomputedTop S_CoreGraph
  M_TreeQuery S_SpaceTree M_Boruvka S_Boruvka P_BoruvkaAgree
  M_Linkage S_Linkage M_Condense S_Condense M_Select M_Labels M_Pipeline S_Pipeline P_Pipeline P_PipelineEx S_Unique P_Relabel P_UniqueTop.
Import ListNotations.
Local Open Scope nat_scope.

Section Runs.
  Variables (mcs : nat) (m : selection_method) (allow : bool) (epsilon persistence : Qc) (n : nat).
  Hypothesis He : (epsilon <= 0)%Qc.
  Hypothesis Hpe : (persistence <= 0)%Qc.
  Hypothesis Hmcs : 2 <= mcs.
  Hypothesis Hn : 2 <= n.
  Variables (garbage garbage' : nat -> QInf) (by_parent by_parent' : list (crow QInf NatSize) -> list (crow QInf NatSize)).
  Hypothesis HB : sorts_by_parent by_parent.
  Hypothesis HB' : sorts_by_parent by_parent'.
  Notation st := (exact_settings (Sz := NatSize) mcs m allow epsilon persistence).
  Notation zero := (Some 0%Qc : QInf).
  Notation positive := (fun M : list (edge QInf) => forall e, In e M -> wlt zero (ewt e) = true).

  Lemma c49_pair p M M' : spanning_tree n M -> spanning_tree n M' -> reorders n p -> same_hierarchy n p M M' ->
    exists ls ps T ls' ps' T',
      exact_clusters garbage by_parent st M = Ok (ls, ps, T) /\ exact_clusters garbage' by_parent' st M' = Ok (ls', ps', T') /\
      (positive M -> distinct_weights M -> same_clustering (V := QInf) (Some 0%Qc) n p ls ls' ps ps').
  Proof.
    intros HM HM' Hp HS.
    destruct (exact_run garbage by_parent mcs m allow epsilon persistence n M HB Hmcs HM Hn Hpe) as (ls & ps & T & E & _).
    destruct (exact_run garbage' by_parent' mcs m allow epsilon persistence n M' HB' Hmcs HM' Hn Hpe) as (ls' & ps' & T' & E' & _).
    exists ls, ps, T, ls', ps', T'. split; auto. split; auto. intros Hpos HW.
    exact (c49_exact mcs m allow epsilon persistence n He Hpe Hmcs Hn garbage garbage' by_parent by_parent' p M M' ls ps T ls' ps' T' HB HB' HM HM' Hpos Hp HS HW E E').
  Qed.

  Lemma c49_forests E M M' : spanning_tree n M -> spanning_tree n M' -> min_spanning_forest E M -> min_spanning_forest E M' ->
    exists ls ps T ls' ps' T',
      exact_clusters garbage by_parent st M = Ok (ls, ps, T) /\ exact_clusters garbage' by_parent' st M' = Ok (ls', ps', T') /\
      (positive M -> distinct_weights M -> same_clustering (V := QInf) (Some 0%Qc) n (fun x => x) ls ls' ps ps').
  Proof.
    intros HM HM' F F'. apply c49_pair; auto; [apply id_reorders|]. apply levels_hierarchy. intros P HP x y. rewrite (msf_levels _ _ F P HP). symmetry. apply (msf_levels _ _ F' P HP).
  Qed.

  Lemma c49_brute p (D D' : nat -> nat -> QInf) ms : reorders n p ->
    (forall i j, i < n -> j < n -> D i j = D j i) -> (forall i j, i < n -> j < n -> D' i j = D (p i) (p j)) ->
    exists M nbrs core ls ps T M' nbrs' core' ls' ps' T',
      kruskal_mst_brute zero D n ms CLNone = Ok (M, nbrs, core) /\ exact_clusters garbage by_parent st M = Ok (ls, ps, T) /\
      kruskal_mst_brute zero D' n ms CLNone = Ok (M', nbrs', core') /\ exact_clusters garbage' by_parent' st M' = Ok (ls', ps', T') /\
      (forall x, x < n -> nth (p x) core winf = nth x core' winf) /\
      (positive M -> distinct_weights M -> same_clustering (V := QInf) (Some 0%Qc) n p ls ls' ps ps').
  Proof.
    intros Hp Hs HD. destruct (shuffled_brute qinf_anti n p zero D D' ms Hp Hs HD ltac:(lia)) as (M & nb & co & M' & nb' & co' & E & E' & ST & ST' & HH & Hc).
    destruct (c49_pair p M M' ST ST' Hp HH) as (ls & ps & T & ls' & ps' & T' & R & R' & K).
    exists M, nb, co, ls, ps, T, M', nb', co', ls', ps', T'. auto 10.
  Qed.

  Section Tree.
    Variables (t t' : space_tree) (p : nat -> nat) (rd rd' lb lb' : nat -> nat -> QInf) (root : QInf -> QInf) (mode mode' : query_mode) (ms : nat).
    Hypothesis Hp : reorders n p.
    Hypothesis TS : tree_shape t n.
    Hypothesis LB : lower_bounds t rd lb.
    Hypothesis TS' : tree_shape t' n.
    Hypothesis LB' : lower_bounds t' rd' lb'.
    Hypothesis Sym : forall i j, i < n -> j < n -> rd i j = rd j i.
    Hypothesis Fin : forall i j, i < n -> j < n -> wfinite (rd i j) = true.
    Hypothesis Self : forall i, i < n -> wle (rd i i) zero = true.
    Hypothesis Rd : forall i j, i < n -> j < n -> rd' i j = rd (p i) (p j).
    Hypothesis Mono : forall x y, wle x y = true -> wle (root x) (root y) = true.
    Hypothesis Rz : root zero = zero.
    Hypothesis Hms : ms < n.
    Hypothesis Hmode : threads_available mode.
    Hypothesis Hmode' : threads_available mode'.

    Lemma rd_sym' i j : i < n -> j < n -> rd' i j = rd' j i.
    Proof. intros Hi Hj. rewrite !Rd by auto. apply Sym; now apply Hp. Qed.
    Lemma rd_fin' i j : i < n -> j < n -> wfinite (rd' i j) = true.
    Proof. intros Hi Hj. rewrite !Rd by auto. apply Fin; now apply Hp. Qed.
    Lemma rd_self' i : i < n -> wle (rd' i i) zero = true.
    Proof. intros Hi. rewrite !Rd by auto. apply Self; now apply Hp. Qed.
    Lemma root_zero : equiv (root zero) zero.
    Proof. rewrite Rz. split; apply wle_refl. Qed.

    Lemma core_values (c1 c2 : list QInf) : Forall2 equiv c1 c2 -> c1 = c2.
    Proof. intro H. induction H as [|x y a b [H1 H2] _ IH]; auto. f_equal; auto. now apply qinf_anti. Qed.

    Lemma c49_tree : exists M nbrs core ls ps T M' nbrs' core' ls' ps' T' M2 nbrs2 core2 ls2 ps2 T2,
      parallel_boruvka t n rd lb zero root mode ms = Ok (M, nbrs, core) /\ exact_clusters garbage by_parent st M = Ok (ls, ps, T) /\
      parallel_boruvka t' n rd' lb' zero root mode' ms = Ok (M', nbrs', core') /\ exact_clusters garbage' by_parent' st M' = Ok (ls', ps', T') /\
      kruskal_mst_brute zero (fun i j => root (rd i j)) n ms CLNone = Ok (M2, nbrs2, core2) /\ exact_clusters garbage' by_parent' st M2 = Ok (ls2, ps2, T2) /\
      (forall x, x < n -> nth (p x) core winf = nth x core' winf) /\ core = core2 /\
      (positive M -> distinct_weights M ->
         same_clustering (V := QInf) (Some 0%Qc) n p ls ls' ps ps' /\ same_clustering (V := QInf) (Some 0%Qc) n (fun x => x) ls ls2 ps ps2).
    Proof.
      assert (Zf : wfinite zero = true) by reflexivity.
      destruct (tree_boruvka_agrees t n rd lb zero root mode ms TS LB Sym Fin Zf Self Mono Hn Hms Hmode root_zero) as (M & nb & co & K & nbk & ck & E & EK & C & HL & _).
      destruct (tree_boruvka_agrees t' n rd' lb' zero root mode' ms TS' LB' rd_sym' rd_fin' Zf rd_self' Mono Hn Hms Hmode' root_zero) as (M' & nb' & co' & K' & nbk' & ck' & E' & EK' & C' & HL' & _).
      destruct (tree_boruvka_reported t n rd lb zero root mode ms TS LB Sym Fin Zf Self Mono Hn Hms Hmode) as (M0 & nb0 & co0 & E0 & _ & ST & _). rewrite E in E0. injection E0 as <- <- <-.
      destruct (tree_boruvka_reported t' n rd' lb' zero root mode' ms TS' LB' rd_sym' rd_fin' Zf rd_self' Mono Hn Hms Hmode') as (M0 & nb0 & co0 & E0 & _ & ST' & _). rewrite E' in E0. injection E0 as <- <- <-.
      destruct (shuffled_brute qinf_anti n p zero (fun i j => root (rd i j)) (fun i j => root (rd' i j)) ms Hp) as (B & nbb & cb & B' & nbb' & cb' & EB & EB' & STB & STB' & HH & Hc); [intros; f_equal; now apply Sym|intros; f_equal; now apply Rd|lia|].
      rewrite EK in EB. injection EB as <- <- <-. rewrite EK' in EB'. injection EB' as <- <- <-.
      destruct (c49_pair p M M' ST ST' Hp (hierarchy_levels n p M M' K K' HL HL' HH)) as (ls & ps & T & ls' & ps' & T' & R & R' & X).
      destruct (c49_pair (fun x => x) M K ST STB (id_reorders n) (levels_hierarchy n M K HL)) as (ls1 & ps1 & T1 & ls2 & ps2 & T2 & R1 & R2 & X2). rewrite R in R1. injection R1 as <- <- <-.
      exists M, nb, co, ls, ps, T, M', nb', co', ls', ps', T', K, nbk, ck, ls2, ps2, T2. do 6 (split; [assumption|]).
      apply core_values in C. apply core_values in C'. subst co co'. auto 10.
    Qed.
  End Tree.
End Runs.
