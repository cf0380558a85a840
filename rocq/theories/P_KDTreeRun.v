(** Proofs that combine the construction of the space tree with its queries. *)
From Coq Require Import List Arith Lia Bool Permutation.
From Verif Require Import Prelude Order Coord Graph M_Kruskal M_KruskalEntry M_TreeQuery M_Boruvka M_KDTree
  S_Kruskal S_Precomputed S_CoreGraph S_SpaceTree S_Boruvka S_KDTree P_TreeQuery P_BoruvkaAgree P_Introselect P_KDTree.
Import ListNotations.

Section Run.
  Context {C : Coord}.
  Variables (data : nat -> nat -> C) (n_features n leaf_size : nat).
  Hypothesis data_num : forall i j, cnum (data i j).
  Hypothesis some : 0 < n.
  Hypothesis leaf_ok : 0 < leaf_size.
  Notation rd := (sample_rdist data n_features).

  Lemma built_query k out :
    0 < k ->
    (forall i q, i < n -> q < n -> wfinite (rd i q) = true) ->
    (forall x y : C, wle x y = true -> wle (out x) (out y) = true) ->
    (forall x : C, wfinite x = true -> wlt (out x) (out winf) = true) ->
    exists N b rows,
      build_kdtree data n_features n leaf_size = Ok (N, b) /\
      parallel_tree_query (tree_of (N, b)) rd (node_bound data n_features b) out n k = Ok rows /\
      Forall2 (fun i row => nearest out (rd i) n k row) (seq 0 n) rows.
  Proof.
    intros Hk F M1 M2. destruct (build_kdtree_ok data n_features data_num n leaf_size some leaf_ok) as (N & b & E & _).
    destruct (build_lower_bounds data n_features data_num n leaf_size N b some leaf_ok E) as [Sh Lb].
    destruct (parallel_tree_query_ok _ n n k rd (node_bound data n_features b) out Sh Lb Hk F M1 M2) as (rows & Er & H).
    exists N, b, rows. auto.
  Qed.

  Lemma built_boruvka root mode min_samples :
    (forall i j, i < n -> j < n -> wfinite (rd i j) = true) ->
    (forall x y : C, wle x y = true -> wle (root x) (root y) = true) ->
    2 <= n -> min_samples < n -> threads_available mode ->
    equiv (root czero) czero ->
    let D i j := root (rd i j) in
    exists N b T nbrs core T2 nbrs2 core2,
      build_kdtree data n_features n leaf_size = Ok (N, b) /\
      parallel_boruvka (tree_of (N, b)) n rd (node_bound data n_features b) czero root mode min_samples
        = Ok (T, nbrs, core) /\
      core_distances n D (root czero) min_samples core /\
      spanning_tree n T /\
      (let w := mutual (fun i => nth i core winf) D in
       min_spanning_forest (complete_graph n w) (map (at_weight w) T) /\
       (forall e, In e T -> equiv (ewt e) (w (esrc e) (edst e)))) /\
      kruskal_mst_brute czero D n min_samples CLNone = Ok (T2, nbrs2, core2) /\
      Forall2 equiv core core2 /\
      same_components_at_every_threshold T T2 /\
      same_weights (sorted_weights T) (sorted_weights T2).
  Proof.
    intros F M Hn Hms Th Z D. destruct (build_kdtree_ok data n_features data_num n leaf_size some leaf_ok) as (N & b & E & _).
    destruct (build_lower_bounds data n_features data_num n leaf_size N b some leaf_ok E) as [Sh Lb].
    assert (Sym : forall i j, i < n -> j < n -> rd i j = rd j i) by (intros i j _ _; now apply rdist_sym).
    assert (Self : forall i, i < n -> wle (rd i i) czero = true) by (intros i _; now apply rdist_self).
    assert (Zf : wfinite (czero : C) = true).
    { assert (F0 := F 0 0 ltac:(lia) ltac:(lia)).
      assert (P := rdist_pos data n_features data_num 0 0). unfold wfinite in *. eapply wle_lt_trans; eauto. }
    destruct (tree_boruvka_reported _ n rd _ czero root mode min_samples Sh Lb Sym F Zf Self M Hn Hms Th)
      as (T & nbrs & core & E1 & A1 & A2 & A3 & _).
    destruct (tree_boruvka_agrees _ n rd _ czero root mode min_samples Sh Lb Sym F Zf Self M Hn Hms Th Z)
      as (T1 & nbrs1 & core1 & T2 & nbrs2 & core2 & E2 & K & B1 & B2 & B3).
    rewrite E1 in E2. injection E2 as <- <- <-.
    exists N, b, T, nbrs, core, T2, nbrs2, core2. auto 12.
  Qed.
End Run.
