(** Proofs about the neighbours that are reported. *)
From Coq Require Import List Arith Lia Bool Permutation ZArith.
From Verif Require Import Prelude Order Graph S_Kruskal M_Kruskal M_Precomputed M_KruskalEntry M_TreeQuery M_Boruvka S_SpaceTree S_Boruvka S_Neighbours P_Kruskal P_BoruvkaAgree.
Import ListNotations.

Section Neighbours.
  Context {W : WOrd}.

  Lemma sorted_app_l (d : nat -> W) a b : sorted_by d (a ++ b) -> sorted_by d a.
  Proof.
    unfold sorted_by. induction a as [|x a IH]; intro H; [constructor|]. inversion_clear H. constructor; auto.
    rewrite Forall_forall in *. intros y Hy. apply H1. apply in_or_app. auto.
  Qed.
  Lemma sorted_app_le (d : nat -> W) a b : sorted_by d (a ++ b) -> forall x y, In x a -> In y b -> wle (d x) (d y) = true.
  Proof.
    unfold sorted_by. induction a as [|z a IH]; intros H x y Hx Hy; [destruct Hx|]. inversion_clear H. destruct Hx as [->|Hx]; [|apply (IH H0 x y); auto].
    rewrite Forall_forall in H1. apply H1. apply in_or_app. auto.
  Qed.

  Lemma split_near (d : nat -> W) n near far c row :
    Permutation (near ++ far) (seq 0 n) -> sorted_by d near -> (forall q r, In q near -> In r far -> wle (d q) (d r) = true) ->
    near = c :: row -> nearest_except d n (length row) c row.
  Proof.
    intros P S L ->. assert (N : NoDup ((c :: row) ++ far)) by (eapply Permutation_NoDup; [apply Permutation_sym; exact P|apply seq_NoDup]).
    assert (In' : forall x, In x ((c :: row) ++ far) <-> x < n).
    { intro x. rewrite P, in_seq. lia. }
    apply NoDup_app_iff in N as (N1 & _ & _). split; auto.
    - intros x Hx. apply In'. apply in_or_app. auto.
    - inversion S; auto.
    - intros x Hx. inversion_clear S. rewrite Forall_forall in H0. auto.
    - intros x y Hx Hy Hn. apply In' in Hy. apply in_app_or in Hy as [Hy|Hy]; [contradiction|]. apply L; auto. right. auto.
  Qed.

  Lemma alone_except (d : nat -> W) n k c row i : nearest_except d n k c row -> 0 < k -> i < n -> alone d n i -> c = i.
  Proof.
    intros [H1 H2 H3 H4 H5 H6] Hk Hi A. destruct (Nat.eq_dec c i) as [|Hc]; auto. exfalso.
    assert (K : wlt (d i) (d c) = true) by (apply A; auto; apply H3; left; auto). apply wlt_nle in K.
    destruct (in_dec Nat.eq_dec i row) as [Hr|Hr].
    - rewrite (H5 i Hr) in K. discriminate.
    - destruct row as [|x row]; [simpl in H1; lia|].
      assert (Hx := H5 x (or_introl eq_refl)). assert (Hxi : wle (d x) (d i) = true) by (apply H6; [left|auto|intros [E|E]]; auto).
      pose proof (wle_trans _ _ _ _ Hx Hxi) as T. rewrite T in K. discriminate.
  Qed.

  (** Shortening a list of neighbours. *)
  Lemma shorten (d : nat -> W) n k m c row : nearest_except d n k c row -> m <= k -> nearest_except d n m c (firstn m row).
  Proof.
    intros [H1 H2 H3 H4 H5 H6] Hm. assert (E := firstn_skipn m row). assert (N := H2). rewrite <- E in N.
    assert (Inc : forall x, In x (firstn m row) -> In x row) by (intros x Hx; rewrite <- E; apply in_or_app; auto).
    split.
    - rewrite firstn_length. lia.
    - inversion_clear N. apply NoDup_app_iff in H0 as (N1 & _ & _). constructor; auto. intro K. apply H. apply in_or_app. auto.
    - intros x [<-|Hx]; apply H3; [left|right]; auto.
    - rewrite <- E in H4. apply sorted_app_l in H4. auto.
    - auto.
    - intros x y Hx Hy Hn. destruct (in_dec Nat.eq_dec y row) as [Hr|Hr].
      + rewrite <- E in Hr, H4. apply in_app_or in Hr as [Hr|Hr]; [exfalso; apply Hn; right; auto|]. exact (sorted_app_le _ _ _ H4 x y Hx Hr).
      + apply H6; auto. intros [K|K]; [apply Hn; left; auto|contradiction].
  Qed.

  Lemma brute_reported (zero : W) (D : nat -> nat -> W) n ms cl M nbrs core : 2 <= n ->
    kruskal_mst_brute zero D n ms cl = Ok (M, nbrs, core) ->
    length nbrs = n /\ forall i, i < n ->
      exists c, nearest_except (D i) n (Nat.min (Nat.max 1 ms) (n - 1)) c (nth i nbrs []) /\ (alone (D i) n i -> c = i).
  Proof.
    intros Hn E. unfold kruskal_mst_brute in E. destruct (run_kruskal_core _ _ _ _) as [[m p]|]; [|discriminate]. cbn [bind] in E.
    destruct (finish_mst _ _ _) as [m'|]; [|discriminate]. cbn [bind] in E.
    assert (En : nbrs = map (brute_neighbors D n ms) (seq 0 n)) by congruence. subst nbrs. clear E. rewrite map_length, seq_length. split; auto.
    intros i Hi. rewrite (nth_indep _ [] (brute_neighbors D n ms 0)) by (rewrite map_length, seq_length; auto). rewrite map_nth, seq_nth by auto. cbn [Nat.add].
    unfold brute_neighbors. cbv zeta. set (k := Nat.min (Nat.max 1 ms) (n - 1)). assert (Hk : 0 < k < n) by lia.
    pose proof (isort_perm (D i) (seq 0 n)) as P. pose proof (isort_sorted (D i) (seq 0 n)) as S.
    assert (L := Permutation_length P). rewrite seq_length in L. destruct (isort (D i) (seq 0 n)) as [|c row] eqn:Ei; [cbn [length] in L; lia|].
    cbn [skipn]. simpl in L.
    assert (K : nearest_except (D i) n (length row) c row).
    { apply (split_near (D i) n (c :: row) [] c row); [rewrite app_nil_r; first [exact P|apply Permutation_sym; exact P]|exact S|intros q r _ []|reflexivity]. }
    apply (shorten _ _ _ k) in K; [|lia]. exists c. split; auto. intro A. eapply alone_except; eauto. lia.
  Qed.

  Lemma tree_row (out : W -> W) (d : nat -> W) n k row : (forall x y, wle x y = true -> wle (out x) (out y) = true) ->
    0 < k -> k < n -> nearest out d n (S k) row ->
    exists c others, row = map (fun q => (out (d q), Some q)) (c :: others) /\ nearest_except (fun q => out (d q)) n k c others.
  Proof.
    intros M Hk Hn (near & far & E & L & P & S & C). replace (Datatypes.S k - n) with 0 in E by lia. cbn [repeat] in E. rewrite app_nil_r in E.
    destruct near as [|c others]; [cbn [length] in L; lia|]. exists c, others. split; auto.
    replace k with (length others) by (cbn [length] in L; lia). apply (split_near (fun q => out (d q)) n (c :: others) far); auto.
  Qed.

  Lemma boruvka_reported (d : nat -> nat -> W) n ms nbrs : 2 <= n -> ms < n ->
    Forall2 (fun i nb => exists row, nearest (fun x => x) (d i) n (if 1 <? ms then ms + 1 else 2) row /\ nb = map snd (tl row)) (seq 0 n) nbrs ->
    length nbrs = n /\ forall i, i < n ->
      exists c others, nth i nbrs [] = map Some others /\ nearest_except (d i) n (Nat.max 1 ms) c others /\ (alone (d i) n i -> c = i).
  Proof.
    intros Hn Hm F. apply (Forall2_seq_nth _ _ _ []) in F as [L F]. split; auto. intros i Hi.
    destruct (F i Hi) as (row & N & ->).
    replace (if 1 <? ms then ms + 1 else 2) with (S (Nat.max 1 ms)) in N by (destruct (Nat.ltb_spec 1 ms); lia).
    destruct (tree_row (fun x => x) (d i) n (Nat.max 1 ms) row) as (c & others & -> & K); auto; try lia.
    exists c, others. split; [|split; auto].
    - cbn [tl map]. rewrite map_map. reflexivity.
    - intro A. eapply alone_except; eauto. lia.
  Qed.

  Lemma knn_reported (zero : W) (query : nat -> list (list (option nat * W))) out (d : nat -> nat -> W) n ms knn_k cl M nbrs core :
    (forall x y, wle x y = true -> wle (out x) (out y) = true) -> 2 <= n -> ms < n -> 0 < knn_k -> 
    (forall k, Forall2 (fun i row => nearest out (d i) n k (map (fun p => (snd p, fst p)) row)) (seq 0 n) (query k)) ->
    kruskal_mst_knn zero query ms knn_k cl = Ok (M, nbrs, core) ->
    length nbrs = n /\ forall i, i < n ->
      exists c others, nth i nbrs [] = map Some others /\ nearest_except (fun q => out (d i q)) n (Nat.max 1 ms) c others /\ (alone (fun q => out (d i q)) n i -> c = i).
  Proof.
    intros Mono Hn Hm Hk F E. unfold kruskal_mst_knn in E. cbv zeta in E.
    destruct (run_kruskal_core _ _ _ _) as [[m p]|]; [|discriminate]. cbn [bind] in E. destruct (finish_mst _ _ _) as [m'|]; [|discriminate]. cbn [bind] in E.
    set (kq := if 1 <? ms then Nat.max knn_k ms + 1 else knn_k + 1) in *.
    assert (Hq : Nat.max 1 ms + 1 <= kq) by (unfold kq; destruct (Nat.ltb_spec 1 ms); lia).
    assert (En : nbrs = map (fun row => map fst (firstn (Nat.max 1 ms) (skipn 1 row))) (query kq)) by congruence. subst nbrs. clear E.
    specialize (F kq). apply (Forall2_seq_nth _ _ _ []) in F as [L F]. rewrite map_length. split; auto. intros i Hi.
    destruct (F i Hi) as (near & far & E & Ln & P & S & C).
    destruct near as [|c others]; [cbn [length] in Ln; lia|].
    assert (K : nearest_except (fun q => out (d i q)) n (length others) c others).
    { apply (split_near (fun q => out (d i q)) n (c :: others) far); auto. }
    assert (Lo : Nat.max 1 ms <= length others) by (cbn [length] in Ln; lia).
    apply (shorten _ _ _ (Nat.max 1 ms)) in K; auto. exists c, (firstn (Nat.max 1 ms) others). split; [|split; auto].
    - rewrite (nth_indep _ [] (map fst (firstn (Nat.max 1 ms) (skipn 1 ([] : list (option nat * W)))))) by (rewrite map_length; lia).
      rewrite (map_nth (fun row : list (option nat * W) => map fst (firstn (Nat.max 1 ms) (skipn 1 row)))).
      assert (E' : map fst (nth i (query kq) []) = map Some (c :: others) ++ repeat None (kq - n)).
      { transitivity (map snd (map (fun p : option nat * W => (snd p, fst p)) (nth i (query kq) []))).
        - rewrite map_map. reflexivity.
        - rewrite E, map_app, map_map. f_equal. clear. induction (kq - n); cbn [repeat map]; f_equal; auto. }
      destruct (nth i (query kq) []) as [|x xs]; [discriminate|]. cbn [skipn]. cbn [map app] in E'. injection E' as _ E'.
      rewrite <- firstn_map, E', firstn_app, map_length. replace (Nat.max 1 ms - length others) with 0 by lia. cbn [firstn]. rewrite app_nil_r. apply firstn_map.
    - intro A. eapply alone_except; eauto. lia.
  Qed.
End Neighbours.

(** ** The entry point over a k-d or ball tree *)
Lemma tree_boruvka_neighbours (W : WOrd) t n (rd lb : nat -> nat -> W) zero root mode min_samples :
  tree_shape t n -> lower_bounds t rd lb ->
  (forall i j, i < n -> j < n -> rd i j = rd j i) ->
  (forall i j, i < n -> j < n -> wfinite (rd i j) = true) ->
  wfinite zero = true -> (forall i, i < n -> wle (rd i i) zero = true) ->
  (forall x y, wle x y = true -> wle (root x) (root y) = true) ->
  2 <= n -> min_samples < n -> threads_available mode ->
  exists T nbrs core,
    parallel_boruvka t n rd lb zero root mode min_samples = Ok (T, nbrs, core) /\
    length nbrs = n /\ forall i, i < n ->
      exists c others, nth i nbrs [] = map Some others /\ nearest_except (rd i) n (Nat.max 1 min_samples) c others /\
        (alone (rd i) n i -> c = i).
Proof.
  intros Sh Lb Sym F Zf Self M Hn Hms Th.
  destruct (tree_boruvka_reported t n rd lb zero root mode min_samples Sh Lb Sym F Zf Self M Hn Hms Th) as (T & nbrs & core & E & _ & _ & _ & R).
  exists T, nbrs, core. split; auto. apply boruvka_reported; auto.
Qed.
