(** Edges between reordered samples. *)
From Coq Require Import List Arith Lia Bool Permutation Sorted.
From Verif Require Import Prelude Order Graph M_Kruskal M_Precomputed M_KruskalEntry S_Kruskal P_Kruskal P_KruskalEntry S_Precomputed P_Precomputed P_Sort P_PrecomputedTop
  S_CoreGraph S_Boruvka P_BoruvkaAgree P_BackendsAgree S_Unique P_UniqueTree P_Reorder.
Import ListNotations.

Section Relabel.
  Context {W : WOrd}.
  Variables (n : nat) (p : nat -> nat).
  Hypothesis Hp : reorders n p.

  Lemma relabel_to (E : list (edge W)) x y : connected E x y -> connected (relabel p E) (p x) (p y).
  Proof.
    revert x y. apply (connected_ind_equiv E (fun x y => connected (relabel p E) (p x) (p y))).
    - intro. apply connected_refl.
    - intros x y. apply connected_sym.
    - intros x y z H1 H2. eapply connected_trans; eauto.
    - intros e He. change (connected (relabel p E) (esrc (p (esrc e), p (edst e), ewt e)) (edst (p (esrc e), p (edst e), ewt e))).
      apply connected_edge. unfold relabel. now apply in_map with (f := fun e => (p (esrc e), p (edst e), ewt e)).
  Qed.
  Lemma relabel_from (E : list (edge W)) u v : in_range n E -> connected (relabel p E) u v ->
    u = v \/ exists x y, x < n /\ y < n /\ p x = u /\ p y = v /\ connected E x y.
  Proof.
    intro HE. revert u v. apply (connected_ind_equiv (relabel p E) (fun u v => u = v \/ exists x y, x < n /\ y < n /\ p x = u /\ p y = v /\ connected E x y)).
    - auto.
    - intros u v [->|(x & y & H1 & H2 & H3 & H4 & H5)]; auto. right. exists y, x. repeat (split; auto). now apply connected_sym.
    - intros u v w [->|(x & y & H1 & H2 & H3 & H4 & H5)] [->|(x' & y' & K1 & K2 & K3 & K4 & K5)]; auto.
      + right. exists x', y'. auto.
      + right. exists x, y. auto.
      + right. assert (y = x') by (apply Hp; auto; congruence). subst x'. exists x, y'. repeat (split; auto). eapply connected_trans; eauto.
    - intros e He. apply in_map_iff in He as (e0 & <- & He0). destruct (HE e0 He0) as [R1 R2]. right. exists (esrc e0), (edst e0). repeat (split; auto). now apply connected_edge.
  Qed.
  Lemma relabel_iff (E : list (edge W)) x y : in_range n E -> x < n -> y < n -> (connected (relabel p E) (p x) (p y) <-> connected E x y).
  Proof.
    intros HE Hx Hy. split; [|apply relabel_to]. intro H. destruct (relabel_from E _ _ HE H) as [E0|(x' & y' & H1 & H2 & H3 & H4 & H5)].
    - apply (proj2 Hp) in E0; auto. subst y. apply connected_refl.
    - apply (proj2 Hp) in H3; auto. apply (proj2 Hp) in H4; auto. now subst x' y'.
  Qed.
  Lemma relabel_passing P (E : list (edge W)) : passing P (relabel p E) = relabel p (passing P E).
  Proof. unfold passing, relabel. induction E as [|e E IH]; auto. cbn [map filter]. rewrite IH. unfold ewt at 1. cbn [snd]. now destruct (P (ewt e)). Qed.
  Lemma relabel_weights (E : list (edge W)) : map ewt (relabel p E) = map ewt E.
  Proof. unfold relabel. rewrite map_map. reflexivity. Qed.
  Lemma relabel_range (E : list (edge W)) : in_range n E -> in_range n (relabel p E).
  Proof. intros H e He. apply in_map_iff in He as (e0 & <- & He). destruct (H e0 He). split; now apply Hp. Qed.
  Lemma relabel_acyclic (E : list (edge W)) : in_range n E -> acyclic E -> acyclic (relabel p E).
  Proof.
    intros HE HA A e B E0 K. unfold relabel in E0. apply map_eq_app in E0 as (E1 & E2 & -> & <- & E0). destruct E2 as [|f E2]; [discriminate|]. cbn in E0. injection E0 as <- <-.
    assert (Hf : In f (E1 ++ f :: E2)) by (apply in_or_app; right; now left). destruct (HE f Hf) as [F1 F2].
    apply (HA E1 f E2 eq_refl). rewrite <- map_app in K. apply relabel_iff; auto. intros g Hg. apply HE. apply in_app_or in Hg as [|]; apply in_or_app; simpl; auto.
  Qed.
  Lemma relabel_tree (M : list (edge W)) : spanning_tree n M -> spanning_tree n (relabel p M).
  Proof.
    intros [R A C N]. constructor.
    - now apply relabel_range.
    - now apply relabel_acyclic.
    - intros u v Hu Hv. destruct (reorder_onto n p Hp u Hu) as (x & Hx & <-). destruct (reorder_onto n p Hp v Hv) as (y & Hy & <-). apply relabel_to. auto.
    - unfold relabel. now rewrite map_length.
  Qed.

  Lemma passing_range P (E : list (edge W)) : in_range n E -> in_range n (passing P E).
  Proof. intros H e He. apply in_passing in He as [He _]. auto. Qed.
  Hypothesis Hanti : forall a b : W, wle a b = true -> wle b a = true -> a = b.
  Lemma same_weights_perm (M M' : list (edge W)) : same_weights (sorted_weights M) (sorted_weights M') -> Permutation (map ewt M) (map ewt M').
  Proof.
    intro H. assert (E : sorted_weights M = sorted_weights M').
    { revert H. generalize (sorted_weights M) (sorted_weights M'). intros a b H. unfold same_weights in H. induction H as [|x y a b [H1 H2] _ IH]; auto. f_equal; auto. }
    unfold sorted_weights in E. eapply Permutation_trans; [apply isort_perm with (key := fun w => w)|]. rewrite E. apply Permutation_sym, isort_perm.
  Qed.
  Lemma hierarchy_weights (M M' : list (edge W)) : spanning_tree n M -> spanning_tree n M' -> same_hierarchy n p M M' -> Permutation (map ewt M) (map ewt M').
  Proof.
    intros HM HM' HS. rewrite <- (relabel_weights M'). apply same_weights_perm. pose proof (relabel_tree M' HM') as HR. apply (tree_weights n); auto.
    intros P HP u v. rewrite relabel_passing.
    assert (R1 : in_range n (passing P M)) by (apply passing_range, HM). assert (R2 : in_range n (passing P M')) by (apply passing_range, HM').
    destruct (Nat.eq_dec u v) as [->|Hne]; [split; intros _; apply connected_refl|]. split; intro H.
    - destruct (connected_range n _ R1 _ _ H) as [|[Hu Hv]]; [contradiction|]. destruct (reorder_onto n p Hp u Hu) as (x & Hx & <-). destruct (reorder_onto n p Hp v Hv) as (y & Hy & <-).
      apply relabel_to. apply HS; auto.
    - destruct (connected_range n _ (relabel_range _ R2) _ _ H) as [|[Hu Hv]]; [contradiction|]. destruct (reorder_onto n p Hp u Hu) as (x & Hx & <-). destruct (reorder_onto n p Hp v Hv) as (y & Hy & <-).
      apply HS; auto. exact (proj1 (relabel_iff _ x y R2 Hx Hy) H).
  Qed.

  (** Minimum spanning trees of one graph, or of a graph and its reordered copy. *)
  Lemma msf_hierarchy (E E' M M' : list (edge W)) : in_range n E' -> min_spanning_forest E M -> min_spanning_forest E' M' ->
    (forall x y w, joined E x y w <-> joined (relabel p E') x y w) -> same_hierarchy n p M M'.
  Proof.
    intros R' H H' HE P HP x y Hx Hy. rewrite (msf_levels _ _ H P HP), (msf_levels _ _ H' P HP). rewrite <- (relabel_iff (passing P E') x y (passing_range P E' R') Hx Hy).
    rewrite <- relabel_passing.
    assert (K : forall A B : list (edge W), (forall x y w, joined A x y w -> joined B x y w) -> forall u v, connected (passing P A) u v -> connected (passing P B) u v).
    { intros A B HAB. apply connected_mono. intros e He. apply in_passing in He as [H1 H2]. destruct e as [[a b] w].
      change (connected (passing P B) a b). change (P w = true) in H2.
      destruct (HAB a b w (or_introl H1)) as [K|K].
      - apply (connected_edge (passing P B) (a, b, w)). now apply in_passing.
      - apply connected_sym. apply (connected_edge (passing P B) (b, a, w)). now apply in_passing. }
    split; apply K; intros; now apply HE.
  Qed.
End Relabel.

Lemma id_reorders n : reorders n (fun x => x).
Proof. split; auto. Qed.
Lemma levels_hierarchy {W : WOrd} n (M M' : list (edge W)) : same_components_at_every_threshold M M' -> same_hierarchy n (fun x => x) M M'.
Proof. intros H P HP x y _ _. apply H; auto. Qed.
Lemma hierarchy_levels {W : WOrd} n p (A A' B B' : list (edge W)) :
  same_components_at_every_threshold A B -> same_components_at_every_threshold A' B' -> same_hierarchy n p B B' -> same_hierarchy n p A A'.
Proof. intros H1 H2 H P HP x y Hx Hy. rewrite (H1 P HP), (H2 P HP). apply H; auto. Qed.

(** ** Samples in another order *)
Section Shuffle.
  Context {W : WOrd}.
  Hypothesis Hanti : forall a b : W, wle a b = true -> wle b a = true -> a = b.
  Variables (n : nat) (p : nat -> nat) (zero : W) (D D' : nat -> nat -> W) (ms : nat).
  Hypothesis Hp : reorders n p.
  Hypothesis Hsym : forall i j, i < n -> j < n -> D i j = D j i.
  Hypothesis HD : forall i j, i < n -> j < n -> D' i j = D (p i) (p j).

  Lemma countp_perm {A} (q : A -> bool) l l' : Permutation l l' -> countp q l = countp q l'.
  Proof. intro H. rewrite !countp_filter. apply Permutation_length. now apply Prelude.filter_perm. Qed.
  Lemma kth_perm k (l l' : list W) d : Permutation l l' -> kth_smallest k l d -> kth_smallest k l' d.
  Proof.
    intros H (H1 & H2 & H3). split; [eapply Permutation_in; eauto|]. now rewrite <- !(countp_perm _ _ _ H).
  Qed.
  Lemma shuffled_core i : i < n -> brute_core zero D' n ms i = brute_core zero D n ms (p i).
  Proof.
    intro Hi. destruct (brute_core_ok zero D n ms (p i)) as (A1 & A2 & A3). destruct (brute_core_ok zero D' n ms i) as (B1 & B2 & B3).
    destruct (le_lt_dec ms 1) as [H|H]; [rewrite A1, B1; auto|]. destruct (le_lt_dec n ms) as [K|K]; [rewrite A3, B3; auto|].
    assert (HP : Permutation (map (D (p i)) (seq 0 n)) (map (D' i) (seq 0 n))).
    { eapply Permutation_trans; [apply Permutation_map, Permutation_sym, (reorder_perm n p Hp)|]. rewrite map_map.
      apply Permutation_refl'. apply map_ext_in. intros j Hj. apply in_seq in Hj. symmetry. apply HD; lia. }
    destruct (kth_equiv (S ms) _ _ _ (B2 H K) (kth_perm _ _ _ _ HP (A2 H K))) as [E1 E2]. apply Hanti; auto.
  Qed.
  Lemma greatest_unique (a b c x y : W) : greatest_of_three a b c x -> greatest_of_three a b c y -> x = y.
  Proof. intros (H & H1 & H2 & H3) (K & K1 & K2 & K3). apply Hanti; [destruct H as [->|[->| ->]]|destruct K as [->|[->| ->]]]; auto. Qed.
  Lemma greatest_swap (a b c x : W) : greatest_of_three a b c x -> greatest_of_three b a c x.
  Proof. unfold greatest_of_three. tauto. Qed.
  Lemma brute_joined (D0 : nat -> nat -> W) (H0 : forall i j, i < n -> j < n -> D0 i j = D0 j i) x y w : joined (brute_edges zero D0 n ms) x y w <->
    x < n /\ y < n /\ x <> y /\ greatest_of_three (brute_core zero D0 n ms x) (brute_core zero D0 n ms y) (D0 x y) w.
  Proof.
    destruct (c13_brute zero D0 n ms) as [A B]. split.
    - intros [H|H]; apply A in H as [H1 H2].
      + split; [lia|]. split; [lia|]. split; [lia|]. auto.
      + split; [lia|]. split; [lia|]. split; [lia|]. apply greatest_swap. rewrite H0 by lia. auto.
    - intros (Hx & Hy & Hne & H). destruct (lt_dec x y) as [L|L].
      + left. destruct (B x y ltac:(lia)) as (w' & H1 & H2). now rewrite (greatest_unique _ _ _ _ _ H H2).
      + right. destruct (B y x ltac:(lia)) as (w' & H1 & H2). apply greatest_swap in H. rewrite (H0 x y Hx Hy) in H. now rewrite (greatest_unique _ _ _ _ _ H H2).
  Qed.
  Lemma shuffled_edges x y w : joined (brute_edges zero D n ms) x y w <-> joined (relabel p (brute_edges zero D' n ms)) x y w.
  Proof.
    assert (H0 : forall i j, i < n -> j < n -> D' i j = D' j i) by (intros i j Hi Hj; rewrite !HD by auto; apply Hsym; now apply Hp).
    assert (HJ : joined (relabel p (brute_edges zero D' n ms)) x y w <-> exists a b, p a = x /\ p b = y /\ joined (brute_edges zero D' n ms) a b w).
    { unfold joined, relabel. rewrite !in_map_iff. split.
      - intros [([[a b] v] & E & H)|([[a b] v] & E & H)]; cbn in E; injection E as <- <- <-; [exists a, b|exists b, a]; auto.
      - intros (a & b & <- & <- & [H|H]); [left; exists (a, b, w)|right; exists (b, a, w)]; auto. }
    rewrite HJ, brute_joined by auto. split.
    - intros (Hx & Hy & Hne & H). destruct (reorder_onto n p Hp x Hx) as (a & Ha & <-). destruct (reorder_onto n p Hp y Hy) as (b & Hb & <-).
      exists a, b. repeat (split; auto). apply brute_joined; auto. split; auto. split; auto. split; [congruence|]. rewrite !shuffled_core, HD by auto. auto.
    - intros (a & b & <- & <- & H). apply brute_joined in H as (Ha & Hb & Hne & H); auto. rewrite !shuffled_core, HD in H by auto.
      split; [now apply Hp|]. split; [now apply Hp|]. split; auto. intro E. apply Hne. now apply (proj2 Hp).
  Qed.
  Lemma shuffled_brute : 0 < n -> exists M nbrs core M' nbrs' core',
    kruskal_mst_brute zero D n ms CLNone = Ok (M, nbrs, core) /\ kruskal_mst_brute zero D' n ms CLNone = Ok (M', nbrs', core') /\
    spanning_tree n M /\ spanning_tree n M' /\ same_hierarchy n p M M' /\
    (forall x, x < n -> nth (p x) core winf = nth x core' winf).
  Proof.
    intro Hn. destruct (c03_brute zero D n ms Hn) as (M & nb & co & E & ST & F). destruct (c03_brute zero D' n ms Hn) as (M' & nb' & co' & E' & ST' & F').
    exists M, nb, co, M', nb', co'. split; auto. split; auto. split; auto. split; auto. split.
    - eapply msf_hierarchy; [exact Hp|apply brute_edges_range|exact F|exact F'|exact shuffled_edges].
    - intros x Hx. assert (Co : co = map (brute_core zero D n ms) (seq 0 n)).
      { unfold kruskal_mst_brute in E. destruct (run_kruskal_core _ _ _ _) as [[a b]|]; [|discriminate]. cbn [bind] in E. destruct (finish_mst _ _ _); [|discriminate]. cbn [bind] in E. now injection E. }
      assert (Co' : co' = map (brute_core zero D' n ms) (seq 0 n)).
      { unfold kruskal_mst_brute in E'. destruct (run_kruskal_core _ _ _ _) as [[a b]|]; [|discriminate]. cbn [bind] in E'. destruct (finish_mst _ _ _); [|discriminate]. cbn [bind] in E'. now injection E'. }
      assert (Hpx : p x < n) by now apply Hp. subst co co'. rewrite !P_Sort.nth_map_seq by auto. symmetry. now apply shuffled_core.
  Qed.
End Shuffle.
