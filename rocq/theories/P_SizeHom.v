(** The same run with other sizes. *)
From Coq Require Import List Arith Bool ZArith Lia.
From Verif Require Import Prelude Order Graph Size Num M_DisjointSet M_Linkage M_Condense M_Select M_Labels M_Epsilon M_Simplify M_Pipeline S_Equi P_Equi S_WeightUnit.
Import ListNotations.

Section Hom.
  Context {W V : WOrd} {Sz Sz' : SOrd} (phi psi : Sz -> Sz').
  Hypothesis Hphi : forall x y, sle (phi x) (phi y) = sle x y.
  Hypothesis Hadd : forall x y, phi (sadd x y) = sadd (phi x) (phi y).
  Hypothesis Hbig : forall s, slt sone (psi s) = slt sone s.
  Hypothesis Hone : psi sone = sone.
  Hypothesis Heq : forall s, (sle (psi s) sone && sle sone (psi s)) = (sle s sone && sle sone s).

  Lemma phi_lt x y : slt (phi x) (phi y) = slt x y.
  Proof. unfold slt. now rewrite Hphi. Qed.

  (** ** Linkage tree *)
  Definition lm_rel (a : linkage_merge Sz) (b : linkage_merge Sz') : Prop :=
    lm_len b = lm_len a /\ lm_parent b = lm_parent a /\ (forall i, lm_size b i = phi (lm_size a i)) /\ lm_next b = lm_next a.
  Lemma find_resize a b x : lm_rel a b -> rel_res (fun p q => lm_rel (fst p) (fst q) /\ snd q = snd p) (linkage_merge_find a x) (linkage_merge_find b x).
  Proof.
    intros (H1 & H2 & H3 & H4). unfold linkage_merge_find. rewrite H1, H2. destruct (_ <=? x); [reflexivity|]. apply rel_bind_same. intro node.
    apply rel_bind_same. intro p. cbn. repeat split; auto.
  Qed.
  Lemma linkage_loop_resize (M : list (edge W)) : forall a b, lm_rel a b -> rel_res (fun x y => y = map (resize_lrow phi) x) (linkage_loop a M) (linkage_loop b M).
  Proof.
    induction M as [|e M IH]; intros a b H; simpl; auto.
    apply (rel_bind (fun p q => lm_rel (fst p) (fst q) /\ snd q = resize_lrow phi (snd p))).
    - unfold linkage_step. eapply rel_bind; [apply find_resize; eauto|]. intros [a1 l] [b1 l'] [Hr E]. cbn [fst snd] in Hr, E. subst l'.
      eapply rel_bind; [apply find_resize; eauto|]. intros [a2 r] [b2 r'] [(H1 & H2 & H3 & H4) E]. cbn [fst snd] in H1, H2, H3, H4, E. subst r'.
      rewrite !H3, <- Hadd.
      assert (J : rel_res lm_rel (linkage_merge_join a2 l r) (linkage_merge_join b2 l r)).
      { unfold linkage_merge_join. rewrite H1, H2, H4, !H3, <- Hadd. destruct (_ <=? _); [reflexivity|]. repeat split; cbn; auto.
        intro i. unfold upd. destruct (i =? _); auto. }
      destruct (r <? l); (eapply rel_bind; [exact J|]; intros a3 b3 H9; cbn; auto).
    - intros [a1 r] [b1 r'] [E1 E2]. cbn [fst snd] in *. subst r'. eapply rel_bind; [apply IH; eauto|]. intros x y ->. reflexivity.
  Qed.

  (** ** Condensed tree *)
  Lemma nth_resize (L : list (lrow W Sz)) i : nth_error (map (resize_lrow phi) L) i = option_map (resize_lrow phi) (nth_error L i).
  Proof. apply nth_error_map. Qed.
  Lemma bfs_children_resize n (L : list (lrow W Sz)) l : bfs_children n (map (resize_lrow phi) L) l = bfs_children n L l.
  Proof.
    induction l as [|x l IH]; simpl; auto. rewrite IH. destruct (bfs_children n L l); simpl; auto. destruct (n <=? x); auto.
    rewrite nth_resize. now destruct (nth_error L (x - n)).
  Qed.
  Lemma bfs_loop_resize n (L : list (lrow W Sz)) : forall fuel l, bfs_loop fuel n (map (resize_lrow phi) L) l = bfs_loop fuel n L l.
  Proof.
    induction fuel as [|k IH]; intros [|x l]; auto. cbn [bfs_loop]. rewrite bfs_children_resize. destruct (bfs_children n L (x :: l)); simpl; auto. now rewrite IH.
  Qed.

  Section Condense.
    Variables (lam : W -> V) (mcs : Sz) (wts : nat -> Sz) (wts' : nat -> Sz') (L : list (lrow W Sz)).
    Hypothesis Hw : forall i, i <= length L -> wts' i = phi (wts i).
    Hypothesis Hlarge : forall s, sle mcs s = true -> psi s = phi s.
    Let L' := map (resize_lrow phi) L.
    Definition c_rel (s : cstate V Sz) (s' : cstate V Sz') : Prop :=
      k_relabel s' = k_relabel s /\ k_ignore s' = k_ignore s /\ k_rows s' = map (resize_crow psi) (k_rows s) /\ k_next s' = k_next s.
    Lemma L_size : length L' = length L.
    Proof. apply map_length. Qed.
    Lemma emit_resize s s' r r' : c_rel s s' -> r' = resize_crow psi r -> rel_res c_rel (emit L s r) (emit L' s' r').
    Proof.
      intros (H1 & H2 & H3 & H4) ->. unfold emit. rewrite L_size, H3, map_length. destruct (_ <=? _); [reflexivity|].
      repeat split; cbn; auto. rewrite map_app. reflexivity.
    Qed.
    Lemma point_resize p c (l : V) : point_row (Sz := Sz') p c l = resize_crow psi (point_row p c l).
    Proof. unfold point_row, resize_crow. cbn. now rewrite Hone. Qed.
    Lemma relabel_resize s s' v l : c_rel s s' -> c_rel (set_relabel s v l) (set_relabel s' v l).
    Proof. intros (H1 & H2 & H3 & H4). repeat split; cbn; auto. now rewrite H1. Qed.
    Lemma ignore_resize s s' v : c_rel s s' -> c_rel (set_ignore s v) (set_ignore s' v).
    Proof. intros (H1 & H2 & H3 & H4). repeat split; cbn; auto. now rewrite H2. Qed.
    Lemma eliminate_loop_resize nodes p l : forall s s', c_rel s s' -> rel_res c_rel (eliminate_loop L nodes p l s) (eliminate_loop L' nodes p l s').
    Proof.
      induction nodes as [|v nodes IH]; intros s s' H; simpl; auto. eapply rel_bind; [|apply IH]. rewrite L_size. destruct (v <? _).
      - apply emit_resize; auto using point_resize.
      - now apply ignore_resize.
    Qed.
    Lemma eliminate_branch_resize b p l s s' : c_rel s s' -> rel_res c_rel (eliminate_branch L b p l s) (eliminate_branch L' b p l s').
    Proof.
      intro H. unfold eliminate_branch. rewrite L_size. destruct (b <? _); [apply emit_resize; auto using point_resize|].
      unfold bfs_from_hierarchy, L'. rewrite bfs_loop_resize. apply rel_bind_same. intro nodes. now apply eliminate_loop_resize.
    Qed.
    Lemma node_count_resize v : rel_res (fun a b => b = phi a) (node_count L wts v) (node_count L' wts' v).
    Proof. unfold node_count. rewrite L_size. destruct (_ <=? v) eqn:E; [|apply Nat.leb_gt in E; apply Hw; lia]. unfold L'. rewrite nth_resize. destruct (nth_error L _); simpl; auto. Qed.
    Lemma new_cluster_resize v p l c s s' : sle mcs c = true -> c_rel s s' -> rel_res c_rel (new_cluster L v p l c s) (new_cluster L' v p l (phi c) s').
    Proof.
      intros Hc H. unfold new_cluster. assert (E : k_next s' = k_next s) by apply H. rewrite E. cbn [set_relabel k_next]. rewrite E.
      eapply rel_bind.
      - apply (relabel_resize _ _ v (k_next s)) in H. apply (emit_resize _ _ {| c_parent := p; c_child := k_next s; c_lam := l; c_size := c |} _ H).
        unfold resize_crow. cbn. now rewrite Hlarge.
      - intros a a' (H1 & H2 & H3 & H4). repeat split; cbn; auto.
    Qed.
    Lemma condense_node_resize v s s' : c_rel s s' -> rel_res c_rel (condense_node L lam mcs None wts v s) (condense_node L' lam (phi mcs) None wts' v s').
    Proof.
      intro H. unfold condense_node. rewrite L_size. pose proof H as (H1 & H2 & H3 & H4). rewrite H1, H2. destruct (_ || _); auto.
      unfold L' at 1. rewrite nth_resize. destruct (nth_error L _) as [r|]; cbn [option_map]; [|reflexivity].
      cbn [resize_lrow l_a l_b l_d]. eapply rel_bind; [apply node_count_resize|]. intros ca ca' ->. eapply rel_bind; [apply node_count_resize|]. intros cb cb' ->.
      rewrite !Hphi, !phi_lt. cbn [above_max andb].
      destruct (sle mcs ca) eqn:Ea; destruct (sle mcs cb) eqn:Eb;
        (assert (Fa : slt ca mcs = negb (sle mcs ca)) by reflexivity); (assert (Fb : slt cb mcs = negb (sle mcs cb)) by reflexivity);
        rewrite Ea in Fa; rewrite Eb in Fb; rewrite Fa, Fb; cbn [negb andb]; rewrite ?andb_true_r, ?andb_false_r; try (destruct (l_a r <? _)).
      all: try (apply emit_resize; [now apply relabel_resize|apply point_resize]).
      all: try (apply eliminate_branch_resize; now apply relabel_resize).
      all: try (eapply rel_bind; [now apply eliminate_branch_resize|]; intros a a' Ha; now apply eliminate_branch_resize).
      all: eapply rel_bind; [now apply new_cluster_resize|]; intros a a' Ha; now apply new_cluster_resize.
    Qed.
    Lemma condense_tree_resize : rel_res (fun a b => b = map (resize_crow psi) a) (condense_tree L lam mcs None wts) (condense_tree L' lam (phi mcs) None wts').
    Proof.
      unfold condense_tree, bfs_from_hierarchy. rewrite L_size. unfold L' at 1. rewrite bfs_loop_resize. apply rel_bind_same. intro nodes.
      apply (rel_bind c_rel).
      - set (s := {| k_relabel := _; k_ignore := _; k_rows := []; k_next := _ |}). 
        set (s' := {| k_relabel := _; k_ignore := _; k_rows := []; k_next := _ |}).
        assert (H : c_rel s s') by (repeat split). clearbody s s'. revert s s' H.
        induction nodes as [|v nodes IH]; intros s s' H; simpl; auto. eapply rel_bind; [now apply condense_node_resize|]. intros; now apply IH.
      - intros a a' (_ & _ & H & _). simpl. auto.
    Qed.
  End Condense.

  (** ** Selection *)
  Notation mapT := (map (resize_crow (V := V) psi)).
  Lemma cluster_tree_resize T : cluster_tree_from_condensed_tree (mapT T) = mapT (cluster_tree_from_condensed_tree T).
  Proof. apply filter_map_swap. intro r. apply Hbig. Qed.
  Lemma parents_resize T : map c_parent (mapT T) = map c_parent T.
  Proof. rewrite map_map. now apply map_ext. Qed.
  Lemma childs_resize T : map c_child (mapT T) = map c_child T.
  Proof. rewrite map_map. now apply map_ext. Qed.
  Lemma children_resize T v : children_of (mapT T) v = children_of T v.
  Proof. unfold children_of. rewrite (filter_map_swap _ _ (fun r => c_parent r =? v)) by reflexivity. apply childs_resize. Qed.
  Lemma leaves_resize T n : cluster_tree_leaves (mapT T) n = cluster_tree_leaves T n.
  Proof.
    unfold cluster_tree_leaves. rewrite childs_resize. destruct (array_max (map c_child T)); cbn [bind]; auto. do 2 f_equal. apply filter_ext.
    intro i. f_equal. now apply existsb_map.
  Qed.

  Section Eom.
    Variables (A : Arith V Sz) (A' : Arith V Sz') (h : num A -> num A').
    Hypothesis H0 : num_zero A' = h (num_zero A).
    Hypothesis Hplus : forall x y, num_add A' (h x) (h y) = h (num_add A x y).
    Hypothesis Hopp : forall x, num_opp A' (h x) = h (num_opp A x).
    Hypothesis Hmul : forall l z, num_mul A' l (psi z) = h (num_mul A l z).
    Hypothesis Hlt : forall x y, num_lt A' (h x) (h y) = num_lt A x y.
    Hypothesis Hroot : forall k, size_of_nat (Sz := Sz') k = psi (size_of_nat k).
    Notation mapD := (map (map_val h)).

    Lemma score_step_resize r d : rel_res (fun a b => b = mapD a) (score_step A r d) (score_step A' (resize_crow psi r) (mapD d)).
    Proof.
      unfold score_step. cbn [resize_crow c_parent c_child c_lam c_size]. rewrite !Hmul, Hopp, Hbig.
      assert (E : (if slt sone (c_size r) then dict_set (mapD d) (c_child r) (h (num_opp A (num_mul A (c_lam r) (c_size r)))) else mapD d) =
                  mapD (if slt sone (c_size r) then dict_set d (c_child r) (num_opp A (num_mul A (c_lam r) (c_size r))) else d)).
      { destruct (slt sone (c_size r)); auto. apply dict_set_map. }
      rewrite E. eapply rel_bind; [apply dict_get_map|]. intros a a' ->. simpl. now rewrite Hplus, dict_set_map.
    Qed.
    Lemma score_resize T : rel_res (fun b a => b = mapD a) (score_condensed_tree_nodes A' (mapT T)) (score_condensed_tree_nodes A T).
    Proof.
      assert (H : rel_res (fun a b => b = mapD a) (score_condensed_tree_nodes A T) (score_condensed_tree_nodes A' (mapT T))).
      { destruct T as [|r T]; [reflexivity|]. unfold score_condensed_tree_nodes. rewrite map_cons. cbv iota beta.
        change (resize_crow psi r :: mapT T) with (mapT (r :: T)). apply (rel_fold (fun a b => b = mapD a)).
        - intros x a a' ->. apply score_step_resize.
        - cbn. now rewrite H0. }
      destruct (score_condensed_tree_nodes A T), (score_condensed_tree_nodes A' (mapT T)); simpl in *; auto.
    Qed.

    Lemma unselect_resize ct fuel : forall v sel, unselect_below_node (mapT ct) fuel v sel = unselect_below_node ct fuel v sel.
    Proof.
      induction fuel as [|k IH]; intros v sel; cbn [unselect_below_node]; auto. rewrite children_resize. revert sel. induction (children_of ct v) as [|c l IHl]; intro sel; simpl; auto.
      rewrite IH. destruct (unselect_below_node ct k c sel); simpl; auto.
    Qed.
    Lemma eom_resize ct ns sizes fuel : forall v sel, rel_res (fun a b => b = (h (fst a), snd a))
      (eom_recursion A ct ns sizes None fuel v sel) (eom_recursion A' (mapT ct) (mapD ns) (map (map_val psi) sizes) None fuel v sel).
    Proof.
      induction fuel as [|k IH]; intros v sel; cbn [eom_recursion]; [reflexivity|].
      eapply rel_bind; [apply dict_get_map|]. intros sc sc' ->. eapply rel_bind; [apply dict_get_map|]. intros sz sz' ->.
      rewrite children_resize.
      assert (EC : (if num_lt A' (h sc) (num_zero A') then num_zero A' else h sc) = h (if num_lt A sc (num_zero A) then num_zero A else sc)).
      { rewrite H0, Hlt. now destruct (num_lt A sc _). }
      rewrite EC. eapply (rel_bind (fun a b => b = (h (fst a), snd a))).
      - apply rel_fold_same.
        + intros c [t s] [t' s'] E. cbn [fst snd] in E |- *. injection E as -> ->. eapply rel_bind; [apply IH|]. intros [x s1] [x' s1'] E. cbn [fst snd] in E.
          injection E as -> ->. cbn. now rewrite Hplus.
        + now rewrite H0.
      - intros [t s] [t' s'] E. cbn [fst snd] in E. injection E as -> ->. rewrite Hlt. cbn [over_max]. rewrite !orb_false_r. match goal with |- rel_res _ (if ?b then _ else _) _ => destruct b end; [reflexivity|]. rewrite unselect_resize. apply rel_bind_same. reflexivity.
    Qed.

    Lemma extract_eom_resize T ct a : extract_eom_clusters A' (mapT T) (mapT ct) None a = extract_eom_clusters A T ct None a.
    Proof.
      apply rel_eq. unfold extract_eom_clusters. eapply rel_bind; [apply score_resize|].
      intros ns' ns ->. destruct ct as [|r ct]; [reflexivity|]. rewrite map_cons. cbv iota beta. change (resize_crow psi r :: mapT ct) with (mapT (r :: ct)).
      set (c := r :: ct). rewrite parents_resize. apply rel_bind_same. intro root.
      assert (E1 : dict_set (fold_left (fun d q => dict_set d (c_child q) (c_size q)) (mapT c) []) root (size_of_nat (root - 1)) =
                   map (map_val psi) (dict_set (fold_left (fun d q => dict_set d (c_child q) (c_size q)) c []) root (size_of_nat (root - 1)))).
      { rewrite Hroot, <- dict_set_map. f_equal. change (@nil (nat * Sz')) with (map (map_val psi) (@nil (nat * Sz))). generalize (@nil (nat * Sz)).
        induction c as [|q c IH]; intro d; cbn [fold_left map]; auto. cbn [resize_crow c_child c_size]. now rewrite dict_set_map. }
      rewrite E1, map_length, children_resize. set (sizes := dict_set _ root _).
      assert (E2 : map (fun kv : nat * num A' => (fst kv, false)) (map (map_val h) ns) = map (fun kv => (fst kv, false)) ns) by (rewrite map_map; now apply map_ext).
      rewrite E2. rewrite (map_length (map_val h)). apply (rel_bind eq); [|intros x y ->; reflexivity].
      set (fuel := S (S (length c))). clearbody fuel.
      assert (G : forall v s, 
                rel_res eq (let* (_, s1) := eom_recursion A' (mapT c) (map (map_val h) ns) (map (map_val psi) sizes) None fuel v s in Ok s1) (let* (_, s1) := eom_recursion A c ns sizes None fuel v s in Ok s1)).
      { intros v s. pose proof (eom_resize c ns sizes fuel v s) as H.
        destruct (eom_recursion A c ns sizes None fuel v s) as [[x s1]|], (eom_recursion A' (mapT c) _ _ None fuel v s) as [[x' s1']|]; simpl in *; try contradiction; congruence. }
      destruct a; [now apply G|]. destruct (1 <? length ns); [|reflexivity]. unfold eom_children. apply rel_fold_same; [|reflexivity].
      intros v s s' ->. now apply G.
    Qed.
  End Eom.

  (** ** Epsilon *)
  Section Epsilon.
    Variable lt : V -> bool.
    Lemma row_of_resize ct c : rel_res (fun a b => b = resize_crow psi a) (row_of_child ct c) (row_of_child (mapT ct) c).
    Proof. unfold row_of_child. rewrite (filter_map_swap _ _ (fun r => c_child r =? c)) by reflexivity. destruct (filter _ ct); simpl; auto. Qed.
    Lemma traverse_resize ct root fuel : forall x, traverse_upwards lt (mapT ct) root fuel x = traverse_upwards lt ct root fuel x.
    Proof.
      induction fuel as [|k IH]; intro x; cbn [traverse_upwards]; auto. pose proof (row_of_resize ct x) as H.
      destruct (row_of_child ct x) as [r|], (row_of_child (mapT ct) x) as [r'|]; simpl in H |- *; try contradiction; try congruence. subst r'. cbn [resize_crow c_parent].
      destruct (c_parent r =? root); auto. pose proof (row_of_resize ct (c_parent r)) as H.
      destruct (row_of_child ct (c_parent r)) as [q|], (row_of_child (mapT ct) (c_parent r)) as [q'|]; simpl in H |- *; try contradiction; try congruence. subst q'. cbn [resize_crow c_lam].
      rewrite IH. reflexivity.
    Qed.
    Lemma epsilon_resize ct bp cs : cluster_epsilon_search lt cs (mapT ct) (mapT bp) = cluster_epsilon_search lt cs ct bp.
    Proof.
      unfold cluster_epsilon_search. rewrite parents_resize. destruct (array_min (map c_parent ct)) as [root|]; simpl; auto.
      f_equal. apply rel_eq. apply rel_fold_same; auto. intros x [s p] b <-. unfold epsilon_step.
      unfold array_get. rewrite childs_resize, nth_error_map. destruct (nth_error ct _) as [r|]; cbn [bind option_map]; [|reflexivity]. cbn [resize_crow c_lam]. destruct (lt (c_lam r)); [|apply rel_refl].
      destruct (in_set p x); [reflexivity|]. rewrite map_length, traverse_resize, parents_resize, childs_resize. apply rel_refl.
    Qed.
  End Epsilon.

  (** ** Persistence *)
  Section Simplify.
    Variables (persists : V -> V -> bool) (garbage : nat -> V).
    Definition same_s (a b : sstate (V := V)) : Prop :=
      (forall c, leaf_indicator a c = leaf_indicator b c) /\ (forall c, max_births a c = max_births b c) /\ (forall c, parent_map a c = parent_map b c) /\ lambda_map a = lambda_map b.
    Lemma pair_resize r q s s' : same_s s s' -> same_s (simplify_pair persists (Sz := Sz) r q s) (simplify_pair persists (resize_crow psi r) (resize_crow psi q) s').
    Proof.
      intros (H1 & H2 & H3 & H4). unfold simplify_pair. cbn [resize_crow c_parent c_child c_lam]. rewrite !H2, !H1, H4.
      assert (HB : forall v i, upd (max_births s) (c_parent q) v i = upd (max_births s') (c_parent q) v i).
      { intros v i. unfold upd. destruct (i =? c_parent q); auto. }
      destruct (persists _ _); repeat split; cbn; auto.
      - intro c. destruct (leaf_indicator s' _); auto. unfold upd. destruct (c =? _); auto.
      - intro c. unfold upd. destruct (c =? _); auto. destruct (c =? _); auto.
    Qed.
    Lemma pairs_resize n : forall ct, length ct <= n -> forall s s', same_s s s' -> same_s (simplify_pairs persists (Sz := Sz) ct s) (simplify_pairs persists (mapT ct) s').
    Proof.
      induction n as [|n IH]; intros [|q [|r ct]] Hn s s' H; simpl in Hn; auto; try lia. simpl. apply IH; [simpl; lia|]. now apply pair_resize.
    Qed.
    Lemma births_resize T : forall b : nat -> V,
      fold_left (fun births r => upd births (c_parent r) (c_lam r)) (mapT T) b = fold_left (fun births (r : crow V Sz) => upd births (c_parent r) (c_lam r)) T b.
    Proof. induction T as [|r T IH]; intros b; simpl; auto. Qed.
    Lemma simplify_resize T : simplify_hierarchy persists garbage (mapT T) = map_ok mapT (simplify_hierarchy persists garbage T).
    Proof.
      destruct T as [|r0 T0]; [reflexivity|]. unfold simplify_hierarchy. rewrite map_cons. cbv iota beta. change (resize_crow psi r0 :: mapT T0) with (mapT (r0 :: T0)).
      set (T := r0 :: T0). rewrite cluster_tree_resize. set (ct := cluster_tree_from_condensed_tree T). rewrite <- map_rev.
      destruct (rev ct) as [|q l] eqn:E; [reflexivity|]. rewrite map_cons. cbv iota beta. change (resize_crow psi q :: mapT l) with (mapT (q :: l)). change (c_child (resize_crow psi q)) with (c_child q). change (c_parent (resize_crow psi r0)) with (c_parent r0).
      set (ids := seq _ _).
      match goal with |- context [simplify_pairs persists (q :: l) ?a] => set (s := a) end.
      match goal with |- context [simplify_pairs (Sz := Sz') persists ?x ?a] => set (s' := a) end.
      assert (HS : same_s s s').
      { unfold s, s'. repeat split; auto; intro c; cbn [leaf_indicator max_births].
        - f_equal. symmetry. now apply existsb_map.
        - now rewrite births_resize. }
      destruct (pairs_resize _ (q :: l) (le_n _) s s' HS) as (_ & _ & P3 & P4). rewrite <- P4. clear HS.
      set (pm := parent_map (simplify_pairs persists (q :: l) s)) in *. set (pm' := parent_map (simplify_pairs (Sz := Sz') persists _ s')) in *. clearbody pm pm'.
      set (lm := lambda_map _). clearbody lm. clear s s' P4.
      assert (Q1 : forall c, propagate ids pm' c = propagate ids pm c).
      { unfold propagate. clearbody ids. revert pm pm' P3. induction ids as [|i ids' IH]; intros pm pm' P3 c; simpl; auto. apply IH. intro x. unfold upd. rewrite !P3. now destruct (x =? i). }
      assert (Q2 : forall ids' a b, (forall c, fst a c = fst b c) -> (forall c, snd a c = snd b c) ->
         let step := fun (st : (nat -> nat) * (nat -> bool)) i => let parent := fst st i in let skipped := upd (snd st) i (negb (parent =? i)) in
                 (upd (fst st) i (parent - countp skipped (seq (c_parent r0) (parent - c_parent r0))), skipped) in
         (forall c, fst (fold_left step ids' a) c = fst (fold_left step ids' b) c) /\ (forall c, snd (fold_left step ids' a) c = snd (fold_left step ids' b) c)).
      { clear. induction ids' as [|i ids' IH]; intros a b Ha Hb step; simpl; auto. 
        assert (HC : forall c, upd (snd a) i (negb (fst a i =? i)) c = upd (snd b) i (negb (fst b i =? i)) c) by (intro c; unfold upd; rewrite Ha, Hb; now destruct (c =? i)).
        apply IH; unfold step; cbn [fst snd]; auto. intro c. unfold upd at 1 3. destruct (c =? i); auto. rewrite Ha. f_equal. rewrite <- Ha.
        apply countp_ext'. intro y. rewrite HC. now rewrite Ha. }
      unfold renumber. destruct (Q2 ids (propagate ids pm', fun _ => false) (propagate ids pm, fun _ => false)) as [R1 R2]; auto. cbv zeta in R1, R2 |- *. clear Q2.
      match goal with |- context [fold_left ?st ids (propagate ids pm', ?z)] => destruct (fold_left st ids (propagate ids pm', z)) as [p1 k1] end.
      match goal with |- context [fold_left ?st ids (propagate ids pm, ?z)] => destruct (fold_left st ids (propagate ids pm, z)) as [p2 k2] end.
      cbn [fst snd] in R1, R2. cbn [map_ok]. f_equal. clear E ct. clearbody T. induction T as [|x T IH]; auto. cbn [map flat_map]. rewrite IH, map_app. f_equal.
      unfold simplify_row. cbn [resize_crow c_parent c_child c_lam c_size]. rewrite R2. destruct (k2 _); auto. cbn [map]. do 2 f_equal. rewrite !R1. reflexivity.
    Qed.
  End Simplify.

  (** ** Labels and strengths *)
  Section Labels.
    Variable LA : LamArith V.
    Lemma max_leaving_resize T c : max_leaving_lambda (mapT T) c = max_leaving_lambda T c.
    Proof. unfold max_leaving_lambda. rewrite (filter_map_swap _ _ (fun r => c_parent r =? c)) by reflexivity. rewrite map_map. reflexivity. Qed.
    Lemma lambda_of_resize T x : lambda_of (mapT T) x = lambda_of T x.
    Proof. unfold lambda_of. rewrite (filter_map_swap _ _ (fun r => c_child r =? x)) by reflexivity. destruct (filter _ T) as [|r [|q l]]; simpl; auto. Qed.
    Lemma label_of_resize T cs e root x c : label_of (mapT T) cs e root x c = label_of T cs e root x c.
    Proof. unfold label_of. now rewrite max_leaving_resize, lambda_of_resize. Qed.
    Lemma labels_resize T cs e n : get_cluster_label_vector LA (mapT T) cs e n = get_cluster_label_vector LA T cs e n.
    Proof.
      destruct T as [|r T0]; [reflexivity|]. destruct cs as [|c cs0]; [reflexivity|]. unfold get_cluster_label_vector. rewrite map_cons. cbv iota beta.
      change (resize_crow psi r :: mapT T0) with (mapT (r :: T0)). set (T := r :: T0). set (cs := c :: cs0). rewrite parents_resize, childs_resize.
      destruct (array_min (map c_parent T)) as [root|]; cbn [bind]; auto. destruct (array_max (map c_parent T)) as [mp|]; cbn [bind]; auto.
      destruct (array_max (map c_child T)) as [mc|]; cbn [bind]; auto.
      assert (E : forall d, fold_res (label_union LA cs n) (mapT T) d = fold_res (label_union LA cs n) T d).
      { clearbody T. induction T as [|q T IH]; intro d; simpl; auto. change (label_union LA cs n (resize_crow psi q) d) with (label_union LA cs n q d).
        destruct (label_union LA cs n q d); simpl; auto. }
      rewrite E. destruct (fold_res _ T _) as [d|]; cbn [bind]; auto. destruct (n <? root); auto. destruct (cut_roots d _) as [reps|]; cbn [bind]; auto.
      assert (E2 : forall l, map_res (fun xc => label_of (mapT T) cs e root (fst xc) (snd xc)) l = map_res (fun xc => label_of T cs e root (fst xc) (snd xc)) l).
      { induction l as [|xc l IH]; cbn [map_res]; auto. now rewrite label_of_resize, IH. }
      now rewrite E2.
    Qed.
    Lemma max_lambdas_resize T cs : max_lambdas LA (mapT T) cs = max_lambdas LA T cs.
    Proof.
      symmetry. apply rel_eq. unfold max_lambdas. apply (rel_fold eq); auto.
      intros r d d' <-. unfold max_lambda_step. cbn [resize_crow c_parent c_size c_lam]. rewrite Heq. apply rel_refl.
    Qed.
    Lemma strengths_resize T cs ls : get_point_membership_strength_vector LA (mapT T) cs ls = get_point_membership_strength_vector LA T cs ls.
    Proof.
      symmetry. apply rel_eq. unfold get_point_membership_strength_vector. rewrite max_lambdas_resize. apply rel_bind_same. intro d. rewrite parents_resize. apply rel_bind_same. intro root.
      apply (rel_bind eq); [|intros a b <-; reflexivity]. apply (rel_fold eq); auto. intros r a a' <-. apply rel_refl.
    Qed.
  End Labels.

  (** ** All together *)
  Section Whole.
    Variables (lam : W -> V) (LA : LamArith V) (A : Arith V Sz) (A' : Arith V Sz') (garbage : nat -> V)
      (by_parent : list (crow V Sz) -> list (crow V Sz)) (by_parent' : list (crow V Sz') -> list (crow V Sz'))
      (st : settings V Sz) (st' : settings V Sz') (wts : nat -> Sz) (wts' : nat -> Sz').
    Hypothesis Hby : forall ct, by_parent' (mapT ct) = mapT (by_parent ct).
    Hypothesis Hmcs : min_cluster_size st' = phi (min_cluster_size st).
    Hypothesis Hlarge : forall s, sle (min_cluster_size st) s = true -> psi s = phi s.
    Hypothesis Hst : cluster_selection_method st' = cluster_selection_method st /\ allow_single_cluster st' = allow_single_cluster st /\
      cluster_selection_epsilon st' = cluster_selection_epsilon st /\ cluster_selection_persistence st' = cluster_selection_persistence st.
    Hypothesis Hsel : cluster_selection_method st = Eom -> max_cluster_size st = None /\ max_cluster_size st' = None /\
      exists h : num A -> num A', num_zero A' = h (num_zero A) /\ (forall x y, num_add A' (h x) (h y) = h (num_add A x y)) /\ (forall x, num_opp A' (h x) = h (num_opp A x)) /\
        (forall l z, num_mul A' l (psi z) = h (num_mul A l z)) /\ (forall x y, num_lt A' (h x) (h y) = num_lt A x y) /\ (forall k, size_of_nat (Sz := Sz') k = psi (size_of_nat k)).

    Lemma linkage_tree_resize n L : (forall i, i <= length L -> wts' i = phi (wts i)) ->
      clusters_from_linkage_tree lam LA A' garbage by_parent' st' wts' n (map (resize_lrow phi) L) =
      map_ok (resize_run psi) (clusters_from_linkage_tree lam LA A garbage by_parent st wts n L).
    Proof.
      intro Hw. apply rel_map. destruct Hst as (S1 & S2 & S3 & S4). unfold clusters_from_linkage_tree. apply (rel_bind (fun a b => b = mapT a)).
      { unfold condensed_tree_of. rewrite Hmcs, S4. eapply rel_bind; [apply condense_tree_resize; eauto|]. intros T T' ->.
        destruct (cluster_selection_persistence st) as [p|]; [|reflexivity].
        destruct T as [|r T]; [reflexivity|]. rewrite map_cons. cbv iota beta. change (resize_crow psi r :: mapT T) with (mapT (r :: T)).
        rewrite simplify_resize. destruct (simplify_hierarchy p garbage (r :: T)); simpl; auto. }
      intros T T' ->.
      assert (E1 : selected_clusters_of A' st' (mapT T) n = selected_clusters_of A st T n).
      { unfold selected_clusters_of. rewrite S1, S2, cluster_tree_resize. destruct (cluster_selection_method st).
        - destruct (Hsel eq_refl) as (-> & -> & h & K1 & K2 & K3 & K4 & K5 & K6). eapply extract_eom_resize; eauto.
        - destruct (cluster_tree_from_condensed_tree T) as [|r ct]; [reflexivity|]. rewrite map_cons. cbv iota beta. change (resize_crow psi r :: mapT ct) with (mapT (r :: ct)).
          apply leaves_resize. }
      rewrite E1. apply rel_bind_same. intro sel.
      assert (E2 : epsilon_clusters_of by_parent' st' (mapT T) sel = epsilon_clusters_of by_parent st T sel).
      { unfold epsilon_clusters_of. rewrite cluster_tree_resize, Hby, S3. destruct (cluster_selection_epsilon st) as [[lt e]|]; auto.
        destruct (1 <? length sel); auto. now apply epsilon_resize. }
      rewrite E2. apply rel_bind_same. intro sel2. apply (rel_bind eq).
      - unfold labels_and_strengths_of. rewrite S3, labels_resize. apply rel_bind_same. intro ls. rewrite strengths_resize. apply rel_refl.
      - intros [a b] [a' b'] E. injection E as -> ->. reflexivity.
    Qed.
  End Whole.
End Hom.
