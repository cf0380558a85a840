(** The clusters of a spanning tree after a change of its distances. *)
From Coq Require Import List Arith Bool ZArith Lia.
From Verif Require Import Prelude Order Graph Size Num M_DisjointSet M_Linkage M_Condense M_Select M_Labels M_Epsilon M_Simplify M_Pipeline S_Equi.
Import ListNotations.
Local Open Scope nat_scope.

(** ** Outcomes related by [R] *)
Definition rel_res {A B} (R : A -> B -> Prop) (r : res A) (r' : res B) : Prop :=
  match r, r' with Ok a, Ok b => R a b | Err e, Err e' => e = e' | _, _ => False end.

Lemma rel_bind {A B A' B'} (R : A -> A' -> Prop) (Q : B -> B' -> Prop) m m' k k' :
  rel_res R m m' -> (forall a a', R a a' -> rel_res Q (k a) (k' a')) -> rel_res Q (bind m k) (bind m' k').
Proof. destruct m, m'; simpl; auto; contradiction. Qed.
Lemma rel_bind_same {A B B'} (Q : B -> B' -> Prop) (m : res A) k k' : (forall a, rel_res Q (k a) (k' a)) -> rel_res Q (bind m k) (bind m k').
Proof. destruct m; simpl; auto. Qed.
Lemma rel_map {A B} (f : A -> B) r r' : rel_res (fun a b => b = f a) r r' -> r' = map_ok f r.
Proof. destruct r, r'; simpl; intros H; subst; try contradiction; auto. Qed.
Lemma rel_eq {A} (r r' : res A) : rel_res eq r r' -> r = r'.
Proof. destruct r, r'; simpl; intros H; subst; try contradiction; auto. Qed.
Lemma rel_refl {A} (r : res A) : rel_res eq r r.
Proof. destruct r; simpl; auto. Qed.
Lemma rel_fold {A A' B B'} (R : A -> A' -> Prop) (t : B -> B') (f : B -> A -> res A) (f' : B' -> A' -> res A') l :
  (forall x a a', R a a' -> rel_res R (f x a) (f' (t x) a')) -> forall a a', R a a' -> rel_res R (fold_res f l a) (fold_res f' (map t l) a').
Proof. intro H. induction l as [|x l IH]; intros a a' Ha; simpl; auto. eapply rel_bind; eauto. Qed.
Lemma rel_fold_same {A A' B} (R : A -> A' -> Prop) (f : B -> A -> res A) (f' : B -> A' -> res A') l :
  (forall x a a', R a a' -> rel_res R (f x a) (f' x a')) -> forall a a', R a a' -> rel_res R (fold_res f l a) (fold_res f' l a').
Proof. intros H a a' Ha. rewrite <- (map_id l) at 2. now apply (rel_fold R (fun x => x)). Qed.

(** ** Sorting *)
Lemma isort_map {W W' : WOrd} {A A'} (t : A -> A') (key : A -> W) (key' : A' -> W') :
  (forall x y, wle (key' (t x)) (key' (t y)) = wle (key x) (key y)) -> forall l, isort key' (map t l) = map t (isort key l).
Proof.
  intro H. assert (G : forall x l, insert key' (t x) (map t l) = map t (insert key x l)).
  { intros x l. induction l as [|y l IH]; simpl; auto. rewrite H. destruct (wle _ _); simpl; auto. now rewrite IH. }
  induction l as [|x l IH]; simpl; auto. now rewrite IH.
Qed.
Lemma nsort_map {A A'} (t : A -> A') (key : A -> nat) (key' : A' -> nat) :
  (forall x, key' (t x) = key x) -> forall l, nsort key' (map t l) = map t (nsort key l).
Proof. intros H l. unfold nsort. apply isort_map. intros x y. now rewrite !H. Qed.

Lemma filter_map_swap {A B} (t : A -> B) p q l : (forall x, p (t x) = q x) -> filter p (map t l) = map t (filter q l).
Proof. intro H. induction l as [|x l IH]; simpl; auto. rewrite H. destruct (q x); simpl; now rewrite IH. Qed.
Lemma existsb_map {A B} (t : A -> B) p q l : (forall x, p (t x) = q x) -> existsb p (map t l) = existsb q l.
Proof. intro H. induction l as [|x l IH]; simpl; auto. now rewrite H, IH. Qed.

Lemma countp_ext' {A} (p q : A -> bool) l : (forall x, p x = q x) -> countp p l = countp q l.
Proof. intro H. induction l as [|x l IH]; simpl; auto. now rewrite H, IH. Qed.

(** ** Dictionaries *)
Definition map_val {A B} (h : A -> B) (kv : nat * A) : nat * B := (fst kv, h (snd kv)).
Lemma dict_set_map {A B} (h : A -> B) d k v : dict_set (map (map_val h) d) k (h v) = map (map_val h) (dict_set d k v).
Proof. induction d as [|[k' v'] d IH]; simpl; auto. destruct (k =? k'); simpl; auto. now rewrite IH. Qed.
Lemma dict_get_map {A B} (h : A -> B) d k : rel_res (fun a b => b = h a) (dict_get d k) (dict_get (map (map_val h) d) k).
Proof. induction d as [|[k' v'] d IH]; simpl; auto. destruct (k =? k'); simpl; auto. Qed.

Section Hom.
  Context {W W' V V' : WOrd} {Sz : SOrd} (f : W -> W') (g : V -> V').
  Hypothesis Hf : forall x y, wle (f x) (f y) = wle x y.
  Hypothesis Hg : forall x y, wle (g x) (g y) = wle x y.
  Lemma g_lt x y : wlt (g x) (g y) = wlt x y.
  Proof. unfold wlt. now rewrite Hg. Qed.
  Lemma g_max x y : wmax (g x) (g y) = g (wmax x y).
  Proof. unfold wmax. rewrite g_lt. now destruct (wlt x y). Qed.
  Lemma g_min x y : wmin (g x) (g y) = g (wmin x y).
  Proof. unfold wmin. rewrite g_lt. now destruct (wlt y x). Qed.
  Lemma g_vmax x y : vmax (g x) (g y) = g (vmax x y).
  Proof. unfold vmax. rewrite g_lt. now destruct (wlt x y). Qed.
  Lemma g_vmin x y : vmin (g x) (g y) = g (vmin x y).
  Proof. unfold vmin. rewrite g_lt. now destruct (wlt y x). Qed.
  Lemma g_veq x y : veq (g x) (g y) = veq x y.
  Proof. unfold veq. now rewrite !Hg. Qed.

  (** ** Linkage tree *)
  Lemma sort_mst_map M : sort_mst (map (map_edge f) M) = map (map_edge f) (sort_mst M).
  Proof.
    unfold sort_mst. rewrite (nsort_map (map_edge f) edst edst), (nsort_map (map_edge f) esrc esrc) by reflexivity.
    apply isort_map. intros x y. unfold map_edge, ewt. cbn [snd]. apply Hf.
  Qed.
  Lemma linkage_loop_map M : forall lm : linkage_merge Sz, rel_res (fun a b => b = map (map_lrow f) a) (linkage_loop lm M) (linkage_loop lm (map (map_edge f) M)).
  Proof.
    induction M as [|e M IH]; intro lm; simpl; auto.
    apply (rel_bind (fun a b => fst b = fst a /\ snd b = map_lrow f (snd a))).
    - unfold linkage_step. change (esrc (map_edge f e)) with (esrc e). change (edst (map_edge f e)) with (edst e). change (ewt (map_edge f e)) with (f (ewt e)).
      destruct (linkage_merge_find lm (esrc e)) as [[lm1 lc]|]; simpl; auto.
      destruct (linkage_merge_find lm1 (edst e)) as [[lm2 rc]|]; simpl; auto.
      destruct (rc <? lc); simpl; destruct (linkage_merge_join lm2 lc rc); simpl; auto.
    - intros [lm1 r] [lm2 r'] [E1 E2]. cbn [fst snd] in *. subst. eapply rel_bind; [apply IH|]. intros a b ->. reflexivity.
  Qed.

  (** ** Condensed tree *)
  Lemma nth_map_lrow (L : list (lrow W Sz)) i : nth_error (map (map_lrow f) L) i = option_map (map_lrow f) (nth_error L i).
  Proof. apply nth_error_map. Qed.
  Lemma bfs_children_map n (L : list (lrow W Sz)) l : bfs_children n (map (map_lrow f) L) l = bfs_children n L l.
  Proof.
    induction l as [|x l IH]; simpl; auto. rewrite IH. destruct (bfs_children n L l); simpl; auto. destruct (n <=? x); auto.
    rewrite nth_map_lrow. now destruct (nth_error L (x - n)).
  Qed.
  Lemma bfs_loop_map n (L : list (lrow W Sz)) : forall fuel l, bfs_loop fuel n (map (map_lrow f) L) l = bfs_loop fuel n L l.
  Proof.
    induction fuel as [|k IH]; intros [|x l]; auto. cbn [bfs_loop]. rewrite bfs_children_map. destruct (bfs_children n L (x :: l)); simpl; auto. now rewrite IH.
  Qed.

  Section Condense.
    Variables (lam : W -> V) (lam' : W' -> V') (mcs : Sz) (mx : option Sz) (wts : nat -> Sz) (L : list (lrow W Sz)).
    Hypothesis Hlam : forall w, lam' (f w) = g (lam w).
    Let L' := map (map_lrow f) L.
    Definition st_rel (s : cstate V Sz) (s' : cstate V' Sz) : Prop :=
      k_relabel s' = k_relabel s /\ k_ignore s' = k_ignore s /\ k_rows s' = map (map_crow g) (k_rows s) /\ k_next s' = k_next s.
    Lemma L_len : length L' = length L.
    Proof. apply map_length. Qed.
    Lemma emit_map s s' r : st_rel s s' -> rel_res st_rel (emit L s r) (emit L' s' (map_crow g r)).
    Proof.
      intros (H1 & H2 & H3 & H4). unfold emit. rewrite L_len, H3, map_length. destruct (_ <=? _); [reflexivity|].
      repeat split; cbn; auto. rewrite map_app. reflexivity.
    Qed.
    Lemma point_map p c l : point_row (Sz := Sz) p c (g l) = map_crow g (point_row p c l).
    Proof. reflexivity. Qed.
    Lemma relabel_map s s' v l : st_rel s s' -> st_rel (set_relabel s v l) (set_relabel s' v l).
    Proof. intros (H1 & H2 & H3 & H4). repeat split; cbn; auto. now rewrite H1. Qed.
    Lemma ignore_map s s' v : st_rel s s' -> st_rel (set_ignore s v) (set_ignore s' v).
    Proof. intros (H1 & H2 & H3 & H4). repeat split; cbn; auto. now rewrite H2. Qed.
    Lemma eliminate_loop_map nodes p l : forall s s', st_rel s s' -> rel_res st_rel (eliminate_loop L nodes p l s) (eliminate_loop L' nodes p (g l) s').
    Proof.
      induction nodes as [|v nodes IH]; intros s s' H; simpl; auto. eapply rel_bind; [|apply IH]. rewrite L_len. destruct (v <? _).
      - rewrite point_map. now apply emit_map.
      - now apply ignore_map.
    Qed.
    Lemma eliminate_branch_map b p l s s' : st_rel s s' -> rel_res st_rel (eliminate_branch L b p l s) (eliminate_branch L' b p (g l) s').
    Proof.
      intro H. unfold eliminate_branch. rewrite L_len. destruct (b <? _); [rewrite point_map; now apply emit_map|].
      unfold bfs_from_hierarchy, L'. rewrite bfs_loop_map. apply rel_bind_same. intro nodes. now apply eliminate_loop_map.
    Qed.
    Lemma node_count_map v : node_count L' wts v = node_count L wts v.
    Proof. unfold node_count. rewrite L_len. destruct (_ <=? v); auto. unfold L'. rewrite nth_map_lrow. now destruct (nth_error L _). Qed.
    Lemma new_cluster_map v p l c s s' : st_rel s s' -> rel_res st_rel (new_cluster L v p l c s) (new_cluster L' v p (g l) c s').
    Proof.
      intro H. unfold new_cluster. assert (E : k_next s' = k_next s) by apply H. rewrite E. cbn [set_relabel k_next]. rewrite E.
      eapply rel_bind.
      - apply (relabel_map _ _ v (k_next s)) in H. apply (emit_map _ _ {| c_parent := p; c_child := k_next s; c_lam := l; c_size := c |}) in H. exact H.
      - intros a a' (H1 & H2 & H3 & H4). repeat split; cbn; auto.
    Qed.
    Lemma condense_node_map v s s' : st_rel s s' -> rel_res st_rel (condense_node L lam mcs mx wts v s) (condense_node L' lam' mcs mx wts v s').
    Proof.
      intro H. unfold condense_node. rewrite L_len. pose proof H as (H1 & H2 & H3 & H4). rewrite H1, H2. destruct (_ || _); auto.
      unfold L' at 1. rewrite nth_map_lrow. destruct (nth_error L _) as [r|]; cbn [option_map]; [|reflexivity].
      cbn [map_lrow l_a l_b l_d]. rewrite !node_count_map, Hlam. apply rel_bind_same. intro ca. apply rel_bind_same. intro cb.
      repeat match goal with |- rel_res _ (if ?b then _ else _) _ => destruct b end.
      - rewrite point_map. apply emit_map. now apply relabel_map.
      - apply eliminate_branch_map. now apply relabel_map.
      - apply eliminate_branch_map. now apply relabel_map.
      - eapply rel_bind; [now apply eliminate_branch_map|]. intros a a' Ha. now apply eliminate_branch_map.
      - simpl. now do 2 apply relabel_map.
      - eapply rel_bind; [now apply new_cluster_map|]. intros a a' Ha. now apply new_cluster_map.
    Qed.
    Lemma condense_tree_map : rel_res (fun a b => b = map (map_crow g) a) (condense_tree L lam mcs mx wts) (condense_tree L' lam' mcs mx wts).
    Proof.
      unfold condense_tree, bfs_from_hierarchy. rewrite L_len. unfold L' at 1. rewrite bfs_loop_map. apply rel_bind_same. intro nodes.
      apply (rel_bind st_rel).
      - set (s := {| k_relabel := _; k_ignore := _; k_rows := []; k_next := _ |}). 
        set (s' := {| k_relabel := _; k_ignore := _; k_rows := []; k_next := _ |}).
        assert (H : st_rel s s') by (repeat split). clearbody s s'. revert s s' H.
        induction nodes as [|v nodes IH]; intros s s' H; simpl; auto. eapply rel_bind; [now apply condense_node_map|]. intros; now apply IH.
      - intros a a' (_ & _ & H & _). simpl. auto.
    Qed.
  End Condense.

  (** ** Selection *)
  Notation mapT := (map (map_crow (Sz := Sz) g)).
  Lemma cluster_tree_map (T : list (crow V Sz)) : cluster_tree_from_condensed_tree (mapT T) = mapT (cluster_tree_from_condensed_tree T).
  Proof. apply filter_map_swap. reflexivity. Qed.
  Lemma parents_map (T : list (crow V Sz)) : map c_parent (mapT T) = map c_parent T.
  Proof. rewrite map_map. now apply map_ext. Qed.
  Lemma childs_map (T : list (crow V Sz)) : map c_child (mapT T) = map c_child T.
  Proof. rewrite map_map. now apply map_ext. Qed.
  Lemma children_map (T : list (crow V Sz)) v : children_of (mapT T) v = children_of T v.
  Proof. unfold children_of. rewrite (filter_map_swap _ _ (fun r => c_parent r =? v)) by reflexivity. apply childs_map. Qed.
  Lemma leaves_map (T : list (crow V Sz)) n : cluster_tree_leaves (mapT T) n = cluster_tree_leaves T n.
  Proof.
    unfold cluster_tree_leaves. rewrite childs_map. destruct (array_max (map c_child T)); cbn [bind]; auto. do 2 f_equal. apply filter_ext.
    intro i. f_equal. now apply existsb_map.
  Qed.
  Lemma extract_leaves_map (T : list (crow V Sz)) : extract_leaves (mapT T) = extract_leaves T.
  Proof.
    unfold extract_leaves. rewrite parents_map. destruct (array_max (map c_parent T)); cbn [bind]; auto. destruct (array_min (map c_parent T)); cbn [bind]; auto.
    f_equal. apply filter_ext. intro i. do 2 f_equal. now apply existsb_map.
  Qed.

  Section Eom.
    Variables (A : Arith V Sz) (A' : Arith V' Sz) (h : num A -> num A').
    Hypothesis H0 : num_zero A' = h (num_zero A).
    Hypothesis Hadd : forall x y, num_add A' (h x) (h y) = h (num_add A x y).
    Hypothesis Hopp : forall x, num_opp A' (h x) = h (num_opp A x).
    Hypothesis Hmul : forall l z, num_mul A' (g l) z = h (num_mul A l z).
    Hypothesis Hlt : forall x y, num_lt A' (h x) (h y) = num_lt A x y.
    Notation mapD := (map (map_val h)).

    Lemma score_step_map r d : rel_res (fun a b => b = mapD a) (score_step A r d) (score_step A' (map_crow g r) (mapD d)).
    Proof.
      unfold score_step. cbn [map_crow c_parent c_child c_lam c_size]. rewrite !Hmul, Hopp.
      assert (E : (if slt sone (c_size r) then dict_set (mapD d) (c_child r) (h (num_opp A (num_mul A (c_lam r) (c_size r)))) else mapD d) =
                  mapD (if slt sone (c_size r) then dict_set d (c_child r) (num_opp A (num_mul A (c_lam r) (c_size r))) else d)).
      { destruct (slt sone (c_size r)); auto. apply dict_set_map. }
      rewrite E. eapply rel_bind; [apply dict_get_map|]. intros a a' ->. simpl. now rewrite Hadd, dict_set_map.
    Qed.
    Lemma score_map T : rel_res (fun a b => b = mapD a) (score_condensed_tree_nodes A T) (score_condensed_tree_nodes A' (mapT T)).
    Proof.
      destruct T as [|r T]; [reflexivity|]. unfold score_condensed_tree_nodes. rewrite map_cons. cbv iota beta.
      change (map_crow g r :: mapT T) with (mapT (r :: T)). apply (rel_fold (fun a b => b = mapD a)).
      - intros x a a' ->. apply score_step_map.
      - cbn. now rewrite H0.
    Qed.

    Variables (ct : list (crow V Sz)) (ns : list (nat * num A)) (sizes : list (nat * Sz)) (mx : option Sz).
    Lemma unselect_map fuel : forall v sel, unselect_below_node (mapT ct) fuel v sel = unselect_below_node ct fuel v sel.
    Proof.
      induction fuel as [|k IH]; intros v sel; cbn [unselect_below_node]; auto. rewrite children_map. revert sel. induction (children_of ct v) as [|c l IHl]; intro sel; simpl; auto.
      rewrite IH. destruct (unselect_below_node ct k c sel); simpl; auto.
    Qed.
    Lemma eom_map fuel : forall v sel, rel_res (fun a b => b = (h (fst a), snd a))
      (eom_recursion A ct ns sizes mx fuel v sel) (eom_recursion A' (mapT ct) (mapD ns) sizes mx fuel v sel).
    Proof.
      induction fuel as [|k IH]; intros v sel; cbn [eom_recursion]; [reflexivity|].
      eapply rel_bind; [apply dict_get_map|]. intros sc sc' ->. apply rel_bind_same. intro sz.
      rewrite children_map.
      assert (EC : (if num_lt A' (h sc) (num_zero A') then num_zero A' else h sc) = h (if num_lt A sc (num_zero A) then num_zero A else sc)).
      { rewrite H0, Hlt. now destruct (num_lt A sc _). }
      rewrite EC. eapply (rel_bind (fun a b => b = (h (fst a), snd a))).
      - apply rel_fold_same.
        + intros c [t s] [t' s'] E. cbn [fst snd] in E |- *. injection E as -> ->. eapply rel_bind; [apply IH|]. intros [x s1] [x' s1'] E. cbn [fst snd] in E.
          injection E as -> ->. cbn. now rewrite Hadd.
        + now rewrite H0.
      - intros [t s] [t' s'] E. cbn [fst snd] in E. injection E as -> ->. rewrite Hlt. destruct (_ || _); [reflexivity|]. rewrite unselect_map. apply rel_bind_same. reflexivity.
    Qed.
  End Eom.

  Section EomTop.
    Variables (A : Arith V Sz) (A' : Arith V' Sz) (h : num A -> num A').
    Hypothesis H0 : num_zero A' = h (num_zero A).
    Hypothesis Hadd : forall x y, num_add A' (h x) (h y) = h (num_add A x y).
    Hypothesis Hopp : forall x, num_opp A' (h x) = h (num_opp A x).
    Hypothesis Hmul : forall l z, num_mul A' (g l) z = h (num_mul A l z).
    Hypothesis Hlt : forall x y, num_lt A' (h x) (h y) = num_lt A x y.

    Lemma extract_eom_map T ct mx a : extract_eom_clusters A' (mapT T) (mapT ct) mx a = extract_eom_clusters A T ct mx a.
    Proof.
      apply rel_eq. unfold extract_eom_clusters. eapply rel_bind.
      { pose proof (score_map A A' h H0 Hadd Hopp Hmul T) as H. 
        instantiate (1 := fun b a => b = map (map_val h) a). destruct (score_condensed_tree_nodes A T), (score_condensed_tree_nodes A' (mapT T)); simpl in *; auto. }
      intros ns' ns ->. destruct ct as [|r ct]; [reflexivity|]. rewrite map_cons. cbv iota beta. change (map_crow g r :: mapT ct) with (mapT (r :: ct)).
      set (c := r :: ct). rewrite parents_map. apply rel_bind_same. intro root.
      assert (E1 : fold_left (fun d q => dict_set d (c_child q) (c_size q)) (mapT c) [] = fold_left (fun d q => dict_set d (c_child q) (c_size q)) c []).
      { generalize (@nil (nat * Sz)). induction c as [|q c IH]; intro d; simpl; auto. }
      rewrite E1, map_length, children_map. set (sizes := dict_set _ root _).
      assert (E2 : map (fun kv : nat * num A' => (fst kv, false)) (map (map_val h) ns) = map (fun kv => (fst kv, false)) ns) by (rewrite map_map; now apply map_ext).
      rewrite E2. rewrite (map_length (map_val h)). apply (rel_bind eq); [|intros x y ->; reflexivity].
      set (fuel := S (S (length c))). clearbody fuel.
      assert (G : forall v s, 
                rel_res eq (let* (_, s1) := eom_recursion A' (mapT c) (map (map_val h) ns) sizes mx fuel v s in Ok s1) (let* (_, s1) := eom_recursion A c ns sizes mx fuel v s in Ok s1)).
      { intros v s. pose proof (eom_map A A' h H0 Hadd Hlt c ns sizes mx fuel v s) as H.
        destruct (eom_recursion A c ns sizes mx fuel v s) as [[x s1]|], (eom_recursion A' (mapT c) _ sizes mx fuel v s) as [[x' s1']|]; simpl in *; try contradiction; congruence. }
      destruct a; [now apply G|]. destruct (1 <? length ns); [|reflexivity]. unfold eom_children. apply rel_fold_same; [|reflexivity].
      intros v s s' ->. now apply G.
    Qed.
  End EomTop.

  (** ** Epsilon *)
  Section Epsilon.
    Variables (lt : V -> bool) (lt' : V' -> bool).
    Hypothesis Hlt : forall l, lt' (g l) = lt l.
    Lemma row_of_map (ct : list (crow V Sz)) c : rel_res (fun a b => b = map_crow g a) (row_of_child ct c) (row_of_child (mapT ct) c).
    Proof. unfold row_of_child. rewrite (filter_map_swap _ _ (fun r => c_child r =? c)) by reflexivity. destruct (filter _ ct); simpl; auto. Qed.
    Lemma traverse_map (ct : list (crow V Sz)) root fuel : forall x, traverse_upwards lt' (mapT ct) root fuel x = traverse_upwards lt ct root fuel x.
    Proof.
      induction fuel as [|k IH]; intro x; cbn [traverse_upwards]; auto. pose proof (row_of_map ct x) as H.
      destruct (row_of_child ct x) as [r|], (row_of_child (mapT ct) x) as [r'|]; simpl in H |- *; try contradiction; try congruence. subst r'. cbn [map_crow c_parent].
      destruct (c_parent r =? root); auto. pose proof (row_of_map ct (c_parent r)) as H.
      destruct (row_of_child ct (c_parent r)) as [q|], (row_of_child (mapT ct) (c_parent r)) as [q'|]; simpl in H |- *; try contradiction; try congruence. subst q'. cbn [map_crow c_lam].
      rewrite Hlt, IH. reflexivity.
    Qed.
    Lemma epsilon_map (ct bp : list (crow V Sz)) cs : cluster_epsilon_search lt' cs (mapT ct) (mapT bp) = cluster_epsilon_search lt cs ct bp.
    Proof.
      unfold cluster_epsilon_search. rewrite parents_map. destruct (array_min (map c_parent ct)) as [root|]; simpl; auto.
      f_equal. apply rel_eq. apply rel_fold_same; auto. intros x [s p] b <-. unfold epsilon_step.
      unfold array_get. rewrite childs_map, nth_error_map. destruct (nth_error ct _) as [r|]; cbn [bind option_map]; [|reflexivity]. cbn [map_crow c_lam]. rewrite Hlt. destruct (lt (c_lam r)); [|apply rel_refl].
      destruct (in_set p x); [reflexivity|]. rewrite map_length, traverse_map, parents_map, childs_map. apply rel_refl.
    Qed.
  End Epsilon.

  (** ** Persistence *)
  Section Simplify.
    Variables (persists : V -> V -> bool) (persists' : V' -> V' -> bool) (garbage : nat -> V) (garbage' : nat -> V').
    Hypothesis Hp : forall a b, persists' (g a) (g b) = persists a b.
    Hypothesis Hgarbage : forall i, garbage' i = g (garbage i).
    Definition s_rel (s : sstate (V := V)) (s' : sstate (V := V')) : Prop :=
      leaf_indicator s' = leaf_indicator s /\ (forall i, max_births s' i = g (max_births s i)) /\ parent_map s' = parent_map s /\
      lambda_map s' = map (map_val g) (lambda_map s).
    Lemma pair_map r q s s' : s_rel s s' -> s_rel (simplify_pair persists (Sz := Sz) r q s) (simplify_pair persists' (map_crow g r) (map_crow g q) s').
    Proof.
      intros (H1 & H2 & H3 & H4). unfold simplify_pair. cbn [map_crow c_parent c_child c_lam]. rewrite !H2, !g_min, !g_max, Hp, Hg, H1, H3, H4.
      assert (HB : forall v i, upd (max_births s') (c_parent q) (g v) i = g (upd (max_births s) (c_parent q) v i)).
      { intros v i. unfold upd. destruct (i =? c_parent q); auto. }
      destruct (persists _ _); repeat split; cbn; auto. destruct (leaf_indicator s _); auto. apply dict_set_map.
    Qed.
    Lemma pairs_map n : forall ct, length ct <= n -> forall s s', s_rel s s' -> s_rel (simplify_pairs persists (Sz := Sz) ct s) (simplify_pairs persists' (mapT ct) s').
    Proof.
      induction n as [|n IH]; intros [|q [|r ct]] Hn s s' H; simpl in Hn; auto; try lia. simpl. apply IH; [simpl; lia|]. now apply pair_map.
    Qed.
    Lemma births_map T : forall b b', (forall i, b' i = g (b i)) ->
      forall i, fold_left (fun births r => upd births (c_parent r) (c_lam r)) (mapT T) b' i = g (fold_left (fun births (r : crow V Sz) => upd births (c_parent r) (c_lam r)) T b i).
    Proof.
      induction T as [|r T IH]; intros b b' H i; simpl; auto. apply IH. intro j. unfold upd. destruct (j =? c_parent r); auto.
    Qed.
    Lemma simplify_map T : simplify_hierarchy persists' garbage' (mapT T) = map_ok mapT (simplify_hierarchy persists garbage T).
    Proof.
      destruct T as [|r0 T0]; [reflexivity|]. unfold simplify_hierarchy. rewrite map_cons. cbv iota beta. change (map_crow g r0 :: mapT T0) with (mapT (r0 :: T0)).
      set (T := r0 :: T0). rewrite cluster_tree_map. set (ct := cluster_tree_from_condensed_tree T). rewrite <- map_rev.
      destruct (rev ct) as [|q l] eqn:E; [reflexivity|]. rewrite map_cons. cbv iota beta. change (map_crow g q :: mapT l) with (mapT (q :: l)). cbn [map_crow c_child c_parent].
      set (ids := seq _ _).
      match goal with |- context [simplify_pairs persists (q :: l) ?a] => set (s := a) end.
      match goal with |- context [simplify_pairs persists' _ ?a] => set (s' := a) end.
      assert (HS : leaf_indicator s' = leaf_indicator s -> s_rel s s').
      { intro HL. repeat split; auto. intro i. unfold s, s'. cbn [max_births]. now apply births_map. }
      assert (HX : forall c, leaf_indicator s' c = leaf_indicator s c).
      { intro c. unfold s, s'. cbn [leaf_indicator]. f_equal. now apply existsb_map. }
      (* leaf indicators agree pointwise only *)
      set (s2 := {| leaf_indicator := leaf_indicator s; max_births := max_births s'; parent_map := parent_map s'; lambda_map := lambda_map s' |}).
      assert (G : forall n ct0, length ct0 <= n -> forall a b, (forall c, leaf_indicator a c = leaf_indicator b c) -> (forall c, max_births a c = max_births b c) ->
                (forall c, parent_map a c = parent_map b c) -> lambda_map a = lambda_map b ->
                let a' := simplify_pairs persists' (Sz := Sz) ct0 a in let b' := simplify_pairs persists' ct0 b in
                (forall c, parent_map a' c = parent_map b' c) /\ lambda_map a' = lambda_map b').
      { clear. induction n as [|n IH]; intros [|q [|r ct]] Hn a b H1 H2 H3 H4; simpl in Hn; auto; try lia. simpl. apply IH; [simpl; lia|..].
        - intro c. unfold simplify_pair. rewrite !H2. destruct (persists' _ _); cbn [leaf_indicator]; auto. rewrite H1. destruct (leaf_indicator b _); auto.
          unfold upd. destruct (c =? _); auto.
        - intro c. unfold simplify_pair. rewrite !H2. destruct (persists' _ _); cbn [max_births]; unfold upd; destruct (c =? _); auto.
        - intro c. unfold simplify_pair. rewrite !H2. destruct (persists' _ _); cbn [parent_map]; auto. unfold upd. destruct (c =? _); auto. destruct (c =? _); auto.
        - unfold simplify_pair. rewrite !H2. destruct (persists' _ _); cbn [lambda_map]; auto. rewrite H1. destruct (leaf_indicator b _); auto. now rewrite H4. }
      assert (H2 : s_rel s s2).
      { repeat split; auto. intro i. unfold s2, s, s'. cbn [max_births]. now apply births_map. }
      pose proof (pairs_map _ (q :: l) (le_n _) s s2 H2) as (_ & _ & K3 & K4).
      destruct (G _ (mapT (q :: l)) (le_n _) s' s2 HX (fun c => eq_refl) (fun c => eq_refl) eq_refl) as [P3 P4].
      rewrite K3 in P3. rewrite K4 in P4. clear G K3 K4 H2 HS HX. rewrite P4.
      set (pm := parent_map (simplify_pairs persists (q :: l) s)) in *. set (pm' := parent_map (simplify_pairs persists' _ s')) in *. clearbody pm pm'.
      set (lm := lambda_map _). clearbody lm. clear s s' s2 P4.
      assert (Q1 : forall c, propagate ids pm' c = propagate ids pm c).
      { unfold propagate. clearbody ids. revert pm pm' P3. induction ids as [|i ids' IH]; intros pm pm' P3 c; simpl; auto. apply IH. intro x. unfold upd. rewrite !P3. now destruct (x =? i). }
      assert (Q2 : forall ids' a b, (forall c, fst a c = fst b c) -> (forall c, snd a c = snd b c) ->
         let step := fun (st : (nat -> nat) * (nat -> bool)) i => let parent := fst st i in let skipped := upd (snd st) i (negb (parent =? i)) in
                 (upd (fst st) i (parent - countp skipped (seq (c_parent r0) (parent - c_parent r0))), skipped) in
         (forall c, fst (fold_left step ids' a) c = fst (fold_left step ids' b) c) /\ (forall c, snd (fold_left step ids' a) c = snd (fold_left step ids' b) c)).
      { clear. induction ids' as [|i ids' IH]; intros a b Ha Hb step; simpl; auto. 
        assert (HC : forall c, upd (snd a) i (negb (fst a i =? i)) c = upd (snd b) i (negb (fst b i =? i)) c) by (intro c; unfold upd; rewrite Ha, Hb; now destruct (c =? i)).
        apply IH; unfold step; cbn [fst snd]; auto. intro c. unfold upd at 1 3. destruct (c =? i); auto. rewrite Ha. f_equal. rewrite <- Ha.
        apply countp_ext'. intro y. rewrite HC. now rewrite Ha. }
      unfold renumber. destruct (Q2 ids (propagate ids pm', fun _ => false) (propagate ids pm, fun _ => false)) as [R1 R2]; auto. cbv zeta in R1, R2 |- *. clear Q2.
      match goal with |- context [fold_left ?st ids (propagate ids pm', ?z)] => destruct (fold_left st ids (propagate ids pm', z)) as [p1 k1] end.
      match goal with |- context [fold_left ?st ids (propagate ids pm, ?z)] => destruct (fold_left st ids (propagate ids pm, z)) as [p2 k2] end.
      cbn [fst snd] in R1, R2. cbn [map_ok]. f_equal. clear E ct. clearbody T. induction T as [|x T IH]; auto. cbn [map flat_map]. rewrite IH, map_app. f_equal.
      unfold simplify_row. cbn [map_crow c_parent c_child c_lam c_size]. rewrite R2. destruct (k2 _); auto. cbn [map]. do 2 f_equal. rewrite !R1.
      unfold map_crow. cbn [c_parent c_child c_lam c_size]. do 2 f_equal. unfold dict_get_or. pose proof (dict_get_map g lm (c_parent x)) as H.
      destruct (dict_get lm (c_parent x)), (dict_get (map (map_val g) lm) (c_parent x)); simpl in H; try contradiction; auto.
    Qed.
  End Simplify.

  (** ** Labels and strengths; strengths change by [k] *)
  Section Labels.
    Variables (LA : LamArith V) (LA' : LamArith V').
    Hypothesis Hz : la_zero LA' = g (la_zero LA).
    Lemma label_union_map cs n r d : label_union LA' cs n (map_crow (Sz := Sz) g r) d = label_union LA cs n r d.
    Proof. unfold label_union. cbn [map_crow c_child c_parent c_lam]. now rewrite Hz, g_veq. Qed.
    Lemma max_leaving_map T c : rel_res (fun a b => b = g a) (max_leaving_lambda (Sz := Sz) T c) (max_leaving_lambda (mapT T) c).
    Proof.
      unfold max_leaving_lambda. rewrite (filter_map_swap _ _ (fun r => c_parent r =? c)) by reflexivity. rewrite map_map.
      destruct (filter _ T) as [|r l]; simpl; auto. generalize (c_lam r). induction l as [|q l IH]; intro v; simpl; auto. now rewrite g_vmax, IH.
    Qed.
    Lemma lambda_of_map T x : rel_res (fun a b => b = g a) (lambda_of (Sz := Sz) T x) (lambda_of (mapT T) x).
    Proof. unfold lambda_of. rewrite (filter_map_swap _ _ (fun r => c_child r =? x)) by reflexivity. destruct (filter _ T) as [|r [|q l]]; simpl; auto. Qed.
    Lemma label_of_map T cs e root x c : label_of (Sz := Sz) (mapT T) cs (option_map g e) root x c = label_of T cs e root x c.
    Proof.
      unfold label_of. destruct (c <? root); auto. destruct (c =? root); auto. destruct (_ =? 1); auto.
      pose proof (max_leaving_map T c) as H. destruct (max_leaving_lambda T c) as [m|], (max_leaving_lambda (mapT T) c) as [m'|]; simpl in H |- *; try contradiction; try congruence. subst m'.
      pose proof (lambda_of_map T x) as H. destruct (lambda_of T x) as [v|], (lambda_of (mapT T) x) as [v'|]; simpl in H |- *; try contradiction; try congruence. subst v'.
      destruct e as [e|]; simpl; now rewrite Hg.
    Qed.
    Lemma labels_map T cs e n : get_cluster_label_vector LA' (Sz := Sz) (mapT T) cs (option_map g e) n = get_cluster_label_vector LA T cs e n.
    Proof.
      destruct T as [|r T0]; [reflexivity|]. destruct cs as [|c cs0]; [reflexivity|]. unfold get_cluster_label_vector. rewrite map_cons. cbv iota beta.
      change (map_crow g r :: mapT T0) with (mapT (r :: T0)). set (T := r :: T0). set (cs := c :: cs0). rewrite parents_map, childs_map.
      destruct (array_min (map c_parent T)) as [root|]; cbn [bind]; auto. destruct (array_max (map c_parent T)) as [mp|]; cbn [bind]; auto.
      destruct (array_max (map c_child T)) as [mc|]; cbn [bind]; auto.
      assert (E : forall d, fold_res (label_union LA' cs n) (mapT T) d = fold_res (label_union LA cs n) T d).
      { clearbody T. induction T as [|q T IH]; intro d; simpl; auto. rewrite label_union_map. destruct (label_union LA cs n q d); simpl; auto. }
      rewrite E. destruct (fold_res _ T _) as [d|]; cbn [bind]; auto. destruct (n <? root); auto. destruct (cut_roots d _) as [reps|]; cbn [bind]; auto.
      assert (E2 : forall l, map_res (fun xc => label_of (mapT T) cs (option_map g e) root (fst xc) (snd xc)) l = map_res (fun xc => label_of T cs e root (fst xc) (snd xc)) l).
      { induction l as [|xc l IH]; cbn [map_res]; auto. now rewrite label_of_map, IH. }
      now rewrite E2.
    Qed.

    Lemma max_lambdas_map T cs : rel_res (fun a b => b = map (map_val g) a) (max_lambdas LA (Sz := Sz) T cs) (max_lambdas LA' (mapT T) cs).
    Proof.
      unfold max_lambdas. apply (rel_fold (fun a b => b = map (map_val g) a)).
      - intros r d d' ->. unfold max_lambda_step. cbn [map_crow c_parent c_size c_lam]. destruct (_ && _); [|reflexivity]. eapply rel_bind; [apply dict_get_map|].
        intros a a' ->. simpl. now rewrite g_vmax, dict_set_map.
      - rewrite map_map. apply map_ext. intro c. unfold map_val. cbn. now rewrite Hz.
    Qed.

    Variable k : V -> V'.
    Hypothesis Hk0 : la_zero LA' = k (la_zero LA).
    Hypothesis Hk1 : la_one LA' = k (la_one LA).
    Hypothesis Hfin : forall v, la_finite LA' (g v) = la_finite LA v.
    Hypothesis Hdiv : forall a b, la_div LA' (g a) (g b) = k (la_div LA a b).
    Lemma strengths_map T cs ls : rel_res (fun a b => b = map k a) (get_point_membership_strength_vector LA (Sz := Sz) T cs ls)
      (get_point_membership_strength_vector LA' (mapT T) cs ls).
    Proof.
      unfold get_point_membership_strength_vector. eapply rel_bind; [apply max_lambdas_map|]. intros d d' ->. rewrite parents_map. apply rel_bind_same. intro root.
      apply (rel_bind (fun a b => forall i, b i = k (a i))).
      - apply (rel_fold (fun a b => forall i, b i = k (a i))); [|intro i; auto]. intros r a a' H. unfold strength_step. cbn [map_crow c_child c_lam].
        destruct (root <=? c_child r); auto. destruct (nth_error ls (c_child r)) as [l|]; [|reflexivity]. destruct (l <? 0)%Z; auto.
        destruct (nth_error _ (Z.to_nat l)) as [c|]; [|reflexivity]. eapply rel_bind; [apply dict_get_map|]. intros m m' ->. simpl. intro i.
        unfold upd. destruct (i =? c_child r); auto. rewrite Hz, g_veq, Hfin, g_vmin, Hdiv. destruct (_ || _); auto.
      - intros a b H. simpl. rewrite map_map. apply map_ext. auto.
    Qed.
  End Labels.

  (** ** All together *)
  Section Whole.
    Variables (lam : W -> V) (lam' : W' -> V') (LA : LamArith V) (LA' : LamArith V') (A : Arith V Sz) (A' : Arith V' Sz) (h : num A -> num A') (k : V -> V').
    Hypothesis Hlam : forall w, lam' (f w) = g (lam w).
    Hypothesis Hz : la_zero LA' = g (la_zero LA).
    Hypothesis Hk0 : la_zero LA' = k (la_zero LA).
    Hypothesis Hk1 : la_one LA' = k (la_one LA).
    Hypothesis Hfin : forall v, la_finite LA' (g v) = la_finite LA v.
    Hypothesis Hdiv : forall a b, la_div LA' (g a) (g b) = k (la_div LA a b).
    Hypothesis H0 : num_zero A' = h (num_zero A).
    Hypothesis Hadd : forall x y, num_add A' (h x) (h y) = h (num_add A x y).
    Hypothesis Hopp : forall x, num_opp A' (h x) = h (num_opp A x).
    Hypothesis Hmul : forall l z, num_mul A' (g l) z = h (num_mul A l z).
    Hypothesis Hlt : forall x y, num_lt A' (h x) (h y) = num_lt A x y.
    Variables (garbage : nat -> V) (garbage' : nat -> V') (by_parent : list (crow V Sz) -> list (crow V Sz)) (by_parent' : list (crow V' Sz) -> list (crow V' Sz))
      (st : settings V Sz) (st' : settings V' Sz).
    Hypothesis Hgarbage : forall i, garbage' i = g (garbage i).
    Hypothesis Hby : forall ct, by_parent' (mapT ct) = mapT (by_parent ct).
    Hypothesis Hst : min_cluster_size st' = min_cluster_size st /\ cluster_selection_method st' = cluster_selection_method st /\
      max_cluster_size st' = max_cluster_size st /\ allow_single_cluster st' = allow_single_cluster st.
    Hypothesis Heps : match cluster_selection_epsilon st, cluster_selection_epsilon st' with
      | Some (lt, e), Some (lt', e') => (forall l, lt' (g l) = lt l) /\ e' = g e
      | None, None => True | _, _ => False end.
    Hypothesis Hper : match cluster_selection_persistence st, cluster_selection_persistence st' with
      | Some p, Some p' => forall a b, p' (g a) (g b) = p a b
      | None, None => True | _, _ => False end.

    Definition run_rel (a : list Z * list V * list (crow V Sz)) (b : list Z * list V' * list (crow V' Sz)) : Prop :=
      b = (fst (fst a), map k (snd (fst a)), mapT (snd a)).
    Lemma linkage_tree_map wts n (L : list (lrow W Sz)) :
      rel_res run_rel (clusters_from_linkage_tree lam LA A garbage by_parent st wts n L)
        (clusters_from_linkage_tree lam' LA' A' garbage' by_parent' st' wts n (map (map_lrow f) L)).
    Proof.
      destruct Hst as (S1 & S2 & S3 & S4). unfold clusters_from_linkage_tree. apply (rel_bind (fun a b => b = mapT a)).
      { unfold condensed_tree_of. rewrite S1. eapply rel_bind; [apply (condense_tree_map lam lam'); auto|]. intros T T' ->.
        destruct (cluster_selection_persistence st) as [p|], (cluster_selection_persistence st') as [p'|]; try contradiction; [|reflexivity].
        destruct T as [|r T]; [reflexivity|]. rewrite map_cons. cbv iota beta. change (map_crow g r :: mapT T) with (mapT (r :: T)).
        rewrite (simplify_map p p' garbage garbage') by auto. destruct (simplify_hierarchy p garbage (r :: T)); simpl; auto. }
      intros T T' ->.
      assert (E1 : selected_clusters_of A' st' (mapT T) n = selected_clusters_of A st T n).
      { unfold selected_clusters_of. rewrite S2, S3, S4, cluster_tree_map. destruct (cluster_selection_method st).
        - eapply extract_eom_map; eauto.
        - destruct (cluster_tree_from_condensed_tree T) as [|r ct]; [reflexivity|]. rewrite map_cons. cbv iota beta. change (map_crow g r :: mapT ct) with (mapT (r :: ct)).
          apply leaves_map. }
      rewrite E1. apply rel_bind_same. intro sel.
      assert (E2 : epsilon_clusters_of by_parent' st' (mapT T) sel = epsilon_clusters_of by_parent st T sel).
      { unfold epsilon_clusters_of. rewrite cluster_tree_map, Hby. destruct (cluster_selection_epsilon st) as [[lt e]|], (cluster_selection_epsilon st') as [[lt' e']|]; try contradiction; auto.
        destruct Heps as [He _]. destruct (1 <? length sel); auto. now apply epsilon_map. }
      rewrite E2. apply rel_bind_same. intro sel2. apply (rel_bind (fun a b => b = (fst a, map k (snd a)))).
      - unfold labels_and_strengths_of.
        assert (E3 : option_map snd (cluster_selection_epsilon st') = option_map g (option_map snd (cluster_selection_epsilon st))).
        { destruct (cluster_selection_epsilon st) as [[lt e]|], (cluster_selection_epsilon st') as [[lt' e']|]; try contradiction; auto. destruct Heps as [_ ->]. reflexivity. }
        rewrite E3, (labels_map LA LA' Hz). apply rel_bind_same. intro ls. eapply rel_bind; [eapply strengths_map; eauto|]. intros a b ->. reflexivity.
      - intros [a b] [a' b'] E. cbn [fst snd] in E. injection E as -> ->. reflexivity.
    Qed.
  End Whole.
End Hom.
