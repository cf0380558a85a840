(** Proofs about the construction of the space tree and its lower bounds. *)
From Coq Require Import List Arith Lia Bool Permutation.
From Verif Require Import Prelude Order Coord M_TreeQuery S_SpaceTree M_KDTree S_KDTree P_Introselect.
Import ListNotations.

(** ** Positions of the nodes *)
Fixpoint in_sub (r node k : nat) : Prop :=
  k = node \/ match r with 0 => False | S r' => in_sub r' (2 * node + 1) k \/ in_sub r' (2 * node + 2) k end.

Lemma in_sub_self r node : in_sub r node node.
Proof. destruct r; now left. Qed.

Lemma in_sub_bounds : forall r node k, in_sub r node k ->
  exists q, q <= r /\ (node + 1) * 2 ^ q <= k + 1 < (node + 2) * 2 ^ q.
Proof.
  induction r as [|r IH]; intros node k H; cbn [in_sub] in H.
  - destruct H as [->|[]]. exists 0. simpl. lia.
  - destruct H as [->|[H|H]].
    + exists 0. simpl. lia.
    + apply IH in H. destruct H as (q & Hq & H). exists (S q). rewrite Nat.pow_succ_r'. split; [lia|]. nia.
    + apply IH in H. destruct H as (q & Hq & H). exists (S q). rewrite Nat.pow_succ_r'. split; [lia|]. nia.
Qed.

Lemma bounds_in_sub : forall q r node k, q <= r -> (node + 1) * 2 ^ q <= k + 1 < (node + 2) * 2 ^ q ->
  in_sub r node k.
Proof.
  induction q as [|q IH]; intros r node k Hr H.
  - simpl in H. assert (k = node) as -> by lia. apply in_sub_self.
  - destruct r as [|r]; [lia|]. right. rewrite Nat.pow_succ_r' in H.
    destruct (le_lt_dec ((2 * node + 2 + 1) * 2 ^ q) (k + 1)) as [L|L].
    + right. apply IH; [lia|]. nia.
    + left. apply IH; [lia|]. nia.
Qed.

Lemma in_sub_root L k : k < 2 ^ (L + 1) - 1 -> in_sub L 0 k.
Proof.
  intros H. apply (bounds_in_sub (Nat.log2 (k + 1))).
  - assert (Nat.log2 (k + 1) < L + 1); [|lia]. apply Nat.log2_lt_pow2; lia.
  - assert (K := Nat.log2_spec (k + 1) ltac:(lia)). rewrite Nat.pow_succ_r' in K. lia.
Qed.

Lemma in_sub_disjoint r r' node k : in_sub r (2 * node + 1) k -> in_sub r' (2 * node + 2) k -> False.
Proof.
  intros A B. apply in_sub_bounds in A, B. destruct A as (q & _ & A), B as (q' & _ & B).
  destruct (le_lt_dec q q') as [L|L].
  - replace q' with ((q' - q) + q) in B by lia. rewrite Nat.pow_add_r in B.
    assert (1 <= 2 ^ (q' - q)) by (apply Nat.neq_0_lt_0, Nat.pow_nonzero; lia). nia.
  - replace q with ((q - q' - 1) + S q') in A by lia. rewrite Nat.pow_add_r, Nat.pow_succ_r' in A.
    assert (1 <= 2 ^ (q - q' - 1)) by (apply Nat.neq_0_lt_0, Nat.pow_nonzero; lia). nia.
Qed.

Lemma in_sub_above r node k : in_sub r node k -> node <= k.
Proof.
  intros A. apply in_sub_bounds in A. destruct A as (q & _ & A).
  assert (1 <= 2 ^ q) by (apply Nat.neq_0_lt_0, Nat.pow_nonzero; lia). nia.
Qed.

(** ** Boxes *)
Section Boxes.
  Context {C : Coord}.
  Variables (data : nat -> nat -> C) (n_features : nat).
  Hypothesis data_num : forall i j, cnum (data i j).

  Lemma fold_wmin j : forall rows x0,
    let m := fold_left (fun lower i => wmin lower (data i j)) rows x0 in
    wle m x0 = true /\ (forall i, In i rows -> wle m (data i j) = true) /\
    (m = x0 \/ exists i, In i rows /\ m = data i j).
  Proof.
    induction rows as [|i rows IH]; intros x0; cbn [fold_left].
    - split; [apply wle_refl|]. split; [intros i []|auto].
    - destruct (IH (wmin x0 (data i j))) as (A & B & D).
      assert (M1 : wle (wmin x0 (data i j)) x0 = true /\ wle (wmin x0 (data i j)) (data i j) = true /\
                   (wmin x0 (data i j) = x0 \/ wmin x0 (data i j) = data i j)).
      { unfold wmin. destruct (wlt (data i j) x0) eqn:E.
        - split; [now apply wlt_le|]. split; [apply wle_refl|auto].
        - split; [apply wle_refl|]. split; [now apply wlt_false|auto]. }
      destruct M1 as (M1 & M2 & M3). cbn zeta. split; [eapply wle_trans; eauto|]. split.
      + intros i' [<-|Hi']; [eapply wle_trans; eauto|auto].
      + destruct D as [D|(i' & Hi' & D)].
        * rewrite D. destruct M3 as [->| ->]; [auto|]. right. exists i. split; [now left|auto].
        * right. exists i'. split; [now right|auto].
  Qed.

  Lemma fold_wmax j : forall rows x0,
    let m := fold_left (fun upper i => wmax upper (data i j)) rows x0 in
    wle x0 m = true /\ (forall i, In i rows -> wle (data i j) m = true) /\
    (m = x0 \/ exists i, In i rows /\ m = data i j).
  Proof.
    induction rows as [|i rows IH]; intros x0; cbn [fold_left].
    - split; [apply wle_refl|]. split; [intros i []|auto].
    - destruct (IH (wmax x0 (data i j))) as (A & B & D).
      assert (M1 : wle x0 (wmax x0 (data i j)) = true /\ wle (data i j) (wmax x0 (data i j)) = true /\
                   (wmax x0 (data i j) = x0 \/ wmax x0 (data i j) = data i j)).
      { split; [apply wmax_l|]. split; [apply wmax_r|]. unfold wmax. destruct (wlt x0 (data i j)); auto. }
      destruct M1 as (M1 & M2 & M3). cbn zeta. split; [eapply wle_trans; eauto|]. split.
      + intros i' [<-|Hi']; [eapply wle_trans; eauto|auto].
      + destruct D as [D|(i' & Hi' & D)].
        * rewrite D. destruct M3 as [->| ->]; [auto|]. right. exists i. split; [now left|auto].
        * right. exists i'. split; [now right|auto].
  Qed.

  Definition box_ok (b : build (C := C)) (node s e : nat) : Prop :=
    (forall k j, s <= k < e -> wle (b_lower b node j) (data (b_idx b k) j) = true /\
                               wle (data (b_idx b k) j) (b_upper b node j) = true) /\
    forall j, cnum (b_lower b node j) /\ cnum (b_upper b node j).

  Lemma init_box b node s e : s < e -> box_ok (init_node data b node s e) node s e.
  Proof.
    intros H. set (rows := map (b_idx b) (seq s (e - s))).
    assert (In_rows : forall k, s <= k < e -> In (b_idx b k) rows).
    { intros k Hk. apply in_map, in_seq. lia. }
    split.
    - intros k j Hk. cbn [init_node b_lower b_upper b_idx]. rewrite !upd_eq. fold rows. split.
      + now apply (fold_wmin j rows winf), In_rows.
      + now apply (fold_wmax j rows cneginf), In_rows.
    - intros j. cbn [init_node b_lower b_upper]. rewrite !upd_eq. fold rows. split.
      + destruct (fold_wmin j rows winf) as (_ & B & [D|(i & _ & D)]); rewrite ?D; [|apply data_num].
        exfalso. assert (K := B _ (In_rows s ltac:(lia))). rewrite D in K.
        assert (F := proj2 (cnum_finite _ _ (data_num (b_idx b s) j))). apply wlt_nle in F. congruence.
      + destruct (fold_wmax j rows cneginf) as (_ & B & [D|(i & _ & D)]); rewrite ?D; [|apply data_num].
        exfalso. assert (K := B _ (In_rows s ltac:(lia))). rewrite D in K.
        assert (F := proj1 (cnum_finite _ _ (data_num (b_idx b s) j))). apply wlt_nle in F. congruence.
  Qed.

  Lemma split_dim_range a s e : 0 < n_features -> find_node_split_dim data n_features a s e < n_features.
  Proof.
    intros H. unfold find_node_split_dim.
    match goal with |- snd (fold_left ?f _ _) < _ => set (g := f) end.
    assert (G : forall l best, (forall j, In j l -> j < n_features) -> snd best < n_features ->
              snd (fold_left g l best) < n_features).
    { induction l as [|j l IH]; intros best Hl Hb; cbn [fold_left]; [auto|].
      apply IH; [intros j' Hj'; apply Hl; now right|]. unfold g. cbv zeta.
      destruct (wlt _ _); [cbn [snd]; apply Hl; now left|auto]. }
    apply G; [|auto]. intros j Hj. apply in_seq in Hj. lia.
  Qed.

  (** ** The subtree below a node *)
  Fixpoint subtree (c r : nat) (b : build (C := C)) (s e node : nat) : Prop :=
    b_start b node = s /\ b_end b node = e /\ s < e /\ box_ok b node s e /\
    match r with
    | 0 => b_leaf b node = true /\ e - s <= c
    | S r' =>
        b_leaf b node = false /\
        (exists axis, (0 < n_features -> axis < n_features) /\
           split_at data axis s (s + (e - s) / 2) e (b_idx b)) /\
        subtree c r' b s (s + (e - s) / 2) (2 * node + 1) /\
        subtree c r' b (s + (e - s) / 2) e (2 * node + 2)
    end.

  Definition same_node (b b' : build (C := C)) (k : nat) : Prop :=
    b_start b' k = b_start b k /\ b_end b' k = b_end b k /\ b_leaf b' k = b_leaf b k /\
    b_lower b' k = b_lower b k /\ b_upper b' k = b_upper b k.

  Lemma same_node_trans b b' b'' k : same_node b b' k -> same_node b' b'' k -> same_node b b'' k.
  Proof. unfold same_node. intuition congruence. Qed.

  Lemma subtree_frame c b b' : forall r s e node,
    (forall k, in_sub r node k -> same_node b b' k) ->
    (forall i, s <= i < e -> b_idx b' i = b_idx b i) ->
    subtree c r b s e node -> subtree c r b' s e node.
  Proof.
    induction r as [|r IH]; intros s e node Hn Hi H; cbn [subtree] in *;
      destruct H as (A1 & A2 & A3 & [A4 A5] & A6);
      destruct (Hn node (in_sub_self _ _)) as (N1 & N2 & N3 & N4 & N5);
      (split; [congruence|]; split; [congruence|]; split; [auto|]; split;
       [split; [intros k j Hk; rewrite N4, N5, Hi by lia; auto|intros j; rewrite N4, N5; auto]|]).
    - rewrite N3. exact A6.
    - destruct A6 as (B1 & (axis & Hax & B2) & B3 & B4).
      assert (Hm : (e - s) / 2 <= e - s) by (apply Nat.div_le_upper_bound; lia).
      split; [congruence|]. split; [|split].
      + exists axis. split; [auto|]. intros i j Hi' Hj. rewrite !Hi by lia. now apply B2.
      + apply IH; auto; [|intros; apply Hi; lia]. intros k Hk. apply Hn. right. now left.
      + apply IH; auto; [|intros; apply Hi; lia]. intros k Hk. apply Hn. right. now right.
  Qed.

  Lemma recursive_build_ok c n_nodes L : n_nodes = 2 ^ L - 1 ->
    forall r d fuel b s e node,
    2 ^ d <= node + 1 < 2 ^ (d + 1) -> d + r + 1 = L -> r <= fuel ->
    2 ^ r <= e - s -> e - s <= 2 ^ r * c ->
    exists b', recursive_build data n_features fuel n_nodes b s e node = Ok b' /\
      rearranged s e (b_idx b) (b_idx b') /\
      (forall k, ~ in_sub r node k -> same_node b b' k) /\
      subtree c r b' s e node.
  Proof.
    intros HN. induction r as [|r IH]; intros d fuel b s e node Hd HL Hf Hlo Hhi.
    - assert (E : recursive_build data n_features fuel n_nodes b s e node
                  = Ok (set_leaf (init_node data b node s e) node true)).
      { destruct fuel; cbn [recursive_build]; cbv zeta; (destruct (Nat.leb_spec n_nodes (2 * node + 1)) as [|N]; [auto|]);
        exfalso; rewrite HN in N; replace L with (d + 1) in N by lia; rewrite (Nat.add_1_r d) in N, Hd; rewrite Nat.pow_succ_r' in N, Hd; lia. }
      rewrite E. eexists. split; [reflexivity|]. split; [apply rearranged_refl|]. simpl in Hlo, Hhi.
      split.
      + intros k Hk. assert (k <> node) by (intros ->; apply Hk, in_sub_self).
        unfold same_node. cbn. rewrite !upd_neq by auto. auto.
      + cbn [subtree]. split; [cbn; apply upd_eq|]. split; [cbn; apply upd_eq|]. split; [lia|].
        split; [exact (init_box b node s e ltac:(lia))|]. split; [cbn; apply upd_eq|lia].
    - destruct fuel as [|fuel]; [lia|]. cbn [recursive_build]. cbv zeta.
      rewrite Nat.pow_succ_r' in Hlo, Hhi.
      assert (P1 : 1 <= 2 ^ r) by (apply Nat.neq_0_lt_0, Nat.pow_nonzero; lia).
      destruct (Nat.leb_spec n_nodes (2 * node + 1)) as [N|N].
      { exfalso. rewrite HN in N. replace L with (d + 1 + S r) in N by lia.
        rewrite Nat.pow_add_r, Nat.pow_succ_r' in N. nia. }
      destruct (Nat.ltb_spec (e - s) 2) as [N2|N2]; [lia|].
      assert (Hm := Nat.div_mod (e - s) 2 ltac:(lia)). assert (Hm2 := Nat.mod_upper_bound (e - s) 2 ltac:(lia)).
      set (m := (e - s) / 2) in *. set (b0 := set_leaf (init_node data b node s e) node false) in *.
      set (axis := find_node_split_dim data n_features (b_idx b0) s e).
      destruct (introselect_ok data axis (b_idx b0) s e (s + m) ltac:(lia)) as (a & Ea & Ra & Sa).
      rewrite Ea. cbn [bind].
      assert (Hd2 : 2 ^ (d + 1) <= 2 * node + 2 < 2 ^ (d + 1 + 1) /\ 2 ^ (d + 1) <= 2 * node + 3 < 2 ^ (d + 1 + 1)).
      { rewrite !Nat.add_1_r, !Nat.pow_succ_r' in *. lia. }
      destruct (IH (d + 1) fuel (set_idx b0 a) s (s + m) (2 * node + 1)) as (b1 & E1 & R1 & F1 & T1); try nia.
      rewrite E1. cbn [bind].
      destruct (IH (d + 1) fuel b1 (s + m) e (2 * node + 2)) as (b2 & E2 & R2 & F2 & T2); try nia.
      rewrite E2. exists b2. split; [reflexivity|]. cbn [set_idx b_idx] in R1.
      assert (R1' : rearranged s e a (b_idx b1)) by (eapply rearranged_wider; [| | |exact R1]; lia).
      assert (R2' : rearranged s e (b_idx b1) (b_idx b2)) by (eapply rearranged_wider; [| | |exact R2]; lia).
      assert (R12 : rearranged s e a (b_idx b2)) by (eapply rearranged_trans; eauto).
      assert (R : rearranged s e (b_idx b0) (b_idx b2)) by (eapply rearranged_trans; eauto).
      assert (Up : forall k, ~ in_sub r (2 * node + 1) k -> ~ in_sub r (2 * node + 2) k -> same_node b0 b2 k).
      { intros k K1 K2. eapply same_node_trans; [|apply F2; auto]. exact (F1 k K1). }
      assert (Own : same_node b0 b2 node).
      { apply Up; intros K; apply in_sub_above in K; lia. }
      split; [exact R|]. split.
      + intros k Hk. cbn [in_sub] in Hk. eapply same_node_trans; [|apply Up; tauto].
        assert (k <> node) by tauto. unfold same_node, b0. cbn. rewrite !upd_neq by auto. auto.
      + cbn [subtree]. destruct Own as (N1 & N2' & N3 & N4 & N5).
        split; [rewrite N1; apply upd_eq|]. split; [rewrite N2'; apply upd_eq|]. split; [lia|]. split.
        { destruct (init_box b node s e ltac:(lia)) as [B1 B2]. split.
          - intros k j Hk. rewrite N4, N5.
            apply (rearranged_all (fun x => wle (b_lower b0 node j) (data x j) = true /\
                                            wle (data x j) (b_upper b0 node j) = true) s e _ _ R); [|lia].
            intros k' Hk'. apply (B1 k' j Hk').
          - intros j. rewrite N4, N5. apply B2. }
        fold m. split; [rewrite N3; apply upd_eq|]. split; [|split; [|exact T2]].
        * exists axis. split; [apply split_dim_range|]. intros i j Hi Hj.
          assert (B1 : b_idx b2 i = b_idx b1 i) by (apply R2; lia). rewrite B1.
          apply (rearranged_all (fun x => precedes data axis (b_idx b1 i) x) (s + m) e _ _ R2); [|lia].
          intros k Hk. assert (B2 : b_idx b1 k = a k) by (apply R1; lia). rewrite B2.
          apply (rearranged_all (fun x => precedes data axis x (a k)) s (s + m) _ _ R1); [|lia].
          intros k' Hk'. apply Sa; lia.
        * apply (subtree_frame c b1); auto.
          -- intros k Hk. apply F2. intros K. eapply in_sub_disjoint; eauto.
          -- intros i Hi. apply R2. lia.
  Qed.

  Lemma subtree_nodes c b : forall r s e node k, subtree c r b s e node -> in_sub r node k ->
    s <= b_start b k /\ b_start b k < b_end b k /\ b_end b k <= e /\
    box_ok b k (b_start b k) (b_end b k) /\
    (b_leaf b k = true -> b_end b k - b_start b k <= c) /\
    (b_leaf b k = false ->
       in_sub r node (2 * k + 2) /\
       b_start b (2 * k + 1) = b_start b k /\
       b_end b (2 * k + 1) = b_start b k + (b_end b k - b_start b k) / 2 /\
       b_end b (2 * k + 1) = b_start b (2 * k + 2) /\
       b_end b (2 * k + 2) = b_end b k /\
       exists axis, (0 < n_features -> axis < n_features) /\
         split_at data axis (b_start b k) (b_end b (2 * k + 1)) (b_end b k) (b_idx b)).
  Proof.
    assert (Fst : forall r s e node, subtree c r b s e node -> b_start b node = s /\ b_end b node = e).
    { intros r s e node H. destruct r; cbn [subtree] in H; tauto. }
    induction r as [|r IH]; intros s e node k H Hk; cbn [in_sub] in Hk.
    - destruct Hk as [->|[]]. cbn [subtree] in H. destruct H as (-> & -> & A3 & A4 & A5 & A6).
      split; [lia|]. split; [lia|]. split; [lia|]. split; [auto|]. split; [auto|congruence].
    - assert (H' := H). cbn [subtree] in H. destruct H as (A1 & A2 & A3 & A4 & A5 & A6 & A7 & A8).
      assert (Hm : (e - s) / 2 <= e - s) by (apply Nat.div_le_upper_bound; lia).
      destruct Hk as [->|[Hk|Hk]].
      + rewrite A1, A2. split; [lia|]. split; [lia|]. split; [lia|]. split; [auto|].
        split; [congruence|]. intros _. destruct (Fst _ _ _ _ A7) as [-> ->], (Fst _ _ _ _ A8) as [-> ->].
        split; [right; right; apply in_sub_self|]. split; [auto|]. split; [auto|]. split; [auto|]. split; auto.
      + destruct (IH _ _ _ k A7 Hk) as (B1 & B2 & B3 & B4 & B5 & B6).
        split; [lia|]. split; [lia|]. split; [lia|]. split; [auto|]. split; [auto|].
        intros Hl. destruct (B6 Hl) as (D1 & D2). split; [right; left; exact D1|exact D2].
      + destruct (IH _ _ _ k A8 Hk) as (B1 & B2 & B3 & B4 & B5 & B6).
        split; [lia|]. split; [lia|]. split; [lia|]. split; [auto|]. split; [auto|].
        intros Hl. destruct (B6 Hl) as (D1 & D2). split; [right; right; exact D1|exact D2].
  Qed.

  Lemma subtree_leaf c b k : forall r s e node, subtree c r b s e node -> s <= k < e ->
    exists leaf, (in_sub r node leaf /\ b_leaf b leaf = true /\ b_start b leaf <= k < b_end b leaf) /\
      forall leaf', in_sub r node leaf' -> b_leaf b leaf' = true -> b_start b leaf' <= k < b_end b leaf' -> leaf' = leaf.
  Proof.
    induction r as [|r IH]; intros s e node H Hk; assert (H' := H); cbn [subtree] in H.
    - destruct H as (A1 & A2 & A3 & A4 & A5 & A6). exists node. split.
      + split; [apply in_sub_self|]. split; [auto|lia].
      + intros leaf' [->|[]]; auto.
    - destruct H as (A1 & A2 & A3 & A4 & A5 & A6 & A7 & A8).
      destruct (le_lt_dec (s + (e - s) / 2) k) as [L|L].
      + destruct (IH _ _ _ A8 ltac:(lia)) as (leaf & (B1 & B2) & B3). exists leaf. split.
        * split; [right; right; exact B1|exact B2].
        * intros leaf' [->|[I|I]] Hl Hr; [congruence| |now apply B3].
          destruct (subtree_nodes c b _ _ _ _ _ A7 I) as (D1 & D2 & D3 & _). lia.
      + destruct (IH _ _ _ A7 ltac:(lia)) as (leaf & (B1 & B2) & B3). exists leaf. split.
        * split; [right; left; exact B1|exact B2].
        * intros leaf' [->|[I|I]] Hl Hr; [congruence|now apply B3|].
          destruct (subtree_nodes c b _ _ _ _ _ A8 I) as (D1 & D2 & D3 & _). lia.
  Qed.

  (** ** The whole tree *)
  Lemma levels_bounds n leaf_size : 0 < n -> 0 < leaf_size ->
    exists r, tree_levels n leaf_size = r + 1 /\ 2 ^ r <= n /\ n <= 2 ^ r * (2 * leaf_size).
  Proof.
    intros Hn Hl. exists (Nat.log2 (max 1 ((n - 1) / leaf_size))). split; [reflexivity|].
    set (x := (n - 1) / leaf_size).
    assert (Sp := Nat.log2_spec (max 1 x) ltac:(lia)). rewrite Nat.pow_succ_r' in Sp.
    assert (D := Nat.div_mod (n - 1) leaf_size ltac:(lia)). fold x in D.
    assert (M := Nat.mod_upper_bound (n - 1) leaf_size ltac:(lia)).
    set (p := 2 ^ Nat.log2 (max 1 x)) in *. split.
    - destruct (Nat.eq_dec x 0) as [E|E]; [rewrite E in *; simpl in *; lia|].
      assert (x <= n - 1) by nia. lia.
    - assert (x + 1 <= 2 * p) by lia. nia.
  Qed.

  Lemma build_kdtree_tree n leaf_size : 0 < n -> 0 < leaf_size ->
    exists N b r, build_kdtree data n_features n leaf_size = Ok (N, b) /\ N = 2 ^ (r + 1) - 1 /\
      rearranged 0 n (fun i => i) (b_idx b) /\ subtree (2 * leaf_size) r b 0 n 0.
  Proof.
    intros Hn Hl. destruct (levels_bounds n leaf_size Hn Hl) as (r & E & R1 & R2).
    unfold build_kdtree. destruct (Nat.ltb_spec leaf_size 1); [lia|]. rewrite E.
    set (N := 2 ^ (r + 1) - 1).
    assert (Hr : r <= N).
    { assert (K := Nat.pow_gt_lin_r 2 (r + 1) ltac:(lia)). unfold N. lia. }
    match goal with |- context [recursive_build _ _ _ _ ?B _ _ _] => set (b0 := B) end.
    destruct (recursive_build_ok (2 * leaf_size) N (r + 1) eq_refl r 0 N b0 0 n 0)
      as (b & Eb & R & _ & T); try (simpl; lia).
    rewrite Eb. cbn [bind]. exists N, b, r. auto.
  Qed.

  Lemma build_kdtree_ok n leaf_size : 0 < n -> 0 < leaf_size ->
    exists N b, build_kdtree data n_features n leaf_size = Ok (N, b) /\
      tree_shape (tree_of (N, b)) n /\
      boxes_contain data n_features (tree_of (N, b)) (b_lower b) (b_upper b) /\
      (forall node j, node < N -> cnum (b_lower b node j) /\ cnum (b_upper b node j)) /\
      (0 < n_features -> median_splits data n_features (tree_of (N, b))) /\
      leaves_hold_at_most (2 * leaf_size) (tree_of (N, b)).
  Proof.
    intros Hn Hl. destruct (build_kdtree_tree n leaf_size Hn Hl) as (N & b & r & E & EN & R & T).
    exists N, b. split; [exact E|].
    assert (In_ : forall k, k < N -> in_sub r 0 k) by (intros k Hk; apply in_sub_root; lia).
    assert (Root : b_start b 0 = 0 /\ b_end b 0 = n) by (destruct r; cbn [subtree] in T; tauto).
    assert (Node : forall k, k < N -> _) by (intros k Hk; exact (subtree_nodes _ b r 0 n 0 k T (In_ k Hk))).
    assert (Hp : 1 <= 2 ^ r) by (apply Nat.neq_0_lt_0, Nat.pow_nonzero; lia).
    split; [|split; [|split; [|split]]].
    - split; cbn [tree_of t_nodes t_start t_end t_leaf t_idx fst snd].
      + rewrite EN, Nat.add_1_r, Nat.pow_succ_r'. lia.
      + exact Root.
      + intros k Hk. apply Node. exact Hk.
      + intros k Hk. apply Node. exact Hk.
      + intros k Hk Hf. destruct (Node k Hk) as (_ & _ & _ & _ & _ & K).
        destruct (K Hf) as (K1 & K2 & K3 & K4 & K5 & _). split; [|auto].
        apply in_sub_bounds in K1. destruct K1 as (q & Hq & K1).
        assert (2 ^ q <= 2 ^ r) by (apply Nat.pow_le_mono_r; lia).
        rewrite EN, Nat.add_1_r, Nat.pow_succ_r'. lia.
      + destruct R as [_ R]. rewrite Nat.sub_0_r, map_id in R. exact R.
    - intros node k j Hn' Hk Hj. cbn [tree_of t_nodes t_start t_end t_idx fst snd] in *.
      destruct (Node node Hn') as (_ & _ & _ & [K _] & _). now apply K.
    - intros node j Hn'. destruct (Node node Hn') as (_ & _ & _ & [_ K] & _). apply K.
    - intros Hf node Hn' Hlf. cbn [tree_of t_nodes t_start t_end t_leaf t_idx fst snd] in *.
      destruct (Node node Hn') as (_ & _ & _ & _ & _ & K).
      destruct (K Hlf) as (K1 & K2 & K3 & K4 & K5 & axis & K6 & K7). split; [auto|].
      exists axis. split; auto.
    - intros node Hn' Hlf. destruct (Node node Hn') as (_ & _ & _ & _ & K & _). now apply K.
  Qed.

  Lemma build_kdtree_leaves n leaf_size N b : 0 < n -> 0 < leaf_size ->
    build_kdtree data n_features n leaf_size = Ok (N, b) ->
    each_sample_in_one_leaf n (tree_of (N, b)).
  Proof.
    intros Hn Hl E. destruct (build_kdtree_tree n leaf_size Hn Hl) as (N' & b' & r & E' & EN & R & T).
    rewrite E in E'. injection E' as <- <-. intros q Hq.
    destruct R as [_ R]. rewrite Nat.sub_0_r, map_id in R.
    assert (I : In q (map (b_idx b) (seq 0 n))).
    { eapply Permutation_in; [symmetry; exact R|]. apply in_seq. lia. }
    apply in_map_iff in I. destruct I as (k & Ek & Hk). apply in_seq in Hk.
    destruct (subtree_leaf _ b k r 0 n 0 T ltac:(lia)) as (leaf & (A1 & A2 & A3) & U).
    assert (Lt : forall x, in_sub r 0 x -> x < N).
    { intros x Hx. apply in_sub_bounds in Hx. destruct Hx as (q' & Hq' & Hx).
      assert (2 ^ q' <= 2 ^ r) by (apply Nat.pow_le_mono_r; lia).
      rewrite EN, Nat.add_1_r, Nat.pow_succ_r'. lia. }
    exists leaf. split.
    - split; [apply Lt; exact A1|]. split; [exact A2|]. exists k. auto.
    - intros leaf' (B1 & B2 & k' & B3 & B4). symmetry. cbn [tree_of t_nodes t_start t_end t_leaf t_idx fst snd] in *.
      assert (I' : in_sub r 0 leaf') by (apply in_sub_root; lia).
      apply U; auto. replace k with k'; [exact B3|].
      destruct (subtree_nodes _ b r 0 n 0 leaf' T I') as (D1 & D2 & D3 & _).
      assert (ND : NoDup (map (b_idx b) (seq 0 n))).
      { eapply Permutation_NoDup; [symmetry; exact R|]. apply seq_NoDup. }
      rewrite (NoDup_nth _ 0) in ND. rewrite map_length, seq_length in ND.
      assert (G : forall x, x < n -> nth x (map (b_idx b) (seq 0 n)) 0 = b_idx b x).
      { intros x Hx. rewrite (nth_indep _ 0 (b_idx b 0)) by (rewrite map_length, seq_length; lia).
        rewrite map_nth, seq_nth by lia. reflexivity. }
      apply ND; try lia. rewrite !G by lia. congruence.
  Qed.

  (** ** Lower bounds *)
  Lemma square_pos (x : C) : wle czero x = true -> wle czero (cmul x x) = true.
  Proof.
    intros H. eapply wle_trans; [exact (proj2 (csquare_zero C))|].
    apply csquare_mono; [apply wle_refl|exact H].
  Qed.

  Lemma diff_square_pos (a b : C) : cnum a -> cnum b -> wle czero (cmul (csub a b) (csub a b)) = true.
  Proof.
    intros Ha Hb. destruct (wle_total _ a b) as [H|H].
    - rewrite csquare_sym by auto. apply square_pos. now apply csub_pos.
    - apply square_pos. now apply csub_pos.
  Qed.

  Lemma sum_mono (f g : nat -> C) : forall l x y,
    (forall i, In i l -> wle czero (f i) = true /\ wle (f i) (g i) = true) ->
    wle czero x = true -> wle x y = true ->
    wle (fold_left (fun r i => cadd r (f i)) l x) (fold_left (fun r i => cadd r (g i)) l y) = true.
  Proof.
    induction l as [|i l IH]; intros x y H Hx Hxy; cbn [fold_left]; [auto|].
    destruct (H i (or_introl eq_refl)) as [Hf Hfg].
    apply IH; [intros i' Hi'; apply H; now right| |].
    - eapply wle_trans; [exact Hx|]. eapply wle_trans; [exact (proj2 (cadd_zero_r C x Hx))|].
      apply cadd_mono; auto; try apply wle_refl.
    - now apply cadd_mono.
  Qed.

  Lemma axis_bound (lo hi p x : C) : cnum lo -> cnum hi -> cnum p -> cnum x ->
    wle lo x = true -> wle x hi = true ->
    let d := cadd (if wlt p lo then csub lo p else czero) (if wlt hi p then csub p hi else czero) in
    wle czero (cmul d d) = true /\ wle (cmul d d) (cmul (csub p x) (csub p x)) = true.
  Proof.
    intros Nlo Nhi Np Nx H1 H2.
    assert (G : forall d y : C, wle czero d = true -> wle d y = true ->
              wle czero (cmul d d) = true /\ wle (cmul d d) (cmul y y) = true).
    { intros d y Hd Hy. split; [now apply square_pos|now apply csquare_mono]. }
    destruct (wlt p lo) eqn:E1.
    - apply wlt_le in E1. assert (Px : wle p x = true) by (eapply wle_trans; eauto).
      assert (E2 : wlt hi p = false). { apply wlt_false. eapply wle_trans; eauto. }
      rewrite E2. cbv zeta. rewrite (csquare_sym C p x) by auto.
      assert (P := csub_pos C p lo Np Nlo E1). destruct (cadd_zero_r C _ P) as [Z1 Z2].
      apply G; [eapply wle_trans; eauto|]. eapply wle_trans; [exact Z1|]. now apply csub_mono.
    - destruct (wlt hi p) eqn:E2; cbv zeta.
      + apply wlt_le in E2. assert (P := csub_pos C hi p Nhi Np E2). destruct (cadd_zero_l C _ P) as [Z1 Z2].
        apply G; [eapply wle_trans; eauto|]. eapply wle_trans; [exact Z1|]. now apply csub_anti.
      + destruct (cadd_zero_l C czero (wle_refl _)) as [Z1 Z2].
        destruct (wle_total _ p x) as [H|H].
        * rewrite (csquare_sym C p x) by auto. apply G; [auto|]. eapply wle_trans; [exact Z1|]. now apply csub_pos.
        * apply G; [auto|]. eapply wle_trans; [exact Z1|]. now apply csub_pos.
  Qed.

  Lemma point_bound lower upper p x :
    (forall j, j < n_features -> cnum (lower j) /\ cnum (upper j) /\
       wle (lower j) (data x j) = true /\ wle (data x j) (upper j) = true) ->
    wle (point_to_node_lower_bound n_features lower upper (data p))
        (rdist n_features (data p) (data x)) = true.
  Proof.
    intros H. unfold point_to_node_lower_bound, rdist. cbv zeta.
    match goal with |- wle (fold_left (fun r1 i1 => cadd r1 (@?f i1)) _ _) (fold_left (fun r2 i2 => cadd r2 (@?g i2)) _ _) = _ =>
      apply (sum_mono f g) end; try apply wle_refl.
    intros j Hj. apply in_seq in Hj. destruct (H j ltac:(lia)) as (A & B & D & E).
    now apply axis_bound.
  Qed.

  Lemma rdist_sym i j : sample_rdist data n_features i j = sample_rdist data n_features j i.
  Proof.
    unfold sample_rdist, rdist. cbv zeta. generalize (@czero C).
    induction (seq 0 n_features) as [|k l IH]; intros x; cbn [fold_left]; [auto|].
    rewrite csquare_sym by auto. apply IH.
  Qed.

  Lemma rdist_pos i j : wle czero (sample_rdist data n_features i j) = true.
  Proof.
    unfold sample_rdist, rdist. cbv zeta.
    assert (G : forall l (x : C), wle czero x = true ->
      wle czero (fold_left (fun r k => cadd r (cmul (csub (data i k) (data j k)) (csub (data i k) (data j k)))) l x) = true).
    { induction l as [|k l IH]; intros x Hx; cbn [fold_left]; [auto|]. apply IH.
      eapply wle_trans; [exact Hx|]. eapply wle_trans; [exact (proj2 (cadd_zero_r C x Hx))|].
      apply cadd_mono; auto; try apply wle_refl. now apply diff_square_pos. }
    apply G, wle_refl.
  Qed.

  Lemma rdist_self i : wle (sample_rdist data n_features i i) czero = true.
  Proof.
    unfold sample_rdist, rdist. cbv zeta.
    assert (Z : forall k, wle (cmul (csub (data i k) (data i k)) (csub (data i k) (data i k))) czero = true).
    { intros k. eapply wle_trans; [|exact (proj1 (csquare_zero C))].
      apply csquare_mono; [apply csub_pos; auto; apply wle_refl|now apply csub_self]. }
    assert (G : forall l (x : C), wle czero x = true -> wle x czero = true ->
      wle (fold_left (fun r k => cadd r (cmul (csub (data i k) (data i k)) (csub (data i k) (data i k)))) l x) czero = true).
    { induction l as [|k l IH]; intros x Hx Hx0; cbn [fold_left]; [auto|]. apply IH.
      - eapply wle_trans; [exact Hx|]. eapply wle_trans; [exact (proj2 (cadd_zero_r C x Hx))|].
        apply cadd_mono; auto; try apply wle_refl. now apply diff_square_pos.
      - eapply wle_trans; [|exact (proj1 (cadd_zero_r C czero (wle_refl _)))].
        apply cadd_mono; auto. now apply diff_square_pos. }
    apply G; apply wle_refl.
  Qed.

  Lemma build_lower_bounds n leaf_size N b : 0 < n -> 0 < leaf_size ->
    build_kdtree data n_features n leaf_size = Ok (N, b) ->
    tree_shape (tree_of (N, b)) n /\
    lower_bounds (tree_of (N, b)) (sample_rdist data n_features) (node_bound data n_features b).
  Proof.
    intros Hn Hl E. destruct (build_kdtree_ok n leaf_size Hn Hl) as (N' & b' & E' & Sh & Bx & Nm & _).
    rewrite E in E'. injection E' as <- <-. split; [exact Sh|].
    intros p node q Hnode (k & Hk & <-). apply point_bound. intros j Hj.
    destruct (Nm node j Hnode) as [A B]. split; [auto|]. split; [auto|]. now apply Bx.
  Qed.

  Lemma build_kdtree_accepts n leaf_size : 0 < n ->
    (build_kdtree data n_features n leaf_size = Err ValueError <-> leaf_size < 1) /\
    ((exists t, build_kdtree data n_features n leaf_size = Ok t) <-> 1 <= leaf_size).
  Proof.
    intro Hn. destruct (Nat.ltb_spec leaf_size 1) as [Hl|Hl].
    - assert (E : build_kdtree data n_features n leaf_size = Err ValueError).
      { unfold build_kdtree. apply Nat.ltb_lt in Hl. rewrite Hl. auto. }
      split; [split; auto|]. split; [intros (t & E'); congruence|lia].
    - destruct (build_kdtree_ok n leaf_size Hn Hl) as (N & b & E & _). rewrite E.
      split; [split; [discriminate|lia]|]. split; eauto.
  Qed.
End Boxes.
