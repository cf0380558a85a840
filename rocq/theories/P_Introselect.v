(** Proofs about the in-place selection used to split nodes. *)
From Coq Require Import List Arith Lia Bool Permutation.
From Verif Require Import Prelude Order Coord M_TreeQuery M_KDTree S_KDTree.
Import ListNotations.

(** ** Rearranging *)
Lemma rearranged_refl s e a : rearranged s e a a.
Proof. split; auto. Qed.

Lemma rearranged_trans s e a b c : rearranged s e a b -> rearranged s e b c -> rearranged s e a c.
Proof.
  intros [A1 A2] [B1 B2]. split.
  - intros k Hk. now rewrite B1, A1.
  - etransitivity; eauto.
Qed.

Lemma rearranged_ext s e a b b' : (forall k, b k = b' k) -> rearranged s e a b -> rearranged s e a b'.
Proof.
  intros E [A1 A2]. split.
  - intros k Hk. rewrite <- E. auto.
  - rewrite <- (map_ext _ _ E). exact A2.
Qed.

Lemma rearranged_ext_l s e a a' b : (forall k, a k = a' k) -> rearranged s e a b -> rearranged s e a' b.
Proof.
  intros E [A1 A2]. split.
  - intros k Hk. rewrite <- E. auto.
  - rewrite <- (map_ext _ _ E). exact A2.
Qed.

Lemma rearranged_wider s e s' e' a b : s' <= s -> e <= e' -> s <= e -> rearranged s e a b -> rearranged s' e' a b.
Proof.
  intros H1 H2 H3 [A1 A2]. split.
  - intros k Hk. apply A1. lia.
  - replace (e' - s') with ((s - s') + ((e - s) + (e' - e))) by lia.
    rewrite !seq_app, !map_app. replace (s' + (s - s')) with s by lia. replace (s + (e - s)) with e by lia.
    apply Permutation_app; [|apply Permutation_app; [exact A2|]].
    + erewrite map_ext_in; [reflexivity|]. intros k Hk. apply in_seq in Hk. apply A1. lia.
    + erewrite map_ext_in; [reflexivity|]. intros k Hk. apply in_seq in Hk. apply A1. lia.
Qed.

Lemma rearranged_all (P : nat -> Prop) s e a b : rearranged s e a b ->
  (forall k, s <= k < e -> P (a k)) -> forall k, s <= k < e -> P (b k).
Proof.
  intros [_ A] H k Hk. assert (I : In (b k) (map a (seq s (e - s)))).
  { eapply Permutation_in; [exact A|]. apply in_map. apply in_seq. lia. }
  apply in_map_iff in I. destruct I as (k' & <- & Hk'). apply in_seq in Hk'. apply H. lia.
Qed.

Lemma upd_split (a : nat -> nat) i x s e : s <= i < e ->
  Permutation (a i :: map (upd a i x) (seq s (e - s))) (x :: map a (seq s (e - s))).
Proof.
  intros H. replace (e - s) with ((i - s) + (1 + (e - i - 1))) by lia.
  rewrite !seq_app, !map_app. replace (s + (i - s)) with i by lia. cbn [seq map app].
  rewrite upd_eq.
  assert (Out : forall a0 m, (i < a0 \/ a0 + m <= i) -> map (upd a i x) (seq a0 m) = map a (seq a0 m)).
  { intros a0 m Hm. apply map_ext_in. intros j Hj. apply in_seq in Hj. apply upd_neq. lia. }
  rewrite !Out by lia.
  transitivity (a i :: x :: map a (seq s (i - s)) ++ map a (seq (i + 1) (e - i - 1))).
  - apply perm_skip. symmetry. apply Permutation_middle.
  - etransitivity; [apply perm_swap|]. apply perm_skip. apply Permutation_middle.
Qed.

Lemma swap_rearranged s e a i j : s <= i < e -> s <= j < e -> rearranged s e a (swap a i j).
Proof.
  intros Hi Hj. unfold swap. split.
  - intros k Hk. rewrite !upd_neq by lia. reflexivity.
  - destruct (Nat.eq_dec i j) as [<-|N].
    + erewrite map_ext; [reflexivity|]. intros k. unfold upd. destruct (Nat.eqb_spec k i) as [->|]; auto.
    + assert (P1 := upd_split (upd a i (a j)) j (a i) s e Hj).
      assert (P2 := upd_split a i (a j) s e Hi).
      rewrite upd_neq in P1 by auto.
      apply Permutation_cons_inv with (a := a j). etransitivity; [exact P1|exact P2].
Qed.

Lemma swap_at a i j k : swap a i j k = if k =? j then a i else if k =? i then a j else a k.
Proof. reflexivity. Qed.

Section Select.
  Context {C : Coord}.
  Variables (data : nat -> nat -> C) (axis : nat).
  Notation before := (before data axis).
  Notation after := (after data axis).
  Notation precedes := (precedes data axis).

  Lemma before_spec i j : before i j = true <->
    wlt (data i axis) (data j axis) = true \/ (wle (data i axis) (data j axis) = true /\ i < j).
  Proof.
    unfold M_KDTree.before, compare_indices.
    destruct (wlt (data i axis) (data j axis)) eqn:E1.
    - split; auto.
    - destruct (wlt (data j axis) (data i axis)) eqn:E2.
      + split; [discriminate|]. intros [|[H _]]; [discriminate|]. apply wlt_nle in E2. congruence.
      + apply wlt_false in E2.
        destruct (Nat.ltb_spec i j); [split; auto|].
        destruct (Nat.ltb_spec j i); (split; [discriminate|intros [|[_ K]]; [discriminate|lia]]).
  Qed.

  Lemma after_before i j : after i j = before j i.
  Proof.
    unfold M_KDTree.before, M_KDTree.after, compare_indices.
    destruct (wlt (data i axis) (data j axis)) eqn:E1, (wlt (data j axis) (data i axis)) eqn:E2; auto.
    - apply wlt_nle in E1. apply wlt_le in E2. congruence.
    - destruct (Nat.ltb_spec i j), (Nat.ltb_spec j i); auto; lia.
  Qed.

  Lemma precedes_before i j : precedes i j <-> before j i = false.
  Proof.
    rewrite <- not_true_iff_false, before_spec. unfold S_KDTree.precedes. split.
    - intros [H|[H1 H2]] [K|[K1 K2]].
      + apply wlt_nle in H. apply wlt_le in K. congruence.
      + apply wlt_nle in H. congruence.
      + apply wlt_nle in K. congruence.
      + lia.
    - intros H. destruct (wlt (data i axis) (data j axis)) eqn:E; [auto|right].
      apply wlt_false in E.
      destruct (wle (data i axis) (data j axis)) eqn:E2.
      + split; [auto|]. destruct (le_lt_dec i j); [auto|]. exfalso. apply H. auto.
      + exfalso. apply H. left. now apply wlt_nle.
  Qed.

  Lemma precedes_refl i : precedes i i.
  Proof. right. split; [apply wle_refl|auto]. Qed.

  Lemma precedes_trans i j k : precedes i j -> precedes j k -> precedes i k.
  Proof.
    intros [H|[H1 H2]] [K|[K1 K2]].
    - left. eapply wlt_le_trans; [exact H|]. now apply wlt_le.
    - left. eapply wlt_le_trans; eauto.
    - left. eapply wle_lt_trans; eauto.
    - right. split; [eapply wle_trans; eauto|lia].
  Qed.

  Lemma before_precedes i j : before i j = true -> precedes i j.
  Proof. rewrite before_spec. intros [H|[H K]]; [now left|right; split; [auto|lia]]. Qed.

  (** ** Insertion sort *)
  Definition sorted_on (s e : nat) (a : nat -> nat) : Prop :=
    forall i j, s <= i < j -> j < e -> precedes (a i) (a j).

  Lemma insert_rearranged left key j1 : forall a, left <= j1 ->
    rearranged left (j1 + 1) (upd a j1 key) (insert_loop data axis left key a j1).
  Proof.
    induction j1 as [|j IH]; intros a H; cbn [insert_loop]; [apply rearranged_refl|].
    destruct (Nat.leb_spec left j) as [Hl|Hl]; cbn [andb]; [|apply rearranged_refl].
    destruct (after (a j) key); [|apply rearranged_refl].
    eapply rearranged_trans; [|eapply rearranged_wider; [| | |apply IH; auto]; lia].
    eapply rearranged_ext; [|apply (swap_rearranged _ _ _ (S j) j); lia].
    intros k. rewrite swap_at. unfold upd.
    destruct (Nat.eqb_spec k j) as [->|N1].
    - now rewrite Nat.eqb_refl.
    - destruct (Nat.eqb_spec k (S j)) as [->|N2]; [|auto]. destruct (Nat.eqb_spec j (S j)); [lia|auto].
  Qed.

  Lemma insert_sorted left key j1 : forall a, left <= j1 ->
    exists p, left <= p <= j1 /\ insert_loop data axis left key a j1 p = key /\
      (forall k, left <= k < p -> insert_loop data axis left key a j1 k = a k) /\
      (forall k, p <= k < j1 -> insert_loop data axis left key a j1 (S k) = a k) /\
      (left < p -> after (a (p - 1)) key = false) /\
      (forall k, p <= k < j1 -> after (a k) key = true).
  Proof.
    induction j1 as [|j IH]; intros a H; cbn [insert_loop].
    - exists 0. split; [lia|]. split; [apply upd_eq|]. repeat split; intros; lia.
    - destruct (Nat.leb_spec left j) as [Hl|Hl]; cbn [andb].
      + destruct (after (a j) key) eqn:E.
        * destruct (IH (upd a (S j) (a j)) Hl) as (p & P1 & P2 & P3 & P4 & P5 & P6).
          exists p. split; [lia|]. split; [exact P2|]. split; [|split; [|split]].
          -- intros k Hk. rewrite P3 by lia. apply upd_neq. lia.
          -- intros k Hk. destruct (Nat.eq_dec k j) as [->|N].
             ++ assert (R := insert_rearranged left key j (upd a (S j) (a j)) Hl). destruct R as [R _].
                rewrite R by lia. rewrite upd_neq by lia. apply upd_eq.
             ++ rewrite P4 by lia. apply upd_neq. lia.
          -- intros Hp. specialize (P5 Hp). now rewrite upd_neq in P5 by lia.
          -- intros k Hk. destruct (Nat.eq_dec k j) as [->|N]; [auto|].
             specialize (P6 k ltac:(lia)). now rewrite upd_neq in P6 by lia.
        * exists (S j). split; [lia|]. split; [apply upd_eq|]. split; [|split; [|split]].
          -- intros k Hk. apply upd_neq. lia.
          -- intros k Hk. lia.
          -- intros _. now replace (S j - 1) with j by lia.
          -- intros k Hk. lia.
      + exists (S j). split; [lia|]. split; [apply upd_eq|]. repeat split; intros; try lia.
  Qed.

  Lemma insert_step left i a : left <= i -> sorted_on left i a ->
    rearranged left (S i) a (insert_loop data axis left (a i) a i) /\
    sorted_on left (S i) (insert_loop data axis left (a i) a i).
  Proof.
    intros H Hs. split.
    - assert (R := insert_rearranged left (a i) i a H). replace (i + 1) with (S i) in R by lia.
      eapply rearranged_ext_l; [|exact R]. intros k. unfold upd. destruct (Nat.eqb_spec k i) as [->|]; auto.
    - destruct (insert_sorted left (a i) i a H) as (p & P1 & P2 & P3 & P4 & P5 & P6).
      set (r := insert_loop data axis left (a i) a i) in *.
      assert (Lo : forall k, left <= k < p -> precedes (a k) (a i)).
      { intros k Hk. assert (K : precedes (a (p - 1)) (a i)).
        { apply precedes_before. rewrite <- after_before. apply P5. lia. }
        destruct (Nat.eq_dec k (p - 1)) as [->|N]; [auto|]. eapply precedes_trans; [|exact K]. apply Hs; lia. }
      assert (Hi : forall k, p <= k < i -> precedes (a i) (a k)).
      { intros k Hk. apply before_precedes. rewrite <- after_before. now apply P6. }
      intros u v Huv Hv.
      assert (Ru : r u = if u <? p then a u else if u =? p then a i else a (u - 1)).
      { destruct (Nat.ltb_spec u p); [apply P3; lia|]. destruct (Nat.eqb_spec u p) as [->|]; [auto|].
        replace u with (S (u - 1)) at 1 by lia. apply P4. lia. }
      assert (Rv : r v = if v <? p then a v else if v =? p then a i else a (v - 1)).
      { destruct (Nat.ltb_spec v p); [apply P3; lia|]. destruct (Nat.eqb_spec v p) as [->|]; [auto|].
        replace v with (S (v - 1)) at 1 by lia. apply P4. lia. }
      rewrite Ru, Rv.
      destruct (Nat.ltb_spec u p), (Nat.ltb_spec v p); try lia.
      + apply Hs; lia.
      + destruct (Nat.eqb_spec v p); [apply Lo; lia|].
        destruct (Nat.eq_dec u (v - 1)) as [->|]; [apply precedes_refl|apply Hs; lia].
      + destruct (Nat.eqb_spec u p), (Nat.eqb_spec v p); try lia.
        * apply Hi. lia.
        * apply Hs; lia.
  Qed.

  Lemma insertion_sort_ok left right a : left <= right ->
    rearranged left right a (insertion_sort data axis a left right) /\
    sorted_on left right (insertion_sort data axis a left right).
  Proof.
    intros H. unfold insertion_sort.
    destruct (Nat.eq_dec left right) as [->|N].
    { replace (right - (right + 1)) with 0 by lia. cbn. split; [apply rearranged_refl|]. intros i j. lia. }
    assert (G : forall m i a0, i + m = right -> left < i -> rearranged left right a a0 -> sorted_on left i a0 ->
              rearranged left right a (fold_left (fun a i => insert_loop data axis left (a i) a i) (seq i m) a0) /\
              sorted_on left right (fold_left (fun a i => insert_loop data axis left (a i) a i) (seq i m) a0)).
    { induction m as [|m IH]; intros i a0 E Hi R Sr; cbn [seq fold_left].
      - replace right with i by lia. split; [|auto]. now replace i with right by lia.
      - destruct (insert_step left i a0 ltac:(lia) Sr) as [R' S'].
        apply IH; try lia; auto. eapply rearranged_trans; [exact R|].
        eapply rearranged_wider; [| | |exact R']; lia. }
    apply G; try lia; [apply rearranged_refl|]. intros i j. lia.
  Qed.

  (** ** Heap sort *)
  Section Heapsort.
    Variable offset : nat.

    (** Nodes from [s] on are not below their children. *)
    Definition heap_from (s e : nat) (a : nat -> nat) : Prop :=
      forall i c, s <= i -> (c = 2 * i + 1 \/ c = 2 * i + 2) -> c < e ->
        precedes (a (offset + c)) (a (offset + i)).
    Definition heap_except (s r e : nat) (a : nat -> nat) : Prop :=
      (forall i c, s <= i -> i <> r -> (c = 2 * i + 1 \/ c = 2 * i + 2) -> c < e ->
         precedes (a (offset + c)) (a (offset + i))) /\
      (forall q c, s <= q -> (r = 2 * q + 1 \/ r = 2 * q + 2) -> (c = 2 * r + 1 \/ c = 2 * r + 2) -> c < e ->
         precedes (a (offset + c)) (a (offset + q))).

    Lemma sift_down_ok s e : forall fuel r a, e <= fuel + r -> s <= r -> heap_except s r e a ->
      exists a', sift_down data axis fuel a offset r e = Ok a' /\
        rearranged offset (offset + e) a a' /\ heap_from s e a'.
    Proof.
      induction fuel as [|fuel IH]; intros r a Hf Hs [H1 H2]; cbn [sift_down].
      - destruct (Nat.ltb_spec (r * 2 + 1) e); [lia|]. exists a. split; [auto|]. split; [apply rearranged_refl|].
        intros i c Hi Hc Hce. apply H1; auto. lia.
      - destruct (Nat.ltb_spec (r * 2 + 1) e) as [Hl|Hl].
        2:{ exists a. split; [auto|]. split; [apply rearranged_refl|].
            intros i c Hi Hc Hce. apply H1; auto. lia. }
        set (child := r * 2 + 1) in *.
        set (s1 := if before (a (offset + r)) (a (offset + child)) then child else r).
        set (s2 := if (child + 1 <? e) && before (a (offset + s1)) (a (offset + child + 1)) then child + 1 else s1).
        assert (C1 : precedes (a (offset + r)) (a (offset + s1)) /\ precedes (a (offset + child)) (a (offset + s1)) /\
                     (s1 = r \/ s1 = child)).
        { unfold s1. destruct (before (a (offset + r)) (a (offset + child))) eqn:E.
          - split; [now apply before_precedes|]. split; [apply precedes_refl|auto].
          - split; [apply precedes_refl|]. split; [now apply precedes_before|auto]. }
        destruct C1 as (C1 & C2 & C3).
        assert (D : precedes (a (offset + s1)) (a (offset + s2)) /\
                    (child + 1 < e -> precedes (a (offset + (child + 1))) (a (offset + s2))) /\
                    (s2 = s1 \/ (s2 = child + 1 /\ child + 1 < e))).
        { unfold s2. destruct (Nat.ltb_spec (child + 1) e) as [L|L]; cbn [andb].
          - destruct (before (a (offset + s1)) (a (offset + child + 1))) eqn:E.
            + rewrite <- (Nat.add_assoc offset child 1) in E.
              split; [now apply before_precedes|]. split; [intros _; apply precedes_refl|auto].
            + rewrite <- (Nat.add_assoc offset child 1) in E. split; [apply precedes_refl|]. split; [|auto].
              intros _. now apply precedes_before.
          - split; [apply precedes_refl|]. split; [lia|auto]. }
        destruct D as (D1 & D2 & D3).
        destruct (Nat.eqb_spec s2 r) as [E|N].
        + exists a. split; [auto|]. split; [apply rearranged_refl|].
          intros i c Hi Hc Hce. destruct (Nat.eq_dec i r) as [->|Ni]; [|apply H1; auto].
          rewrite E in D1, D2. destruct Hc as [->| ->].
          * eapply precedes_trans; [|exact D1]. now replace (2 * r + 1) with child by (unfold child; lia).
          * replace (2 * r + 2) with (child + 1) by (unfold child; lia). apply D2. unfold child. lia.
        + assert (S2 : s2 = 2 * r + 1 \/ s2 = 2 * r + 2) by (unfold child in *; lia).
          assert (Se : s2 < e) by (unfold child in *; lia).
          set (b := swap a (offset + r) (offset + s2)).
          assert (Br : b (offset + r) = a (offset + s2)).
          { unfold b. rewrite swap_at. destruct (Nat.eqb_spec (offset + r) (offset + s2)); [lia|].
            now rewrite Nat.eqb_refl. }
          assert (Bs : b (offset + s2) = a (offset + r)).
          { unfold b. rewrite swap_at. now rewrite Nat.eqb_refl. }
          assert (Bo : forall k, k <> r -> k <> s2 -> b (offset + k) = a (offset + k)).
          { intros k K1 K2. unfold b. rewrite swap_at.
            destruct (Nat.eqb_spec (offset + k) (offset + s2)); [lia|].
            destruct (Nat.eqb_spec (offset + k) (offset + r)); [lia|auto]. }
          assert (Top : precedes (a (offset + r)) (a (offset + s2))) by (eapply precedes_trans; eauto).
          destruct (IH s2 b) as (a' & E1 & R1 & Hh); [lia|lia| |].
          { split.
            - intros i c Hi Ni Hc Hce. destruct (Nat.eq_dec i r) as [->|Nr].
              + rewrite Br. destruct (Nat.eq_dec c s2) as [->|Nc]; [rewrite Bs; exact Top|].
                rewrite Bo by lia. destruct Hc as [->| ->].
                * eapply precedes_trans; [|exact D1]. now replace (2 * r + 1) with child by (unfold child; lia).
                * replace (2 * r + 2) with (child + 1) by (unfold child; lia). apply D2. unfold child. lia.
              + rewrite (Bo i) by auto. destruct (Nat.eq_dec c r) as [->|Nc].
                * rewrite Br. apply (H2 i s2); auto.
                * destruct (Nat.eq_dec c s2) as [->|Nc2]; [lia|]. rewrite Bo by auto. apply H1; auto.
            - intros q c Hq Hs2 Hc Hce. assert (q = r) as -> by lia. rewrite Br.
              rewrite (Bo c) by lia. apply H1; auto; lia. }
          exists a'. split; [exact E1|]. split; [|exact Hh].
          eapply rearranged_trans; [|exact R1]. apply swap_rearranged; lia.
    Qed.

    Lemma heap_top e a : heap_from 0 e a -> forall k, k < e -> precedes (a (offset + k)) (a (offset + 0)).
    Proof.
      intros H k. induction k as [k IH] using lt_wf_ind. intros Hk. destruct k as [|k]; [apply precedes_refl|].
      assert (Hp : exists i, (S k = 2 * i + 1 \/ S k = 2 * i + 2) /\ i < S k).
      { exists (k / 2). assert (E := Nat.div_mod k 2). assert (M := Nat.mod_upper_bound k 2). lia. }
      destruct Hp as (i & Hi & Li). eapply precedes_trans; [|apply IH; [exact Li|lia]].
      apply (H i (S k)); auto. lia.
    Qed.

    Lemma build_heap e fuel : e <= fuel -> forall m a, m <= e / 2 -> heap_from m e a ->
      exists a', for_each (fun a i => sift_down data axis fuel a offset i e) (rev (seq 0 m)) a = Ok a' /\
        rearranged offset (offset + e) a a' /\ heap_from 0 e a'.
    Proof.
      intros Hf. induction m as [|m IH]; intros a Hm H.
      - exists a. split; [reflexivity|]. split; [apply rearranged_refl|exact H].
      - rewrite seq_S, rev_app_distr. cbn [rev app for_each Nat.add].
        destruct (sift_down_ok m e fuel m a) as (a1 & E1 & R1 & H1); [lia|auto| |].
        + split.
          * intros i c Hi Ni. apply H. lia.
          * intros q c Hq Hr. lia.
        + rewrite E1. cbn [bind]. destruct (IH a1) as (a2 & E2 & R2 & H2); [lia|auto|].
          exists a2. split; [exact E2|]. split; [|exact H2]. eapply rearranged_trans; eauto.
    Qed.

    Lemma extract e fuel : e <= fuel -> forall m a, m + 1 <= e ->
      heap_from 0 (m + 1) a ->
      (forall i j, i <= m -> m < j < e -> precedes (a (offset + i)) (a (offset + j))) ->
      (forall i j, m < i < j -> j < e -> precedes (a (offset + i)) (a (offset + j))) ->
      exists a', for_each (fun a i => sift_down data axis fuel (swap a offset (offset + i)) offset 0 i)
                   (rev (seq 1 m)) a = Ok a' /\
        rearranged offset (offset + e) a a' /\
        (forall i j, i < j < e -> precedes (a' (offset + i)) (a' (offset + j))).
    Proof.
      intros Hf. induction m as [|m IH]; intros a Hm H Lo Hi.
      - exists a. split; [reflexivity|]. split; [apply rearranged_refl|].
        intros i j Hij. destruct i as [|i]; [apply Lo; lia|apply Hi; lia].
      - rewrite seq_S, rev_app_distr. cbn [rev app for_each]. change (1 + m) with (S m).
        set (b := swap a offset (offset + S m)).
        assert (B0 : b offset = a (offset + S m)).
        { unfold b. rewrite swap_at. destruct (Nat.eqb_spec offset (offset + S m)); [lia|]. now rewrite Nat.eqb_refl. }
        assert (Bm : b (offset + S m) = a (offset + 0)).
        { unfold b. rewrite swap_at, Nat.eqb_refl. now rewrite Nat.add_0_r. }
        assert (Bo : forall k, k <> 0 -> k <> S m -> b (offset + k) = a (offset + k)).
        { intros k K1 K2. unfold b. rewrite swap_at. destruct (Nat.eqb_spec (offset + k) (offset + S m)); [lia|].
          destruct (Nat.eqb_spec (offset + k) offset); [lia|auto]. }
        assert (Rb : rearranged offset (offset + e) a b) by (apply swap_rearranged; lia).
        destruct (sift_down_ok 0 (S m) fuel 0 b) as (a1 & E1 & R1 & H1); [lia|lia| |].
        { split.
          - intros i c _ Ni Hc Hce. rewrite !Bo by lia. apply (H i c); lia.
          - intros q c _ Hr. lia. }
        rewrite E1. cbn [bind].
        assert (Same : forall k, S m <= k -> a1 (offset + k) = b (offset + k)).
        { intros k Hk. apply R1. lia. }
        assert (Small : forall i j, i <= m -> S m <= j < e -> precedes (a1 (offset + i)) (b (offset + j))).
        { intros i j Hi' Hj.
          apply (rearranged_all (fun x => precedes x (b (offset + j))) offset (offset + S m) b a1 R1); [|lia].
          intros k Hk.
          destruct (Nat.eq_dec j (S m)) as [->|Nj].
          - rewrite Bm. replace k with (offset + (k - offset)) by lia.
            destruct (Nat.eq_dec (k - offset) 0) as [E0|N0].
            + rewrite E0, Nat.add_0_r, B0. rewrite <- (Nat.add_0_r offset) at 2. apply (heap_top (S m + 1)); auto. lia.
            + rewrite Bo by lia. apply (heap_top (S m + 1)); auto. lia.
          - rewrite (Bo j) by lia. replace k with (offset + (k - offset)) by lia.
            destruct (Nat.eq_dec (k - offset) 0) as [E0|N0].
            + rewrite E0, Nat.add_0_r, B0. apply Lo; lia.
            + rewrite Bo by lia. apply Lo; lia. }
        assert (Large : forall i j, m < i < j -> j < e -> precedes (b (offset + i)) (b (offset + j))).
        { intros i j Hij Hj. rewrite (Bo j) by lia. destruct (Nat.eq_dec i (S m)) as [->|Ni].
          - rewrite Bm. apply Lo; lia.
          - rewrite Bo by lia. apply Hi; lia. }
        destruct (IH a1) as (a2 & E2 & R2 & S2); [lia|now replace (m + 1) with (S m) by lia| | |].
        + intros i j Hi' Hj. rewrite (Same j) by lia. apply Small; lia.
        + intros i j Hij Hj. rewrite !Same by lia. apply Large; lia.
        + exists a2. split; [exact E2|]. split; [|exact S2].
          eapply rearranged_trans; [exact Rb|]. eapply rearranged_trans; [|exact R2].
          eapply rearranged_wider; [| | |exact R1]; lia.
    Qed.
  End Heapsort.

  Lemma heapsort_ok left right a : left < right ->
    exists a', heapsort data axis a left right = Ok a' /\
      rearranged left right a a' /\ sorted_on left right a'.
  Proof.
    intros H. unfold heapsort. set (size := right - left).
    assert (Hr : right = left + size) by (unfold size; lia).
    destruct (build_heap left size size (le_n _) (size / 2) a (le_n _)) as (a1 & E1 & R1 & H1).
    { intros i c Hi Hc Hce. exfalso.
      assert (E := Nat.div_mod size 2). assert (M := Nat.mod_upper_bound size 2). lia. }
    rewrite E1. cbn [bind].
    destruct (extract left size size (le_n _) (size - 1) a1) as (a2 & E2 & R2 & S2); try (unfold size; lia).
    { replace (size - 1 + 1) with size by (unfold size; lia). exact H1. }
    exists a2. split; [exact E2|]. rewrite Hr. split; [eapply rearranged_trans; eauto|].
    intros i j Hij Hj. replace i with (left + (i - left)) by lia. replace j with (left + (j - left)) by lia.
    apply S2. lia.
  Qed.

  (** ** Partition *)
  Lemma scan_right_ok a pivot j1 : forall len i, len = j1 - i -> i <= j1 ->
    let i' := scan_right data axis len a pivot i j1 in
    i <= i' <= j1 /\ (forall k, i <= k < i' -> before (a k) pivot = true) /\
    (i' < j1 -> before (a i') pivot = false).
  Proof.
    induction len as [|len IH]; intros i Hl Hi; cbn [scan_right].
    - split; [lia|]. split; intros; lia.
    - destruct (Nat.ltb_spec i j1) as [L|L]; cbn [andb].
      + destruct (before (a i) pivot) eqn:E.
        * destruct (IH (i + 1)) as (A & B & D); [lia|lia|]. cbn zeta. split; [lia|]. split; [|exact D].
          intros k Hk. destruct (Nat.eq_dec k i) as [->|]; [auto|]. apply B. lia.
        * cbn zeta. split; [lia|]. split; [intros; lia|auto].
      + cbn zeta. split; [lia|]. split; intros; lia.
  Qed.

  Lemma scan_left_ok a pivot i : forall j1, i <= j1 ->
    let j' := scan_left data axis a pivot i j1 in
    i <= j' <= j1 /\ (forall k, j' <= k < j1 -> before (a k) pivot = false) /\
    (i < j' -> before (a (j' - 1)) pivot = true).
  Proof.
    induction j1 as [|j IH]; intros Hi; cbn [scan_left].
    - cbn zeta. split; [lia|]. split; intros; lia.
    - destruct (Nat.leb_spec i j) as [L|L]; cbn [andb].
      + destruct (before (a j) pivot) eqn:E; cbn [negb].
        * cbn zeta. split; [lia|]. split; [intros; lia|]. intros _. now replace (S j - 1) with j by lia.
        * destruct (IH L) as (A & B & D). cbn zeta. split; [lia|]. split; [|exact D].
          intros k Hk. destruct (Nat.eq_dec k j) as [->|]; [auto|]. apply B. lia.
      + cbn zeta. split; [lia|]. split; intros; lia.
  Qed.

  Lemma partition_loop_ok pivot left last : forall fuel a i j1,
    j1 <= fuel + i -> left <= i <= j1 -> j1 <= last ->
    (forall k, left <= k < i -> before (a k) pivot = true) ->
    (forall k, j1 <= k < last -> before (a k) pivot = false) ->
    exists a' p, partition_loop data axis fuel a pivot i j1 = Ok (a', p) /\
      rearranged left last a a' /\ left <= p <= last /\
      (forall k, left <= k < p -> before (a' k) pivot = true) /\
      (forall k, p <= k < last -> before (a' k) pivot = false).
  Proof.
    induction fuel as [|fuel IH]; intros a i j1 Hf Hi Hj Lo Hi'; cbn [partition_loop].
    all: destruct (scan_right_ok a pivot j1 (j1 - i) i eq_refl ltac:(lia)) as (A1 & A2 & A3);
      set (i' := scan_right data axis (j1 - i) a pivot i j1) in *;
      destruct (scan_left_ok a pivot i' j1 ltac:(lia)) as (B1 & B2 & B3);
      set (j' := scan_left data axis a pivot i' j1) in *; clearbody i' j'.
    all: assert (Lo' : forall k, left <= k < i' -> before (a k) pivot = true) by
      (intros k Hk; destruct (le_lt_dec i k); [apply A2|apply Lo]; lia).
    all: assert (Hi2 : forall k, j' <= k < last -> before (a k) pivot = false) by
      (intros k Hk; destruct (le_lt_dec j1 k); [apply Hi'|apply B2]; lia).
    all: assert (Stop : j' <= i' + 1 -> j' = i') by
      (intros Hs; destruct (Nat.eq_dec j' i') as [|N]; [auto|]; exfalso;
       assert (K1 := B3 ltac:(lia)); assert (K2 := A3 ltac:(lia));
       replace (j' - 1) with i' in K1 by lia; congruence).
    - destruct (Nat.leb_spec j' (i' + 1)) as [L|L]; [|lia].
      specialize (Stop L). subst j'. exists a, i'. split; [auto|]. split; [apply rearranged_refl|].
      split; [lia|]. split; auto.
    - destruct (Nat.leb_spec j' (i' + 1)) as [L|L].
      + specialize (Stop L). subst j'. exists a, i'. split; [auto|]. split; [apply rearranged_refl|].
        split; [lia|]. split; auto.
      + set (b := swap a i' (j' - 1)).
        destruct (IH b (i' + 1) (j' - 1)) as (a' & p & E & R & P1 & P2 & P3); try lia.
        * intros k Hk. unfold b. rewrite swap_at. destruct (Nat.eqb_spec k (j' - 1)); [lia|].
          destruct (Nat.eqb_spec k i') as [->|]; [apply B3; lia|apply Lo'; lia].
        * intros k Hk. unfold b. rewrite swap_at. destruct (Nat.eqb_spec k (j' - 1)) as [->|].
          -- apply A3. lia.
          -- destruct (Nat.eqb_spec k i'); [lia|]. apply Hi2. lia.
        * exists a', p. split; [exact E|]. split; [|auto]. eapply rearranged_trans; [|exact R].
          apply swap_rearranged; lia.
  Qed.

  Lemma partition_ok a left right pivot_idx : left <= pivot_idx < right ->
    exists a' p, partition_indices data axis a left right pivot_idx = Ok (a', p) /\
      rearranged left right a a' /\ left <= p < right /\
      (forall k, left <= k < p -> precedes (a' k) (a' p)) /\
      (forall k, p <= k < right -> precedes (a' p) (a' k)).
  Proof.
    intros H. unfold partition_indices. set (b := swap a pivot_idx (right - 1)).
    destruct (partition_loop_ok (b (right - 1)) left (right - 1) (right - left) b left (right - 1))
      as (a1 & p & E & R & P1 & P2 & P3); try lia.
    rewrite E. cbn [bind]. eexists _, p. split; [reflexivity|].
    assert (Last : a1 (right - 1) = b (right - 1)) by (apply R; lia).
    set (r := swap a1 p (right - 1)).
    assert (Rp : r p = b (right - 1)).
    { unfold r. rewrite swap_at. destruct (Nat.eqb_spec p (right - 1)) as [->|]; [auto|]. now rewrite Nat.eqb_refl. }
    split; [|split; [lia|split]].
    - eapply rearranged_trans; [apply (swap_rearranged _ _ _ pivot_idx (right - 1)); lia|].
      eapply rearranged_trans; [eapply rearranged_wider; [| | |exact R]; lia|].
      apply swap_rearranged; lia.
    - intros k Hk. rewrite Rp. unfold r. rewrite swap_at. destruct (Nat.eqb_spec k (right - 1)); [lia|].
      destruct (Nat.eqb_spec k p); [lia|]. apply before_precedes. apply P2. lia.
    - intros k Hk. rewrite Rp. unfold r. rewrite swap_at.
      destruct (Nat.eqb_spec k (right - 1)) as [->|].
      + destruct (Nat.eq_dec p (right - 1)) as [->|]; [rewrite Last; apply precedes_refl|].
        apply precedes_before. apply P3. lia.
      + destruct (Nat.eqb_spec k p) as [->|]; [rewrite Last; apply precedes_refl|].
        apply precedes_before. apply P3. lia.
  Qed.

  Lemma median_ok a left right : left < right ->
    exists a' p, median_of_three data axis a left right = (a', p) /\
      rearranged left right a a' /\ left <= p < right.
  Proof.
    intros H. unfold median_of_three. set (mid := (left + right - 1) / 2).
    assert (Hm : left <= mid < right).
    { unfold mid. assert (E := Nat.div_mod (left + right - 1) 2).
      assert (M := Nat.mod_upper_bound (left + right - 1) 2). lia. }
    assert (Sw : forall b i j, rearranged left right a b -> left <= i < right -> left <= j < right ->
               rearranged left right a (swap b i j)).
    { intros b i j R Hi Hj. eapply rearranged_trans; [exact R|]. now apply swap_rearranged. }
    destruct (after (a left) (a mid)); cbv zeta iota;
      (destruct (after _ (a (right - 1))); [destruct (after _ _)|]);
      (eexists _, mid; split; [reflexivity|]; split; [|exact Hm]);
      repeat (apply Sw; [|lia|lia]); apply rearranged_refl.
  Qed.

  (** ** Selection *)
  Lemma sorted_split left nth right a : sorted_on left right a -> split_at data axis left nth right a.
  Proof. intros H i j Hi Hj. apply H; lia. Qed.

  Lemma introselect_impl_ok : forall depth a left right nth, left <= nth < right ->
    exists a', introselect_impl data axis depth a left right nth = Ok a' /\
      rearranged left right a a' /\ split_at data axis left nth right a'.
  Proof.
    induction depth as [|depth IH]; intros a left right nth H; cbn [introselect_impl].
    - destruct (16 <? right - left).
      + destruct (heapsort_ok left right a ltac:(lia)) as (a' & E & R & Sr). exists a'.
        split; [auto|]. split; [auto|]. now apply sorted_split.
      + destruct (insertion_sort_ok left right a ltac:(lia)) as [R Sr]. eexists. split; [reflexivity|].
        split; [auto|]. now apply sorted_split.
    - destruct (16 <? right - left).
      2:{ destruct (insertion_sort_ok left right a ltac:(lia)) as [R Sr]. eexists. split; [reflexivity|].
          split; [auto|]. now apply sorted_split. }
      destruct (median_ok a left right ltac:(lia)) as (a1 & p1 & E1 & R1 & Hp1). rewrite E1.
      destruct (partition_ok a1 left right p1 Hp1) as (a2 & p & E2 & R2 & Hp & Lo & Hi). rewrite E2. cbn [bind].
      assert (R12 : rearranged left right a a2) by (eapply rearranged_trans; eauto).
      destruct (Nat.ltb_spec nth p) as [L|L]; [|destruct (Nat.ltb_spec p nth) as [G|G]].
      + destruct (IH a2 left p nth ltac:(lia)) as (a' & E & R & Sp). exists a'. split; [auto|].
        split; [eapply rearranged_trans; [exact R12|]; eapply rearranged_wider; [| | |exact R]; lia|].
        intros i j Hi' Hj. destruct (le_lt_dec p j) as [Lj|Lj]; [|apply Sp; lia].
        replace (a' j) with (a2 j) by (symmetry; apply R; lia).
        apply (rearranged_all (fun x => precedes x (a2 j)) left p a2 a' R); [|lia].
        intros k Hk. eapply precedes_trans; [apply Lo; lia|]. apply Hi. lia.
      + destruct (IH a2 (p + 1) right nth ltac:(lia)) as (a' & E & R & Sp). exists a'. split; [auto|].
        split; [eapply rearranged_trans; [exact R12|]; eapply rearranged_wider; [| | |exact R]; lia|].
        intros i j Hi' Hj. destruct (le_lt_dec (p + 1) i) as [Li|Li]; [apply Sp; lia|].
        replace (a' i) with (a2 i) by (symmetry; apply R; lia).
        apply (rearranged_all (fun x => precedes (a2 i) x) (p + 1) right a2 a' R); [|lia].
        intros k Hk. destruct (Nat.eq_dec i p) as [->|]; [apply Hi; lia|].
        eapply precedes_trans; [apply Lo; lia|]. apply Hi. lia.
      + exists a2. split; [auto|]. split; [exact R12|]. intros i j Hi' Hj.
        assert (nth = p) by lia. subst nth. eapply precedes_trans; [apply Lo; lia|]. apply Hi. lia.
  Qed.

  Lemma introselect_ok a left right nth : left <= nth < right ->
    exists a', introselect data axis a left right nth = Ok a' /\
      rearranged left right a a' /\ split_at data axis left nth right a'.
  Proof.
    intros H. unfold introselect. destruct (right - left <=? 16).
    - destruct (insertion_sort_ok left right a ltac:(lia)) as [R Sr]. eexists. split; [reflexivity|].
      split; [auto|]. now apply sorted_split.
    - now apply introselect_impl_ok.
  Qed.
End Select.
