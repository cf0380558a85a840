(** The bounded max-heap of the nearest neighbour queries. *)
From Coq Require Import List Arith Lia Bool Permutation.
From Verif Require Import Prelude Order M_Linkage M_TreeQuery.
Import ListNotations.

Lemma map_upd_out {A} (f : nat -> A) i x a m :
  (i < a \/ a + m <= i) -> map (upd f i x) (seq a m) = map f (seq a m).
Proof.
  intros H. apply map_ext_in. intros j Hj. apply in_seq in Hj. apply upd_neq. lia.
Qed.

Lemma perm_upd {A} (f : nat -> A) i x n :
  i < n -> Permutation (f i :: map (upd f i x) (seq 0 n)) (x :: map f (seq 0 n)).
Proof.
  intros H. replace n with (i + S (n - i - 1)) by lia.
  rewrite seq_app. cbn [seq]. rewrite !map_app. cbn [map]. rewrite Nat.add_0_l, upd_eq.
  rewrite !map_upd_out by lia.
  etransitivity; [apply (Permutation_middle _ _ _)|].
  etransitivity; [| symmetry; apply Permutation_cons; [reflexivity | symmetry; apply Permutation_middle]].
  etransitivity; [symmetry; apply Permutation_middle|].
  etransitivity; [apply perm_skip; symmetry; apply Permutation_middle|].
  etransitivity; [apply perm_swap|]. reflexivity.
Qed.

Section Heap.
  Context {W : WOrd}.
  Implicit Types (h : heap W) (x : W * option nat).

  Lemma perm_swap_entries h i j n :
    i < n -> j < n -> i <> j ->
    Permutation (map (swap_entries h i j) (seq 0 n)) (map h (seq 0 n)).
  Proof.
    intros Hi Hj Hn. unfold swap_entries.
    assert (P1 := perm_upd (upd h i (h j)) j (h i) n Hj).
    assert (P2 := perm_upd h i (h j) n Hi).
    rewrite upd_neq in P1 by auto.
    apply Permutation_cons_inv with (a := h j).
    etransitivity; [exact P1|exact P2].
  Qed.

  Definition parent (c : nat) : nat := (c - 1) / 2.

  Lemma parent_cases c : 0 < c -> c = 2 * parent c + 1 \/ c = 2 * parent c + 2.
  Proof.
    intro H. unfold parent. assert (E := Nat.div_mod (c - 1) 2).
    assert (M := Nat.mod_upper_bound (c - 1) 2). lia.
  Qed.

  Lemma parent_left i : parent (2 * i + 1) = i.
  Proof.
    unfold parent. replace (2 * i + 1 - 1) with (i * 2) by lia. apply Nat.div_mul. lia.
  Qed.

  Lemma parent_right i : parent (2 * i + 2) = i.
  Proof.
    assert (E := parent_cases (2 * i + 2)). lia.
  Qed.

  (** Every entry is at most its parent. *)
  Definition is_heap (size : nat) h : Prop :=
    forall c, 0 < c < size -> wle (prio h c) (prio h (parent c)) = true.

  (** ... except that the children of [i] may be larger than entry [i]; they
      are still at most the parent of [i]. *)
  Definition heap_but (size : nat) h (i : nat) : Prop :=
    (forall c, 0 < c < size -> parent c <> i -> wle (prio h c) (prio h (parent c)) = true) /\
    (forall c, 0 < c < size -> parent c = i -> 0 < i -> wle (prio h c) (prio h (parent i)) = true).

  Lemma heap_top size h i : is_heap size h -> i < size -> wle (prio h i) (prio h 0) = true.
  Proof.
    intros H. induction i as [i IH] using lt_wf_ind. intro Hi.
    destruct (Nat.eq_dec i 0) as [->|N]; [apply wle_refl|].
    assert (C := parent_cases i ltac:(lia)).
    eapply wle_trans; [apply H; lia|]. apply IH; lia.
  Qed.

  Lemma heap_but_top size h : is_heap size h -> forall x, heap_but size (upd h 0 x) 0.
  Proof.
    intros H x. split; [|lia]. intros c Hc Hp. unfold prio.
    rewrite !upd_neq by lia. apply H; lia.
  Qed.

  Lemma heap_but_done size h i :
    heap_but size h i ->
    (forall c, 0 < c < size -> parent c = i -> wle (prio h c) (prio h i) = true) ->
    is_heap size h.
  Proof.
    intros [H _] Hi c Hc. destruct (Nat.eq_dec (parent c) i) as [E|E].
    - rewrite E. now apply Hi.
    - now apply H.
  Qed.

  (** Exchanging entry [i] with its largest child moves the exception there. *)
  Lemma heap_but_step size h i s :
    heap_but size h i -> 0 < s < size -> parent s = i ->
    wle (prio h i) (prio h s) = true ->
    (forall c, 0 < c < size -> parent c = i -> wle (prio h c) (prio h s) = true) ->
    heap_but size (swap_entries h i s) s.
  Proof.
    intros [H1 H2] Hs Hp Hle Hbig.
    assert (Cs := parent_cases s ltac:(lia)).
    assert (Es : prio (swap_entries h i s) s = prio h i).
    { unfold prio, swap_entries. now rewrite upd_eq. }
    assert (Ei : prio (swap_entries h i s) i = prio h s).
    { unfold prio, swap_entries. rewrite upd_neq by lia. now rewrite upd_eq. }
    assert (Eo : forall c, c <> i -> c <> s -> prio (swap_entries h i s) c = prio h c).
    { intros c A B. unfold prio, swap_entries. now rewrite !upd_neq by lia. }
    split.
    - intros c Hc Hpc. assert (Cc := parent_cases c ltac:(lia)).
      destruct (Nat.eq_dec c s) as [->|Ncs].
      + rewrite Es, Hp, Ei. exact Hle.
      + destruct (Nat.eq_dec c i) as [->|Nci].
        * rewrite Ei. rewrite Eo by lia. apply H2; auto; lia.
        * rewrite (Eo c) by auto. destruct (Nat.eq_dec (parent c) i) as [E|E].
          -- rewrite E, Ei. apply Hbig; auto.
          -- rewrite Eo by auto. apply H1; auto.
    - intros c Hc Hpc Hs0. assert (Cc := parent_cases c ltac:(lia)).
      rewrite Eo by lia. rewrite Hp, Ei, <- Hpc. apply H1; auto. lia.
  Qed.

  Lemma siftdown_ok fuel size : forall h elt,
    heap_but size h elt -> size <= fuel + elt ->
    exists h', siftdown fuel size h elt = Ok h' /\ is_heap size h' /\
      Permutation (map h' (seq 0 size)) (map h (seq 0 size)) /\
      (forall a, size <= a -> h' a = h a).
  Proof.
    induction fuel as [|fuel IH]; intros h elt HB Hf; cbn [siftdown].
    - destruct (Nat.ltb_spec (2 * elt + 1) size) as [Hl|Hl]; [lia|].
      exists h. split; [auto|]. split; [|auto].
      eapply heap_but_done; [exact HB|]. intros c Hc Hp. assert (Cc := parent_cases c). lia.
    - destruct (Nat.ltb_spec (2 * elt + 1) size) as [Hl|Hl].
      2:{ exists h. split; [auto|]. split; [|auto].
          eapply heap_but_done; [exact HB|]. intros c Hc Hp. assert (Cc := parent_cases c). lia. }
      set (left := 2 * elt + 1) in *. set (right := left + 1) in *.
      set (s1 := if wlt (prio h elt) (prio h left) then left else elt).
      set (s2 := if (right <? size) && wlt (prio h s1) (prio h right) then right else s1).
      assert (B1 : wle (prio h elt) (prio h s1) = true /\ wle (prio h left) (prio h s1) = true
                   /\ (s1 = elt \/ s1 = left)).
      { unfold s1. destruct (wlt (prio h elt) (prio h left)) eqn:E.
        - split; [now apply wlt_le|]. split; [apply wle_refl|auto].
        - split; [apply wle_refl|]. split; [now apply wlt_false|auto]. }
      destruct B1 as (B1 & B2 & B3).
      assert (B4 : wle (prio h s1) (prio h s2) = true /\
                   (right < size -> wle (prio h right) (prio h s2) = true) /\
                   (s2 = s1 \/ s2 = right /\ right < size)).
      { unfold s2. destruct (Nat.ltb_spec right size) as [Hr|Hr]; cbn [andb].
        - destruct (wlt (prio h s1) (prio h right)) eqn:E.
          + split; [now apply wlt_le|]. split; [intros _; apply wle_refl|auto].
          + split; [apply wle_refl|]. split; [intros _; now apply wlt_false|auto].
        - split; [apply wle_refl|]. split; [lia|auto]. }
      destruct B4 as (B4 & B5 & B6).
      assert (Big : forall c, 0 < c < size -> parent c = elt -> wle (prio h c) (prio h s2) = true).
      { intros c Hc Hp. destruct (parent_cases c) as [E|E]; [lia| |]; rewrite Hp in E.
        - fold left in E. rewrite E. eapply wle_trans; eauto.
        - assert (E' : c = right) by (unfold right, left; lia). rewrite E'. apply B5. lia. }
      destruct (Nat.eqb_spec s2 elt) as [E|E].
      + exists h. split; [auto|]. split; [|auto].
        eapply heap_but_done; [exact HB|]. intros c Hc Hp. rewrite E in Big. auto.
      + assert (Hs : 0 < s2 < size) by (unfold right, left in *; lia).
        assert (Hp : parent s2 = elt).
        { destruct B6 as [->|[-> _]].
          - destruct B3 as [->| ->]; [congruence|]. apply parent_left.
          - unfold right, left. replace (2 * elt + 1 + 1) with (2 * elt + 2) by lia. apply parent_right. }
        assert (HB' : heap_but size (swap_entries h elt s2) s2).
        { apply heap_but_step; auto. eapply wle_trans; eauto. }
        assert (Hgt : elt < s2) by (unfold right, left in *; lia).
        destruct (IH _ _ HB') as (h' & E1 & E2 & E3 & E4); [lia|].
        exists h'. split; [exact E1|]. split; [exact E2|]. split.
        * etransitivity; [exact E3|]. apply perm_swap_entries; lia.
        * intros a Ha. rewrite E4 by lia. unfold swap_entries. rewrite !upd_neq; lia || auto.
  Qed.

  Lemma upd_upd h i x y j : upd (upd h i x) i y j = upd h i y j.
  Proof. unfold upd. now destruct (j =? i). Qed.

  Lemma is_heap_ext size h h' : (forall i, h i = h' i) -> is_heap size h -> is_heap size h'.
  Proof. intros E H c Hc. unfold prio. rewrite <- !E. now apply H. Qed.
  Lemma heap_but_ext size h h' i : (forall j, h j = h' j) -> heap_but size h i -> heap_but size h' i.
  Proof.
    intros E [H1 H2]. split; intros c Hc; unfold prio; rewrite <- !E; [apply H1 | apply H2]; auto.
  Qed.

  Lemma push_loop_ok fuel size x : forall h i,
    i < size -> heap_but size (upd h i x) i -> size <= fuel + i ->
    exists h', push_loop fuel size h x i = Ok h' /\ is_heap size h' /\
      Permutation (map h' (seq 0 size)) (map (upd h i x) (seq 0 size)).
  Proof.
    induction fuel as [|fuel IH]; intros h i Hi HB Hf; [lia|].
    cbn [push_loop].
    set (ic1 := 2 * i + 1) in *. set (ic2 := ic1 + 1) in *.
    assert (Ei : prio (upd h i x) i = fst x) by (unfold prio; now rewrite upd_eq).
    assert (Eo : forall c, c <> i -> prio (upd h i x) c = prio h c).
    { intros c Hc. unfold prio. now rewrite upd_neq. }
    assert (Kids : forall c, 0 < c -> parent c = i -> c = ic1 \/ c = ic2).
    { intros c Hc Hp. destruct (parent_cases c Hc) as [E|E]; rewrite Hp in E; unfold ic2, ic1; lia. }
    assert (Stop : (forall c, 0 < c < size -> parent c = i -> wle (prio h c) (fst x) = true) ->
      exists h', Ok (upd h i x) = Ok h' /\ is_heap size h' /\
      Permutation (map h' (seq 0 size)) (map (upd h i x) (seq 0 size))).
    { intros H. eexists. split; [reflexivity|]. split; [|reflexivity].
      eapply heap_but_done; [exact HB|]. intros c Hc Hp. rewrite Ei, Eo; auto.
      destruct (Kids c ltac:(lia) Hp); unfold ic2, ic1 in *; lia. }
    assert (Go : forall s, 0 < s < size -> parent s = i -> wle (fst x) (prio h s) = true ->
      (forall c, 0 < c < size -> parent c = i -> wle (prio h c) (prio h s) = true) ->
      exists h', push_loop fuel size (upd h i (h s)) x s = Ok h' /\ is_heap size h' /\
      Permutation (map h' (seq 0 size)) (map (upd h i x) (seq 0 size))).
    { intros s Hs Hp Hle Hbig.
      assert (Hsi : i < s) by (destruct (Kids s ltac:(lia) Hp); unfold ic2, ic1 in *; lia).
      assert (E : forall j, swap_entries (upd h i x) i s j = upd (upd h i (h s)) s x j).
      { intros j. unfold swap_entries. rewrite upd_eq, (upd_neq _ i s) by lia.
        destruct (upd_case (upd h i (h s)) s j x) as [[-> E]|[N E]]; rewrite E.
        - now rewrite upd_eq.
        - rewrite upd_neq by auto. apply upd_upd. }
      destruct (IH (upd h i (h s)) s) as (h' & E1 & E2 & E3); [lia| |lia|].
      - eapply heap_but_ext; [exact E|]. apply heap_but_step; auto.
        + rewrite Ei, Eo by lia. exact Hle.
        + intros c Hc Hpc. rewrite !Eo; [auto|lia|].
          destruct (Kids c ltac:(lia) Hpc); unfold ic2, ic1 in *; lia.
      - exists h'. split; [exact E1|]. split; [exact E2|]. etransitivity; [exact E3|].
        rewrite <- (map_ext _ _ E). apply perm_swap_entries; lia. }
    assert (P1 : parent ic1 = i) by apply parent_left.
    assert (P2 : parent ic2 = i).
    { unfold ic2, ic1. replace (2 * i + 1 + 1) with (2 * i + 2) by lia. apply parent_right. }
    destruct (Nat.leb_spec size ic1) as [H1|H1].
    { apply Stop. intros c Hc Hp. destruct (Kids c ltac:(lia) Hp); unfold ic2 in *; lia. }
    destruct (Nat.leb_spec size ic2) as [H2|H2].
    { destruct (wlt (fst x) (prio h ic1)) eqn:E.
      - apply Go; [unfold ic1 in *; lia|auto|now apply wlt_le|].
        intros c Hc Hp. destruct (Kids c ltac:(lia) Hp) as [->| ->]; [apply wle_refl|lia].
      - apply Stop. intros c Hc Hp. destruct (Kids c ltac:(lia) Hp) as [->| ->]; [|lia].
        now apply wlt_false. }
    destruct (wle (prio h ic2) (prio h ic1)) eqn:Ec.
    - destruct (wlt (fst x) (prio h ic1)) eqn:E.
      + apply Go; [unfold ic1 in *; lia|auto|now apply wlt_le|].
        intros c Hc Hp. destruct (Kids c ltac:(lia) Hp) as [->| ->]; [apply wle_refl|auto].
      + apply Stop. intros c Hc Hp. apply wlt_false in E.
        destruct (Kids c ltac:(lia) Hp) as [->| ->]; [auto|]. eapply wle_trans; eauto.
    - assert (Ec' : wle (prio h ic1) (prio h ic2) = true) by (apply wlt_le; now apply wlt_nle).
      destruct (wlt (fst x) (prio h ic2)) eqn:E.
      + apply Go; [unfold ic2, ic1 in *; lia|auto|now apply wlt_le|].
        intros c Hc Hp. destruct (Kids c ltac:(lia) Hp) as [->| ->]; [auto|apply wle_refl].
      + apply Stop. intros c Hc Hp. apply wlt_false in E.
        destruct (Kids c ltac:(lia) Hp) as [->| ->]; [|auto]. eapply wle_trans; eauto.
  Qed.

  (** Pushing a value below the top replaces the top. *)
  Lemma push_ok size h p q :
    0 < size -> is_heap size h -> wlt p (prio h 0) = true ->
    exists h', simple_heap_push size h p q = Ok h' /\ is_heap size h' /\
      Permutation (map h' (seq 0 size)) ((p, Some q) :: map h (seq 1 (size - 1))).
  Proof.
    intros Hs HH Hp. unfold simple_heap_push.
    rewrite (proj1 (wlt_nle _ _) Hp).
    destruct (push_loop_ok size size (p, Some q) (upd h 0 (p, Some q)) 0) as (h' & E1 & E2 & E3).
    - lia.
    - apply (heap_but_ext _ (upd h 0 (p, Some q))); [intro j; now rewrite upd_upd|].
      now apply heap_but_top.
    - lia.
    - exists h'. split; [exact E1|]. split; [exact E2|]. etransitivity; [exact E3|].
      replace (seq 0 size) with (0 :: seq 1 (size - 1)) by (destruct size; [lia|cbn; now rewrite Nat.sub_0_r]).
      cbn [map]. rewrite !upd_eq. apply perm_skip.
      rewrite map_upd_out by lia. rewrite map_upd_out by lia. reflexivity.
  Qed.

  Lemma deheap_loop_ok k : forall j h,
    j < k \/ k = 0 -> is_heap (S j) h ->
    (forall a b, a < b < k -> j < b -> wle (prio h a) (prio h b) = true) ->
    exists h', deheap_loop j h = Ok h' /\
      (forall a b, a < b < k -> wle (prio h' a) (prio h' b) = true) /\
      Permutation (map h' (seq 0 k)) (map h (seq 0 k)).
  Proof.
    induction j as [|j IH]; intros h Hj HH Ho; cbn [deheap_loop].
    - exists h. split; [auto|]. split; [|auto]. intros a b Hab. apply Ho; lia.
    - set (h0 := swap_entries h 0 (S j)).
      assert (E0 : h0 (S j) = h 0) by (unfold h0, swap_entries; now rewrite upd_eq).
      assert (E1 : h0 0 = h (S j)) by (unfold h0, swap_entries; rewrite upd_neq by lia; now rewrite upd_eq).
      assert (E2 : forall a, a <> 0 -> a <> S j -> h0 a = h a).
      { intros a A B. unfold h0, swap_entries. now rewrite !upd_neq by auto. }
      assert (HB : heap_but (S j) h0 0).
      { split; [|lia]. intros c Hc Hp. unfold prio. rewrite !E2 by
          (assert (Cc := parent_cases c); lia). apply HH. lia. }
      destruct (siftdown_ok (S j) (S j) h0 0 HB) as (h1 & S1 & S2 & S3 & S4); [lia|].
      rewrite S1. cbn [bind].
      destruct Hj as [Hj|Hj].
      2:{ destruct (IH h1) as (h' & D1 & D2 & D3); [auto| | |].
          - exact S2. - intros; lia.
          - exists h'. split; [exact D1|]. split; [exact D2|]. subst k. reflexivity. }
      destruct (IH h1) as (h' & D1 & D2 & D3).
      + left; lia.
      + exact S2.
      + intros a b Hab Hjb.
        assert (Hle : forall a0, a0 < S (S j) -> wle (prio h0 a0) (prio h 0) = true).
        { intros a0 Ha0. destruct (Nat.eq_dec a0 0) as [->|N0].
          - unfold prio. rewrite E1. apply (heap_top (S (S j))); auto; lia.
          - destruct (Nat.eq_dec a0 (S j)) as [->|Nj].
            + unfold prio. rewrite E0. apply wle_refl.
            + unfold prio. rewrite E2 by auto. apply (heap_top (S (S j))); auto. }
        assert (Hin : forall a0, a0 < S j -> exists a1, a1 < S j /\ h1 a0 = h0 a1).
        { intros a0 Ha0. assert (I : In (h1 a0) (map h0 (seq 0 (S j)))).
          { eapply Permutation_in; [exact S3|]. apply in_map. apply in_seq. lia. }
          apply in_map_iff in I. destruct I as (a1 & I1 & I2). apply in_seq in I2.
          exists a1. split; [lia|auto]. }
        destruct (Nat.eq_dec b (S j)) as [->|Nb].
        * unfold prio. rewrite (S4 (S j)) by lia. rewrite E0.
          destruct (Hin a ltac:(lia)) as (a1 & A1 & A2). rewrite A2. apply Hle. lia.
        * unfold prio. rewrite (S4 b) by lia. rewrite (E2 b) by lia.
          destruct (le_lt_dec (S j) a) as [Ha|Ha].
          -- rewrite (S4 a) by lia. destruct (Nat.eq_dec a (S j)) as [->|Na].
             ++ rewrite E0. apply Ho; lia.
             ++ rewrite E2 by lia. apply Ho; lia.
          -- destruct (Hin a ltac:(lia)) as (a1 & A1 & A2). rewrite A2.
             destruct (Nat.eq_dec a1 0) as [->|N0].
             ++ rewrite E1. apply Ho; lia.
             ++ rewrite E2 by lia. apply Ho; lia.
      + exists h'. split; [exact D1|]. split; [exact D2|]. etransitivity; [exact D3|].
        replace k with (S j + (k - S j)) by lia. rewrite seq_app, !map_app.
        assert (T : map h1 (seq (0 + S j) (k - S j)) = map h0 (seq (0 + S j) (k - S j))).
        { apply map_ext_in. intros a Ha. apply in_seq in Ha. apply S4. lia. }
        rewrite T. etransitivity; [apply Permutation_app_tail; exact S3|].
        rewrite <- !map_app, <- !seq_app. apply perm_swap_entries; lia.
  Qed.

  Lemma deheap_row_ok k h :
    is_heap k h ->
    exists h', deheap_row k h = Ok h' /\
      (forall a b, a < b < k -> wle (prio h' a) (prio h' b) = true) /\
      Permutation (map h' (seq 0 k)) (map h (seq 0 k)).
  Proof.
    intros H. unfold deheap_row. apply deheap_loop_ok.
    - lia.
    - intros c Hc. apply H. lia.
    - intros. lia.
  Qed.
End Heap.
