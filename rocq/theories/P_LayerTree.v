(** The tree of clusters across layers. *)
From Coq Require Import List Arith Lia Bool ZArith Sorted Permutation.
From Verif Require Import Prelude Order P_Sort M_Linkage M_Layers S_Layers P_LayersTop M_LayerTree S_LayerTree.
Import ListNotations.
Local Open Scope nat_scope.

(** ** Splitting *)
Lemma cumsum_nonempty a x l : cumsum a (x :: l) <> [].
Proof. discriminate. Qed.

Lemma split_at_concat {A} (blocks : list (list A)) : forall b pre,
  split_at (pre ++ concat (b :: blocks)) (length pre) (removelast (cumsum (length pre) (map (@length A) (b :: blocks)))) = b :: blocks.
Proof.
  induction blocks as [|b' bs IH]; intros b pre.
  - cbn. rewrite skipn_app, skipn_all, Nat.sub_diag, app_nil_r. reflexivity.
  - change (map (@length A) (b :: b' :: bs)) with (length b :: map (@length A) (b' :: bs)). cbn [cumsum].
    change (length pre + length b :: cumsum (length pre + length b) (map (@length A) (b' :: bs))) with
      ([length pre + length b] ++ cumsum (length pre + length b) (map (@length A) (b' :: bs))).
    rewrite removelast_app by discriminate. cbn [app split_at]. f_equal.
    + rewrite skipn_app, skipn_all, Nat.sub_diag. cbn [skipn app concat]. replace (length pre + length b - length pre) with (length b + 0) by lia.
      rewrite firstn_app_2. cbn. now rewrite app_nil_r.
    + specialize (IH b' (pre ++ b)). rewrite app_length in IH. cbn [concat] in *. rewrite <- app_assoc in IH. exact IH.
Qed.

Lemma sorted_first (f : nat -> nat) a o : StronglySorted (fun i j => f i <= f j) o -> (forall i, In i o -> a <= f i) ->
  o = filter (fun i => f i =? a) o ++ filter (fun i => negb (f i =? a)) o.
Proof.
  induction 1 as [|x o Hs IH Hf]; intro H; auto. cbn [filter]. destruct (Nat.eqb_spec (f x) a) as [E|E].
  - cbn. f_equal. apply IH. intros; apply H; now right.
  - assert (Hx : a < f x) by (specialize (H x (or_introl eq_refl)); lia). rewrite Forall_forall in Hf.
    assert (E1 : filter (fun i => f i =? a) o = []).
    { clear - Hf Hx. induction o as [|y o IH]; auto. cbn. destruct (Nat.eqb_spec (f y) a); [specialize (Hf y (or_introl eq_refl)); lia|]. apply IH. intros; apply Hf; now right. }
    assert (E2 : filter (fun i => negb (f i =? a)) o = o).
    { clear - Hf Hx. induction o as [|y o IH]; auto. cbn. destruct (Nat.eqb_spec (f y) a); [specialize (Hf y (or_introl eq_refl)); lia|]. cbn. f_equal. apply IH. intros; apply Hf; now right. }
    rewrite E1, E2. reflexivity.
Qed.

Lemma ssorted_filter {A} (R : A -> A -> Prop) p l : StronglySorted R l -> StronglySorted R (filter p l).
Proof.
  induction 1 as [|x l Hs IH Hf]; cbn; [constructor|]. destruct (p x); auto. constructor; auto.
  rewrite Forall_forall in *. intros y Hy. apply filter_In in Hy. apply Hf. tauto.
Qed.

Lemma sorted_blocks (f : nat -> nat) K : forall a o, StronglySorted (fun i j => f i <= f j) o -> (forall i, In i o -> a <= f i < a + K) ->
  o = concat (map (fun k => filter (fun i => f i =? k) o) (seq a K)).
Proof.
  induction K as [|K IH]; intros a o Hs H.
  - destruct o as [|x o]; auto. specialize (H x (or_introl eq_refl)). lia.
  - cbn [seq map concat]. rewrite (sorted_first f a o Hs) at 1 by (intros i Hi; specialize (H i Hi); lia). f_equal.
    rewrite (IH (S a) (filter (fun i => negb (f i =? a)) o)).
    + f_equal. apply map_ext_in. intros k Hk. apply in_seq in Hk. clear - Hk. induction o as [|x o IH]; auto. cbn [filter].
      destruct (Nat.eqb_spec (f x) a); cbn [negb filter].
      * destruct (Nat.eqb_spec (f x) k); [lia|auto].
      * destruct (f x =? k); [f_equal|]; auto.
    + now apply ssorted_filter.
    + intros i Hi. apply filter_In in Hi as [Hi Hne]. specialize (H i Hi). apply negb_true_iff, Nat.eqb_neq in Hne. lia.
Qed.

(** ** Unique labels *)
Lemma unique_Z_in l z : In z (unique_Z l) <-> In z l.
Proof.
  unfold unique_Z. split; intro H.
  - apply (Permutation_in _ (Permutation_sym (isort_perm (W := ZInf) _ _))) in H. now apply nodup_In in H.
  - apply (Permutation_in _ (isort_perm (W := ZInf) _ _)). now apply nodup_In.
Qed.

Lemma unique_Z_sorted l : StronglySorted Z.lt (unique_Z l).
Proof.
  unfold unique_Z. pose proof (isort_sorted (W := ZInf) (fun z => Some z) (nodup Z.eq_dec l)) as H.
  assert (HN : NoDup (isort (W := ZInf) (fun z => Some z) (nodup Z.eq_dec l))) by (eapply Permutation_NoDup; [apply isort_perm|apply NoDup_nodup]).
  unfold sorted_by in H. induction H as [|a l' H IH Hf]; [constructor|]. apply NoDup_cons_iff in HN as [Ha HN]. constructor; auto.
  rewrite Forall_forall in *. intros b Hb. specialize (Hf b Hb). cbn in Hf. apply Z.leb_le in Hf.
  assert (a <> b) by congruence. lia.
Qed.

Lemma ssorted_same_Z l : forall l', StronglySorted Z.lt l -> StronglySorted Z.lt l' -> (forall x, In x l <-> In x l') -> l = l'.
Proof.
  induction l as [|a l IH]; intros [|b l'] H H' Hi; auto.
  - destruct (proj2 (Hi b) (or_introl eq_refl)).
  - destruct (proj1 (Hi a) (or_introl eq_refl)).
  - apply StronglySorted_inv in H as [H Hf]. apply StronglySorted_inv in H' as [H' Hf']. rewrite Forall_forall in Hf, Hf'.
    assert (a = b).
    { destruct (proj1 (Hi a) (or_introl eq_refl)) as [E|E]; auto. destruct (proj2 (Hi b) (or_introl eq_refl)) as [E'|E']; auto.
      specialize (Hf _ E'). specialize (Hf' _ E). lia. }
    subst b. f_equal. apply IH; auto. intro x. split; intro Hx.
    + destruct (proj1 (Hi x) (or_intror Hx)) as [E|E]; auto. subst. specialize (Hf _ Hx). lia.
    + destruct (proj2 (Hi x) (or_intror Hx)) as [E|E]; auto. subst. specialize (Hf' _ Hx). lia.
Qed.

Lemma ssorted_range a K : StronglySorted Z.lt (map (fun k => Z.of_nat k - 1)%Z (seq a K)).
Proof.
  revert a. induction K as [|K IH]; intro a; cbn; constructor; auto. apply Forall_forall. intros z Hz.
  apply in_map_iff in Hz as (k & <- & Hk). apply in_seq in Hk. lia.
Qed.

(** ** The groups *)
Section Groups.
  Variable argsort : list Z -> list nat.
  Hypothesis Hsort : argsorts_Z argsort.

  Definition group_of (upper lower : list Z) (label : Z) : list Z :=
    map (fun i => nth i lower 0%Z) (filter (fun i => (nth i upper 0 =? label)%Z) (argsort upper)).

  Lemma group_in upper lower label c : In c (group_of upper lower label) <->
    exists x, x < length upper /\ nth x upper 0%Z = label /\ nth x lower 0%Z = c.
  Proof.
    unfold group_of. rewrite in_map_iff. destruct (Hsort upper) as [HP _]. split.
    - intros (x & Ex & Hx). apply filter_In in Hx as [Hx El]. apply (Permutation_in _ HP), in_seq in Hx. apply Z.eqb_eq in El. exists x. split; [lia|auto].
    - intros (x & Hx & El & Ex). exists x. split; auto. apply filter_In. split; [|now apply Z.eqb_eq].
      apply (Permutation_in _ (Permutation_sym HP)), in_seq. lia.
  Qed.

  Lemma filter_perm_length {A} (p : A -> bool) l l' : Permutation l l' -> length (filter p l) = length (filter p l').
  Proof.
    induction 1; cbn; auto; [destruct (p x); cbn; auto|destruct (p x), (p y); cbn; auto|congruence].
  Qed.

  Lemma count_order upper k : length (filter (Z.eqb (Z.of_nat k)) (map (fun l => l + 1)%Z upper)) =
    length (filter (fun i => (nth i upper 0 + 1 =? Z.of_nat k)%Z) (argsort upper)).
  Proof.
    destruct (Hsort upper) as [HP _]. rewrite (filter_perm_length _ _ _ HP). clear.
    assert (H : forall (u : list Z) (P : Z -> bool), length (filter P u) = length (filter (fun i => P (nth i u 0%Z)) (seq 0 (length u)))).
    { clear. induction u as [|a u IH]; intro P; auto. cbn [length seq filter nth]. rewrite <- seq_shift.
      assert (E : length (filter (fun i => P (nth i (a :: u) 0%Z)) (map S (seq 0 (length u)))) = length (filter P u)).
      { rewrite (IH P). generalize (seq 0 (length u)). intro l. induction l as [|i l IHl]; auto. cbn [map filter nth]. destruct (P (nth i u 0%Z)); cbn; auto. }
      destruct (P a); cbn [length]; rewrite <- E; reflexivity. }
    rewrite <- (H upper (fun z => (z + 1 =? Z.of_nat k)%Z)). clear. induction upper as [|a u IH]; auto. cbn [map filter]. rewrite (Z.eqb_sym (a + 1)).
    destruct (Z.of_nat k =? a + 1)%Z; cbn; auto.
  Qed.

  Lemma groups_ok upper lower : upper <> [] -> gap_free upper ->
    exists gs, cluster_groups argsort upper lower = Ok gs /\
      forall i label, nth_error (unique_Z upper) i = Some label -> (0 <= label)%Z -> nth_error gs i = Some (group_of upper lower label).
  Proof.
    intros Hne Hg. unfold cluster_groups, bincount.
    assert (Hpos : existsb (fun z => (z <? 0)%Z) (map (fun l => (l + 1)%Z) upper) = false).
    { apply not_true_iff_false. intro H. apply existsb_exists in H as (z & Hz & Hlt). apply in_map_iff in Hz as (l & <- & Hl). apply Hg in Hl as [Hl _]. apply Z.ltb_lt in Hlt. lia. }
    rewrite Hpos. destruct (map (fun l => (l + 1)%Z) upper) as [|z0 zs] eqn:Em; [destruct upper; [congruence|discriminate]|]. rewrite <- Em. clear z0 zs Em Hpos.
    destruct (zmax_ok (map (fun l => (l + 1)%Z) upper)) as (top & Et & Htop & Hmax); [destruct upper; [congruence|discriminate]|]. rewrite Et. cbn [bind].
    apply in_map_iff in Htop as (lt & Elt & Hlt). assert (Hlt1 : (-1 <= lt)%Z) by apply (Hg lt Hlt).
    set (M := Z.to_nat top). assert (HM : Z.of_nat M = (lt + 1)%Z) by (unfold M; lia).
    assert (Hle : forall l, In l upper -> (l <= lt)%Z) by (intros l Hl; specialize (Hmax (l + 1)%Z (in_map _ _ _ Hl)); lia).
    set (o := argsort upper). set (f := fun i => Z.to_nat (nth i upper 0 + 1)%Z).
    destruct (Hsort upper) as [HP HS]. fold o in HP, HS.
    assert (Hin : forall i, In i o -> In (nth i upper 0%Z) upper) by (intros i Hi; apply (Permutation_in _ HP), in_seq in Hi; apply nth_In; lia).
    assert (Hval : forall i, In i o -> (-1 <= nth i upper 0 <= lt)%Z) by (intros i Hi; specialize (Hin i Hi); split; [apply (Hg _ Hin)|auto]).
    set (g := fun i => nth i lower 0%Z).
    assert (Eo : o = concat (map (fun k => filter (fun i => f i =? k) o) (seq 0 (M + 1)))).
    { apply sorted_blocks.
      - clear - HS Hval. induction HS as [|x l H IH Hf]; constructor; auto; [apply IH; intros; apply Hval; now right|]. rewrite Forall_forall in *. intros y Hy. specialize (Hf y Hy).
        pose proof (Hval x (or_introl eq_refl)). unfold f. lia.
      - intros i Hi. specialize (Hval i Hi). unfold f. lia. }
    set (blocks := map (fun k => map g (filter (fun i => f i =? k) o)) (seq 0 (M + 1))).
    assert (Earr : map g o = concat blocks).
    { rewrite Eo at 1. rewrite concat_map, map_map. reflexivity. }
    assert (Ecounts : map (fun k => length (filter (Z.eqb (Z.of_nat k)) (map (fun l => (l + 1)%Z) upper))) (seq 0 (M + 1)) = map (@length Z) blocks).
    { unfold blocks. rewrite map_map. apply map_ext. intro k. rewrite count_order, map_length. fold o. f_equal. apply filter_ext_in. intros i Hi. specialize (Hval i Hi).
      unfold f. destruct (Z.eqb_spec (nth i upper 0 + 1)%Z (Z.of_nat k)), (Nat.eqb_spec (Z.to_nat (nth i upper 0 + 1)%Z) k); auto; lia. }
    fold M. rewrite Ecounts. fold g. rewrite Earr.
    assert (Esplit : split_at (concat blocks) 0 (removelast (cumsum 0 (map (@length Z) blocks))) = blocks).
    { unfold blocks. replace (M + 1) with (S M) by lia. cbn [seq map]. apply (split_at_concat _ _ []). }
    rewrite Esplit. eexists. split; [reflexivity|].
    assert (Hlen : length blocks = M + 1) by (unfold blocks; now rewrite map_length, seq_length).
    assert (Hblock : forall k, k < M + 1 -> nth_error blocks k = Some (group_of upper lower (Z.of_nat k - 1))).
    { intros k Hk. unfold blocks. rewrite nth_error_map, (nth_error_nth' _ 0) by (rewrite seq_length; auto). rewrite seq_nth by auto. cbn [option_map]. f_equal. unfold group_of. fold o. fold g. f_equal.
      apply filter_ext_in. intros i Hi. specialize (Hval i Hi). unfold f. cbn [Nat.add].
      destruct (Z.eqb_spec (nth i upper 0%Z) (Z.of_nat k - 1)), (Nat.eqb_spec (Z.to_nat (nth i upper 0 + 1)%Z) k); auto; lia. }
    destruct (in_dec Z.eq_dec (-1)%Z upper) as [Hn|Hn].
    - assert (Eu : unique_Z upper = map (fun k => Z.of_nat k - 1)%Z (seq 0 (M + 1))).
      { apply ssorted_same_Z; [apply unique_Z_sorted|apply ssorted_range|]. intro z. rewrite unique_Z_in, in_map_iff. split.
        - intro Hz. exists (Z.to_nat (z + 1)). pose proof (proj1 (Hg z Hz)). split; [lia|]. apply in_seq. specialize (Hle z Hz). lia.
        - intros (k & <- & Hk). apply in_seq in Hk. destruct (Nat.eq_dec k 0) as [->|Hk0]; [exact Hn|]. apply (proj2 (Hg lt Hlt)). lia. }
      rewrite Eu, map_length, seq_length, Hlen. rewrite Nat.ltb_irrefl. intros i label Hi Hl.
      rewrite nth_error_map in Hi. destruct (nth_error (seq 0 (M + 1)) i) as [k|] eqn:Ek; [|discriminate]. cbn in Hi. injection Hi as <-.
      pose proof (nth_error_Some (seq 0 (M + 1)) i) as Hs. rewrite Ek, seq_length in Hs. assert (Hi : i < M + 1) by (apply Hs; discriminate).
      apply (nth_error_nth _ _ 0) in Ek. rewrite seq_nth in Ek by auto. cbn in Ek. subst k. apply Hblock. auto.
    - assert (Hlt0 : (0 <= lt)%Z) by (assert (lt <> (-1)%Z) by congruence; lia).
      assert (Eu : unique_Z upper = map (fun k => Z.of_nat k - 1)%Z (seq 1 M)).
      { apply ssorted_same_Z; [apply unique_Z_sorted|apply ssorted_range|]. intro z. rewrite unique_Z_in, in_map_iff. split.
        - intro Hz. exists (Z.to_nat (z + 1)). pose proof (proj1 (Hg z Hz)). assert (z <> (-1)%Z) by congruence. split; [lia|]. apply in_seq. specialize (Hle z Hz). lia.
        - intros (k & <- & Hk). apply in_seq in Hk. apply (proj2 (Hg lt Hlt)). lia. }
      rewrite Eu, map_length, seq_length, Hlen. rewrite (proj2 (Nat.ltb_lt _ _)) by lia. intros i label Hi Hl.
      rewrite nth_error_map in Hi. destruct (nth_error (seq 1 M) i) as [k|] eqn:Ek; [|discriminate]. cbn in Hi. injection Hi as <-.
      pose proof (nth_error_Some (seq 1 M) i) as Hs. rewrite Ek, seq_length in Hs. assert (Hi : i < M) by (apply Hs; discriminate).
      apply (nth_error_nth _ _ 0) in Ek. rewrite seq_nth in Ek by auto. subst k. rewrite <- (Hblock (1 + i)) by lia. clear - Hlen. destruct blocks; cbn in *; [lia|auto].
  Qed.
End Groups.
