(** Joining sub-cluster labels. *)
From Coq Require Import List Arith Lia Bool ZArith Sorted Permutation.
From Verif Require Import Prelude Order P_Sort M_Linkage M_Layers P_LayersTop M_LayerTree S_LayerTree P_LayerTree M_Estimator P_Estimator
  M_SubClusters S_SubClusters.
Import ListNotations.
Local Open Scope nat_scope.

Lemma nodup_parts {A} (a b : list A) : NoDup (a ++ b) -> NoDup a /\ NoDup b /\ forall x, In x a -> ~ In x b.
Proof.
  induction a as [|y a IH]; cbn [app]; intro H; [split; [constructor|]; split; [exact H|intros x []]|].
  apply NoDup_cons_iff in H as [Hy H]. destruct (IH H) as (Ha & Hb & Hd). rewrite in_app_iff in Hy. split; [constructor; tauto|]. split; auto.
  intros x [<-|Hx]; [tauto|auto].
Qed.

(** ** Arrays *)
Lemma put_ok {A} (a : nat -> A) idx vals : length idx = length vals -> NoDup idx ->
  exists a', put a idx vals = Ok a' /\ (forall x, ~ In x idx -> a' x = a x) /\
    (forall i x v, nth_error idx i = Some x -> nth_error vals i = Some v -> a' x = v).
Proof.
  intros E N. unfold put. rewrite E, Nat.eqb_refl. eexists. split; [reflexivity|]. split.
  - intros x Hx. now apply assign_out.
  - intros i x v H1 H2. now apply (assign_in idx N a vals i).
Qed.

Lemma put_map {A} (a : nat -> A) idx (f : nat -> A) : NoDup idx ->
  exists a', put a idx (map f idx) = Ok a' /\ (forall x, ~ In x idx -> a' x = a x) /\ (forall x, In x idx -> a' x = f x).
Proof.
  intro N. destruct (put_ok a idx (map f idx) ltac:(now rewrite map_length) N) as (a' & E & H1 & H2). exists a'. split; auto. split; auto.
  intros x Hx. apply In_nth_error in Hx as (i & Hi). apply (H2 i x); auto. rewrite nth_error_map, Hi. reflexivity.
Qed.

(** ** Labels without gaps *)
Lemma unique_gap_free ls : gap_free ls -> ls <> [] ->
  exists (flag : Z) (m : nat), noise_flag (unique_Z ls) = Ok flag /\ Z.of_nat (length (unique_Z ls)) = (Z.of_nat m + flag)%Z /\
    (flag = 0 \/ flag = 1)%Z /\ (flag = 1%Z <-> In (-1)%Z ls) /\ (forall v, In v ls <-> (- flag <= v < Z.of_nat m)%Z).
Proof.
  intros Hg Hne.
  destruct (zmax_ok ls) as (t & Et & Ht & Hle); auto.
  set (M := Z.to_nat (t + 1)). assert (Hm1 : (-1 <= t)%Z) by apply (Hg t Ht).
  destruct (in_dec Z.eq_dec (-1)%Z ls) as [Hn|Hn].
  - exists 1%Z, M.
    assert (Hv : forall v, In v ls <-> (- (1) <= v < Z.of_nat M)%Z).
    { intro v. split; intro H.
      - specialize (Hle v H). pose proof (proj1 (Hg v H)). lia.
      - destruct (Z.eq_dec v (-1)) as [->|Hv]; auto. apply (proj2 (Hg t Ht)). lia. }
    assert (Eu : unique_Z ls = map (fun k => Z.of_nat k - 1)%Z (seq 0 (M + 1))).
    { apply ssorted_same_Z; [apply unique_Z_sorted|apply ssorted_range|]. intro z. rewrite unique_Z_in, in_map_iff, Hv. split.
      - intro H. exists (Z.to_nat (z + 1)). rewrite in_seq. lia.
      - intros (k & <- & Hk). apply in_seq in Hk. lia. }
    rewrite Eu, map_length, seq_length. replace (M + 1) with (S M) by lia. cbn [seq map noise_flag first_unique bind].
    split; [reflexivity|]. split; [lia|]. split; [auto|]. split; [tauto|auto].
  - assert (Ht0 : (0 <= t)%Z) by (assert (t <> (-1)%Z) by congruence; lia). exists 0%Z, M.
    assert (Hv : forall v, In v ls <-> (- (0) <= v < Z.of_nat M)%Z).
    { intro v. split; intro H.
      - specialize (Hle v H). pose proof (proj1 (Hg v H)). assert (v <> (-1)%Z) by congruence. lia.
      - apply (proj2 (Hg t Ht)). lia. }
    assert (Eu : unique_Z ls = map (fun k => Z.of_nat k - 1)%Z (seq 1 M)).
    { apply ssorted_same_Z; [apply unique_Z_sorted|apply ssorted_range|]. intro z. rewrite unique_Z_in, in_map_iff, Hv. split.
      - intro H. exists (Z.to_nat (z + 1)). rewrite in_seq. lia.
      - intros (k & <- & Hk). apply in_seq in Hk. lia. }
    rewrite Eu, map_length, seq_length. destruct M as [|M'] eqn:EM; [lia|]. cbn [seq map].
    split; [reflexivity|]. split; [lia|]. split; [auto|]. split; [split; [lia|tauto]|auto].
Qed.

(** ** Blocks of labels *)
Fixpoint start (r : Z) (widths : list Z) (k : nat) : Z :=
  match k, widths with
  | S k', w :: ws => start (r + w) ws k'
  | _, _ => r
  end.

Lemma start_le widths : (forall w, In w widths -> (0 <= w)%Z) -> forall k r, (r <= start r widths k)%Z.
Proof.
  induction widths as [|w ws IH]; intros H [|k] r; cbn [start]; try lia.
  specialize (IH ltac:(intros; apply H; now right) k (r + w)%Z). specialize (H w (or_introl eq_refl)). lia.
Qed.

Lemma start_mono widths : (forall w, In w widths -> (0 <= w)%Z) -> forall k k' r, k < k' -> k' < length widths ->
  (start r widths k + nth k widths 0 <= start r widths k')%Z.
Proof.
  intro H. induction widths as [|w ws IH]; intros k k' r Hk Hl; cbn [length] in *; [lia|].
  destruct k' as [|k']; [lia|]. destruct k as [|k]; cbn [start nth].
  - apply start_le. intros; apply H; now right.
  - apply IH; [intros; apply H; now right|lia|lia].
Qed.

Lemma in_concat_place clusters x : In x (concat clusters) <-> exists k i, at_place clusters k i x.
Proof.
  rewrite in_concat. split.
  - intros (pts & H1 & H2). apply In_nth_error in H1 as (k & Hk). apply In_nth_error in H2 as (i & Hi). exists k, i, pts. auto.
  - intros (k & i & pts & Hk & Hi). exists pts. split; eapply nth_error_In; eauto.
Qed.

Lemma at_place_cons pts clusters k i x : at_place (pts :: clusters) (S k) i x <-> at_place clusters k i x.
Proof. unfold at_place. reflexivity. Qed.

Section Blocks.
  Variables (clusters : list (list nat)) (widths : list Z) (loc : nat -> nat -> Z) (labels : nat -> Z).
  Hypothesis Hlen : length widths = length clusters.
  Hypothesis Hpos : forall w, In w widths -> (0 <= w)%Z.
  Hypothesis Hloc : forall k i x, at_place clusters k i x -> (0 <= loc k x < nth k widths 0)%Z /\ labels x = (loc k x + start 0 widths k)%Z.
  Hypothesis Hall : forall k v, k < length clusters -> (0 <= v < nth k widths 0)%Z -> exists i x, at_place clusters k i x /\ loc k x = v.

  Lemma place_lt k i x : at_place clusters k i x -> k < length widths.
  Proof. intros (pts & Hk & _). rewrite Hlen. apply nth_error_Some. congruence. Qed.

  Lemma blocks_order k i x k' i' x' : at_place clusters k i x -> at_place clusters k' i' x' -> k < k' -> (labels x < labels x')%Z.
  Proof.
    intros H H' Hk. pose proof (start_mono widths Hpos k k' 0 Hk (place_lt _ _ _ H')).
    destruct (Hloc _ _ _ H) as [A ->]. destruct (Hloc _ _ _ H') as [B ->]. lia.
  Qed.

  Lemma blocks_refine : refines clusters (fun k x x' => loc k x = loc k x') labels.
  Proof.
    intros k i x k' i' x' H H'. split.
    - intro E. assert (k = k').
      { destruct (lt_eq_lt_dec k k') as [[Hk| ->]|Hk]; auto; exfalso.
        - pose proof (blocks_order _ _ _ _ _ _ H H' Hk). lia.
        - pose proof (blocks_order _ _ _ _ _ _ H' H Hk). lia. }
      subst k'. split; auto. destruct (Hloc _ _ _ H) as [_ E1]. destruct (Hloc _ _ _ H') as [_ E2]. lia.
    - intros [<- E]. destruct (Hloc _ _ _ H) as [_ E1]. destruct (Hloc _ _ _ H') as [_ E2]. lia.
  Qed.

  Lemma find_block : forall ws r v, (forall w, In w ws -> (0 <= w)%Z) -> (r <= v < start r ws (length ws))%Z ->
    exists k, k < length ws /\ (start r ws k <= v < start r ws k + nth k ws 0)%Z.
  Proof.
    induction ws as [|w ws IH]; intros r v H Hv; cbn [start length] in *; [lia|].
    destruct (Z_lt_le_dec v (r + w)) as [Hlt|Hge].
    - exists 0. cbn [start nth]. split; lia.
    - destruct (IH (r + w)%Z v) as (k & Hk & Hb); [intros; apply H; now right|lia|]. exists (S k). cbn [start nth]. split; [lia|auto].
  Qed.

  Lemma start_end : forall ws r k, (forall w, In w ws -> (0 <= w)%Z) -> k < length ws -> (start r ws k + nth k ws 0 <= start r ws (length ws))%Z.
  Proof.
    induction ws as [|w ws IH]; intros r k H Hk; cbn [length] in *; [lia|]. destruct k as [|k]; cbn [start nth].
    - apply start_le. intros; apply H; now right.
    - apply IH; [intros; apply H; now right|lia].
  Qed.

  Lemma blocks_consecutive : consecutive clusters labels.
  Proof.
    split.
    - exists (start 0 widths (length widths)). split; [apply start_le; auto|]. intro l. split.
      + intro Hl. destruct (find_block widths 0%Z l Hpos Hl) as (k & Hk & Hb).
        destruct (Hall k (l - start 0 widths k)%Z) as (i & x & Hp & E); [lia|lia|]. exists x. split; [apply in_concat_place; eauto|].
        destruct (Hloc _ _ _ Hp) as [_ E']. lia.
      + intros (x & Hx & <-). apply in_concat_place in Hx as (k & i & Hp). destruct (Hloc _ _ _ Hp) as [Hb ->].
        pose proof (start_le widths Hpos k 0). pose proof (start_end widths 0%Z k Hpos (place_lt _ _ _ Hp)). lia.
    - intros k i x k' i' x'. apply blocks_order.
  Qed.
End Blocks.

(** ** update_labels *)
Section Update.
  Context {P Lens : Type} (average : P -> P -> P).
  Notation piece := (piece P Lens).

  Definition right_place (s0 s : joined P Lens) (labels : Z -> Z) (c : piece) : Prop :=
    forall i x, nth_error (pc_points c) i = Some x ->
      exists l p q, nth_error (pc_labels c) i = Some l /\ nth_error (pc_probs c) i = Some p /\ nth_error (pc_lens c) i = Some q /\
        j_labels s x = labels l /\ j_sub s x = l /\ j_sub_probs s x = p /\ j_probs s x = average (j_probs s0 x) p /\ j_lens s x = q.

  Definition same_state (s0 s : joined P Lens) (x : nat) : Prop :=
    j_labels s x = j_labels s0 x /\ j_sub s x = j_sub s0 x /\ j_sub_probs s x = j_sub_probs s0 x /\ j_probs s x = j_probs s0 x /\
    j_lens s x = j_lens s0 x.

  Definition width (ls : list Z) : Z := Z.of_nat (length (unique_Z ls)).
  Definition flag_of (ls : list Z) : Z := match noise_flag (unique_Z ls) with Ok f => f | Err _ => 0%Z end.

  Lemma gap_free_flag ls : gap_free ls -> ls <> [] -> noise_flag (unique_Z ls) = Ok (flag_of ls).
  Proof. intros H H'. unfold flag_of. destruct (unique_gap_free ls H H') as (f & m & -> & _). reflexivity. Qed.

  Lemma update_loop_ok pieces : separate (map pc_points pieces) -> (forall c, In c pieces -> good_piece c) ->
    forall r s, exists s', update_loop average pieces r s = Ok s' /\
      (forall x, ~ In x (concat (map pc_points pieces)) -> same_state s s' x) /\
      (forall k c, nth_error pieces k = Some c ->
         right_place s s' (fun l => l + flag_of (pc_labels c) + start r (map (fun c => width (pc_labels c)) pieces) k)%Z c).
  Proof.
    induction pieces as [|c pieces IH]; intros [HN Hne] HG r s.
    - exists s. cbn [update_loop]. split; [reflexivity|]. split; [intros x _; repeat split|]. intros [|k] c H; discriminate H.
    - cbn [map concat] in *. destruct (HG c (or_introl eq_refl)) as (L1 & L2 & L3 & Hg).
      assert (Hc : pc_labels c <> []) by (intro E; rewrite E in L1; apply Hne; left; destruct (pc_points c); [auto|discriminate]).
      destruct (nodup_parts _ _ HN) as (HNc & HNr & Hdis).
      destruct (put_ok (j_labels s) (pc_points c) (map (fun l => l + flag_of (pc_labels c) + r)%Z (pc_labels c)) ltac:(rewrite map_length; auto) HNc) as (a1 & E1 & O1 & I1).
      destruct (put_ok (j_sub s) (pc_points c) (pc_labels c) ltac:(auto) HNc) as (a2 & E2 & O2 & I2).
      destruct (put_ok (j_sub_probs s) (pc_points c) (pc_probs c) ltac:(auto) HNc) as (a3 & E3 & O3 & I3).
      destruct (put_ok (j_probs s) (pc_points c) (map (fun xq => average (j_probs s (fst xq)) (snd xq)) (combine (pc_points c) (pc_probs c)))
                  ltac:(rewrite map_length, combine_length; lia) HNc) as (a4 & E4 & O4 & I4).
      destruct (put_ok (j_lens s) (pc_points c) (pc_lens c) ltac:(auto) HNc) as (a5 & E5 & O5 & I5).
      set (s1 := {| j_labels := a1; j_probs := a4; j_sub := a2; j_sub_probs := a3; j_lens := a5 |}).
      destruct (IH (conj HNr (fun H => Hne (or_intror H))) (fun c' Hc' => HG c' (or_intror Hc')) (r + width (pc_labels c))%Z s1) as (s' & E & HO & HI).
      exists s'. cbn [update_loop]. rewrite (gap_free_flag _ Hg Hc). cbn [bind]. rewrite E1, E2, E3, E4, E5. cbn [bind]. fold s1.
      split; [exact E|]. split.
      + intros x Hx. rewrite in_app_iff in Hx. destruct (HO x) as (H1 & H2 & H3 & H4 & H5); [tauto|].
        unfold same_state. rewrite H1, H2, H3, H4, H5. cbn. rewrite O1, O2, O3, O4, O5 by tauto. auto.
      + intros [|k] c' Hk.
        * injection Hk as <-. cbn [start]. intros i x Hi. assert (Hx : In x (pc_points c)) by (eapply nth_error_In; eauto).
          assert (Hil : i < length (pc_points c)) by (apply nth_error_Some; congruence).
          destruct (nth_error (pc_labels c) i) as [l|] eqn:El; [|apply nth_error_None in El; lia].
          destruct (nth_error (pc_probs c) i) as [p|] eqn:Ep; [|apply nth_error_None in Ep; lia].
          destruct (nth_error (pc_lens c) i) as [q|] eqn:Eq; [|apply nth_error_None in Eq; lia].
          exists l, p, q. split; auto. split; auto. split; auto.
          destruct (HO x (Hdis x Hx)) as (H1 & H2 & H3 & H4 & H5). rewrite H1, H2, H3, H4, H5. cbn.
          rewrite (I1 i x (l + flag_of (pc_labels c) + r)%Z Hi) by (rewrite nth_error_map, El; reflexivity). rewrite (I2 i x l Hi El), (I3 i x p Hi Ep), (I5 i x q Hi Eq).
          rewrite (I4 i x (average (j_probs s x) p) Hi); [auto|]. rewrite nth_error_map.
          assert (Ec : nth_error (combine (pc_points c) (pc_probs c)) i = Some (x, p)).
          { clear - Hi Ep. revert i Hi Ep. generalize (pc_probs c). induction (pc_points c) as [|y ys IH]; intros [|z zs] [|i] H1 H2; try discriminate; cbn in *; [congruence|auto]. }
          rewrite Ec. reflexivity.
        * cbn [nth_error] in Hk. specialize (HI k c' Hk). cbn [map start]. intros i x Hi.
          destruct (HI i x Hi) as (l & p & q & Hl & Hp & Hq & H1 & H2 & H3 & H4 & H5). exists l, p, q. repeat (split; auto).
          rewrite H4. cbn. rewrite O4; auto. intro Hx. apply (Hdis x Hx). apply in_concat. exists (pc_points c'). split; [apply in_map; eapply nth_error_In; eauto|eapply nth_error_In; eauto].
  Qed.

  (** The joined labels. *)
  Lemma update_labels_ok zero no_lens cluster_probabilities (pieces : list piece) :
    separate (map pc_points pieces) -> (forall c, In c pieces -> good_piece c) ->
    exists s, update_labels average zero no_lens cluster_probabilities pieces = Ok s /\
      (forall x, ~ In x (concat (map pc_points pieces)) ->
         j_labels s x = (-1)%Z /\ j_sub s x = 0%Z /\ j_sub_probs s x = zero /\ j_probs s x = cluster_probabilities x /\ j_lens s x = no_lens) /\
      (forall c i x, In c pieces -> nth_error (pc_points c) i = Some x ->
         nth_error (pc_labels c) i = Some (j_sub s x) /\ nth_error (pc_probs c) i = Some (j_sub_probs s x) /\
         nth_error (pc_lens c) i = Some (j_lens s x) /\ j_probs s x = average (cluster_probabilities x) (j_sub_probs s x)) /\
      refines (map pc_points pieces) (fun _ x y => j_sub s x = j_sub s y) (j_labels s) /\
      consecutive (map pc_points pieces) (j_labels s).
  Proof.
    intros HS HG.
    destruct (update_loop_ok pieces HS HG 0%Z {| j_labels := fun _ => (-1)%Z; j_probs := cluster_probabilities; j_sub := fun _ => 0%Z;
                            j_sub_probs := fun _ => zero; j_lens := fun _ => no_lens |}) as (s & E & HO & HI).
    exists s. split; [exact E|]. split; [exact HO|].
    split.
    { intros c i x Hc Hi. apply In_nth_error in Hc as (k & Hk). destruct (HI k c Hk i x Hi) as (l & p & q & Hl & Hp & Hq & H1 & H2 & H3 & H4 & H5).
      cbn in H4. rewrite H2, H3, H5, H4. auto. }
    set (clusters := map pc_points pieces). set (widths := map (fun c => width (pc_labels c)) pieces).
    set (loc := fun (k x : nat) => (j_sub s x + flag_of (nth k (map pc_labels pieces) []))%Z).
    assert (Hlen : length widths = length clusters) by (unfold widths, clusters; now rewrite !map_length).
    assert (Hpos : forall w, In w widths -> (0 <= w)%Z) by (intros w Hw; apply in_map_iff in Hw as (c & <- & _); unfold width; lia).
    assert (Hpiece : forall k i x, at_place clusters k i x -> exists c l, nth_error pieces k = Some c /\ nth_error (pc_points c) i = Some x /\ nth_error (pc_labels c) i = Some l /\
              j_sub s x = l /\ j_labels s x = (l + flag_of (pc_labels c) + start 0 widths k)%Z).
    { intros k i x (pts & Hk & Hi). unfold clusters in Hk. rewrite nth_error_map in Hk. destruct (nth_error pieces k) as [c|] eqn:Ek; [|discriminate].
      injection Hk as <-. destruct (HI k c Ek i x Hi) as (l & p & q & Hl & _ & _ & H1 & H2 & _). exists c, l. auto. }
    assert (Hfacts : forall k c, nth_error pieces k = Some c -> nth k (map pc_labels pieces) [] = pc_labels c /\ nth k widths 0%Z = width (pc_labels c) /\ gap_free (pc_labels c) /\ pc_labels c <> [] /\ length (pc_labels c) = length (pc_points c)).
    { intros k c Hk. pose proof (nth_error_In _ _ Hk) as Hin. destruct (HG c Hin) as (L1 & _ & _ & Hg). split; [apply nth_error_nth; rewrite nth_error_map, Hk; reflexivity|].
      split; [apply nth_error_nth; unfold widths; rewrite nth_error_map, Hk; reflexivity|]. split; auto. split; auto.
      intro E0. rewrite E0 in L1. destruct HS as [_ HS]. apply HS. apply in_map_iff. exists c. split; auto. destruct (pc_points c); [auto|discriminate]. }
    assert (Hloc : forall k i x, at_place clusters k i x -> (0 <= loc k x < nth k widths 0)%Z /\ j_labels s x = (loc k x + start 0 widths k)%Z).
    { intros k i x Hp. destruct (Hpiece k i x Hp) as (c & l & Hk & Hi & Hl & H2 & H1). destruct (Hfacts k c Hk) as (F1 & F2 & Hg & Hne & _).
      unfold loc. rewrite F1, F2, H2. split; [|lia]. destruct (unique_gap_free _ Hg Hne) as (f & m & Ef & Ew & Hf & _ & Hv).
      unfold flag_of, width. rewrite Ef, Ew. apply nth_error_In in Hl. apply Hv in Hl. lia. }
    assert (Hall : forall k v, k < length clusters -> (0 <= v < nth k widths 0)%Z -> exists i x, at_place clusters k i x /\ loc k x = v).
    { intros k v Hk Hv. unfold clusters in Hk. rewrite map_length in Hk. destruct (nth_error pieces k) as [c|] eqn:Ek; [|apply nth_error_None in Ek; lia].
      destruct (Hfacts k c Ek) as (F1 & F2 & Hg & Hne & Hl). rewrite F2 in Hv. destruct (unique_gap_free _ Hg Hne) as (f & m & Ef & Ew & Hf & _ & Hvs).
      assert (Hin : In (v - f)%Z (pc_labels c)) by (apply Hvs; unfold width in Hv; lia). apply In_nth_error in Hin as (i & Hi).
      assert (i < length (pc_points c)) by (rewrite <- Hl; apply nth_error_Some; congruence).
      destruct (nth_error (pc_points c) i) as [x|] eqn:Ex; [|apply nth_error_None in Ex; lia].
      exists i, x. split; [exists (pc_points c); split; auto; unfold clusters; rewrite nth_error_map, Ek; reflexivity|].
      destruct (HI k c Ek i x Ex) as (l & p & q & Hl' & _ & _ & _ & H2 & _). unfold loc. rewrite F1, H2. unfold flag_of. rewrite Ef. rewrite Hi in Hl'. injection Hl' as <-. lia. }
    split; [|eapply blocks_consecutive; eauto].
    pose proof (blocks_refine clusters widths loc (j_labels s) Hlen Hpos Hloc) as HR. intros k i x k' i' x' H H'. rewrite (HR k i x k' i' x' H H'). unfold loc. split; intros [-> ?]; split; auto; lia.
  Qed.
End Update.
