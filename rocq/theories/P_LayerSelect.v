(** Similarity of layers and the choice of peaks. *)
From Coq Require Import List Arith Lia Bool ZArith QArith Sorted Permutation.
From Verif Require Import Prelude Order Size M_Layers S_Layers.
Import ListNotations.
Local Open Scope nat_scope.

Lemma mem_iff (x : nat) l : existsb (Nat.eqb x) l = true <-> In x l.
Proof. rewrite existsb_exists. split; [intros (y & H & E); apply Nat.eqb_eq in E; congruence|]. intro H. exists x. split; auto. apply Nat.eqb_refl. Qed.

Lemma jaccard_loop_ok items : NoDup items -> forall u c, NoDup u ->
  exists common u', jaccard_loop items u c = (c + length common, u') /\ NoDup common /\ NoDup u' /\
    (forall x, In x common <-> In x items /\ In x u) /\ (forall x, In x u' <-> In x items \/ In x u).
Proof.
  induction 1 as [|a l Ha HN IH]; intros u c Hu; cbn [jaccard_loop].
  - exists [], u. rewrite Nat.add_0_r. split; auto. split; [constructor|]. split; auto. split; intro x; cbn; tauto.
  - destruct (existsb (Nat.eqb a) u) eqn:E.
    + apply mem_iff in E. destruct (IH u (S c) Hu) as (cm & u' & E1 & N1 & N2 & C & U). exists (a :: cm), u'. rewrite E1. split; [f_equal; cbn; lia|].
      split; [constructor; auto; rewrite C; tauto|]. split; auto. split; intro x; cbn; rewrite ?C, ?U; [|split]; intuition (subst; auto).
    + assert (Hn : ~ In a u) by (rewrite <- mem_iff; congruence).
      destruct (IH (a :: u) c ltac:(now constructor)) as (cm & u' & E1 & N1 & N2 & C & U). exists cm, u'. rewrite E1. split; auto. split; auto. split; auto.
      split; intro x; cbn; rewrite ?C, ?U; cbn; intuition (subst; auto; contradiction).
Qed.

Lemma jaccard_ok a b : NoDup b -> jaccard_index a b (jaccard_similarity a b).
Proof.
  intro Hb. unfold jaccard_similarity. destruct (jaccard_loop_ok b Hb (nodup Nat.eq_dec a) 0 (NoDup_nodup _ _)) as (cm & u & E & N1 & N2 & C & U).
  rewrite E. cbn [Nat.add]. exists cm, u. split; auto. split; auto. split; [intro x; rewrite C, nodup_In; tauto|]. split; [intro x; rewrite U, nodup_In; tauto|].
  now destruct (length u).
Qed.

Lemma jaccard_index_bounds a b q : jaccard_index a b q -> (0 <= q)%Q /\ (q <= 1)%Q.
Proof.
  intros (cm & all & N1 & N2 & C & A & ->). assert (Hle : length cm <= length all).
  { apply NoDup_incl_length; auto. intros x Hx. apply A. apply C in Hx. tauto. }
  destruct (length all) as [|k] eqn:E; [split; discriminate|]. unfold Qle. cbn [Qnum Qden]. change (Qnum 0) with 0%Z. change (Qnum 1) with 1%Z. change (QDen 0) with 1%Z. change (QDen 1) with 1%Z.
  assert (Z.pos (Pos.of_nat (S k)) = Z.of_nat (S k)) as -> by lia. split; lia.
Qed.

Lemma jaccard_index_sym a b q : jaccard_index a b q -> jaccard_index b a q.
Proof. intros (cm & all & N1 & N2 & C & A & E). exists cm, all. split; auto. split; auto. split; [intro x; rewrite C; tauto|]. split; auto. intro x. rewrite A. tauto. Qed.

Lemma jaccard_index_fun a b q q' : jaccard_index a b q -> jaccard_index a b q' -> q = q'.
Proof.
  intros (cm & all & N1 & N2 & C & A & ->) (cm' & all' & N1' & N2' & C' & A' & ->).
  assert (H1 : length cm = length cm') by (apply Permutation_length, NoDup_Permutation; auto; intro x; rewrite C, C'; tauto).
  assert (H2 : length all = length all') by (apply Permutation_length, NoDup_Permutation; auto; intro x; rewrite A, A'; tauto).
  now rewrite H1, H2.
Qed.

Section Select.
  Variables (sim : nat -> nat -> Q) (threshold : Q) (max_layers : nat) (size_at : nat -> nat).
  Notation like p q := (threshold < sim (size_at p) (size_at q))%Q.

  Lemma qle_false x y : negb (Qle_bool x y) = true <-> (y < x)%Q.
  Proof.
    rewrite negb_true_iff. split; intro H.
    - apply Qnot_le_lt. intro Hle. apply Qle_bool_iff in Hle. congruence.
    - destruct (Qle_bool x y) eqn:E; auto. apply Qle_bool_iff in E. exfalso. now apply (Qlt_not_le _ _ H).
  Qed.

  Lemma select_ok : forall peaks selected,
    ForallOrdPairs (fun q p => ~ like p q) selected -> length selected <= max_layers ->
    let out := select_loop sim threshold max_layers size_at peaks selected in
    ForallOrdPairs (fun q p => ~ like p q) out /\ length out <= max_layers /\
    (exists new, out = selected ++ new /\ incl new peaks /\ (NoDup (selected ++ peaks) -> NoDup out)) /\
    (forall l1 p l2, peaks = l1 ++ p :: l2 -> In p out \/ length out = max_layers \/ exists q, In q out /\ In q (selected ++ l1) /\ like p q).
  Proof.
    induction peaks as [|p peaks IH]; intros selected HP Hl; cbn [select_loop].
    - split; auto. split; auto. split; [exists []; rewrite app_nil_r; split; auto; split; [apply incl_refl|auto]|]. intros [|? ?] ? ? E; discriminate.
    - destruct (Nat.leb_spec max_layers (length selected)) as [Hm|Hm].
      { split; auto. split; auto. split; [exists []; rewrite app_nil_r; split; auto; split; [intros x []|]|].
        - intro HN. apply NoDup_app_iff in HN. tauto.
        - intros. right. left. lia. }
      destruct (existsb (fun q => negb (Qle_bool (sim (size_at p) (size_at q)) threshold)) selected) eqn:E.
      + destruct (IH selected HP Hl) as (H1 & H2 & (new & H3 & H4 & H5) & H6). split; auto. split; auto. split.
        { exists new. split; auto. split; [intros x Hx; right; auto|]. intro HN. apply H5. apply NoDup_remove in HN. tauto. }
        intros [|a l1] p' l2 Ep; injection Ep as <- Ep.
        * right. right. apply existsb_exists in E as (q & Hq & Hs). exists q. rewrite qle_false in Hs. rewrite app_nil_r. split; auto. rewrite H3. apply in_or_app. auto.
        * destruct (H6 l1 p' l2 Ep) as [H|[H|(q & Hq1 & Hq2 & Hq3)]]; auto. right. right. exists q. split; auto. split; auto. apply in_app_or in Hq2. apply in_or_app. cbn. tauto.
      + assert (HP' : ForallOrdPairs (fun q p => ~ like p q) (selected ++ [p])).
        { assert (Hall : forall q, In q selected -> ~ like p q).
          { intros q Hq Hs. assert (Ht : existsb (fun q => negb (Qle_bool (sim (size_at p) (size_at q)) threshold)) selected = true); [|congruence].
            apply existsb_exists. exists q. split; auto. now apply qle_false. }
          clear - HP Hall. induction HP as [|q l Hq HP IH]; cbn; [constructor; constructor|]. constructor.
          - apply Forall_app. split; auto. constructor; [apply Hall; now left|constructor].
          - apply IH. intros; apply Hall; now right. }
        destruct (IH (selected ++ [p]) HP' ltac:(rewrite app_length; cbn; lia)) as (H1 & H2 & (new & H3 & H4 & H5) & H6). split; auto. split; auto. split.
        { exists (p :: new). split; [rewrite H3, <- app_assoc; reflexivity|]. split; [intros x [->|Hx]; [now left|right; auto]|]. intro HN. apply H5. now rewrite <- app_assoc. }
        intros [|a l1] p' l2 Ep; injection Ep as <- Ep.
        * left. rewrite H3. apply in_or_app. left. apply in_or_app. right. now left.
        * destruct (H6 l1 p' l2 Ep) as [H|[H|(q & Hq1 & Hq2 & Hq3)]]; auto. right. right. exists q. split; auto. split; auto. rewrite <- app_assoc in Hq2. apply in_app_or in Hq2. apply in_or_app. auto.
  Qed.

  Lemma select_first p peaks : 1 <= max_layers -> exists l, select_loop sim threshold max_layers size_at (p :: peaks) [] = p :: l.
  Proof.
    intro Hm. cbn [select_loop length existsb]. destruct (Nat.leb_spec max_layers 0); [lia|].
    assert (Hx : forall peaks sel, exists l, select_loop sim threshold max_layers size_at peaks sel = sel ++ l).
    { clear. induction peaks as [|p peaks IH]; intro sel; cbn [select_loop]; [exists []; now rewrite app_nil_r|].
      destruct (max_layers <=? length sel); [exists []; now rewrite app_nil_r|].
      destruct (existsb _ sel); auto. destruct (IH (sel ++ [p])) as (l & ->). exists (p :: l). now rewrite <- app_assoc. }
    destruct (Hx peaks ([] ++ [p])) as (l & ->). exists l. reflexivity.
  Qed.
End Select.

Lemma ssorted_end {A} (R : A -> A -> Prop) l x : StronglySorted R l -> (forall y, In y l -> R y x) -> StronglySorted R (l ++ [x]).
Proof.
  induction 1 as [|a l H IH Hf]; intro Hx; cbn; [constructor; constructor|]. constructor; [apply IH; intros; apply Hx; now right|].
  apply Forall_app. split; auto. constructor; [apply Hx; now left|constructor].
Qed.
Lemma ssorted_split {A} (R : A -> A -> Prop) l1 x l2 : StronglySorted R (l1 ++ x :: l2) -> forall y, In y l1 -> R y x.
Proof.
  induction l1 as [|a l1 IH]; intros H y Hy; [destruct Hy|]. cbn in H. inversion H as [|? ? H1 Hf]; subst. destruct Hy as [->|Hy]; auto.
  rewrite Forall_forall in Hf. apply Hf, in_or_app. right. now left.
Qed.

Section Peaks.
  Context {P : WOrd} {D : Type}.
  Variables (argsort : list P -> list nat) (pzero : P) (peaks : list nat) (total : list P) (sizes : list nat) (b : barcode D) (threshold : Q) (max_layers : nat).
  Hypothesis Hsort : argsorts argsort.
  Notation similar p q := (exists j, jaccard_index (alive b (nth p sizes 0)) (alive b (nth q sizes 0)) j /\ (threshold < j)%Q).
  Notation out := (select_diverse_peaks argsort pzero peaks total sizes b threshold max_layers).
  Notation value p := (nth p total pzero).
  Notation order := (map (fun i => nth i peaks 0) (rev (argsort (map (fun p => nth p total pzero) peaks)))).

  Lemma alive_nodup s : NoDup (alive b s).
  Proof. apply NoDup_filter, seq_NoDup. Qed.

  Lemma similar_iff p q : (threshold < estimate_cluster_similarity b (nth p sizes 0%nat) (nth q sizes 0%nat))%Q <-> similar p q.
  Proof.
    unfold estimate_cluster_similarity. split.
    - intro H. eexists. split; [apply jaccard_ok, alive_nodup|auto].
    - intros (j & Hj & H). now rewrite (jaccard_index_fun _ _ _ _ (jaccard_ok _ _ (alive_nodup _)) Hj).
  Qed.

  Lemma order_perm : Permutation order peaks.
  Proof.
    rewrite <- Permutation_rev. rewrite (proj1 (Hsort _)), map_length.
    clear. induction peaks as [|p l IH]; auto. cbn [length seq map nth]. apply perm_skip. rewrite <- seq_shift, map_map. exact IH.
  Qed.

  Lemma order_sorted : StronglySorted (fun p q => wle (value q) (value p) = true) order.
  Proof.
    destruct (Hsort (map (fun p => nth p total pzero) peaks)) as [HP HS].
    assert (Hin : forall i, In i (argsort (map (fun p => nth p total pzero) peaks)) -> i < length peaks).
    { intros i Hi. apply (Permutation_in _ HP) in Hi. apply in_seq in Hi. rewrite map_length in Hi. lia. }
    clear HP. induction HS as [|i l HS IH Hf]; [constructor|]. cbn [rev]. rewrite map_app. cbn [map].
    assert (IH' : StronglySorted (fun p q => wle (value q) (value p) = true) (map (fun i => nth i peaks 0) (rev l))) by (apply IH; intros; apply Hin; now right).
    apply ssorted_end; auto. intros p Hp. apply in_map_iff in Hp as (j & <- & Hj). apply in_rev in Hj.
    rewrite Forall_forall in Hf. specialize (Hf j Hj). pose proof (Hin i (or_introl eq_refl)) as Hi'. pose proof (Hin j (or_intror Hj)) as Hj'.
    rewrite (nth_indep _ winf (nth 0 total pzero)) in Hf by now rewrite map_length. rewrite (nth_indep _ winf (nth 0 total pzero)) in Hf by now rewrite map_length.
    now rewrite !(map_nth (fun p => nth p total pzero)) in Hf.
  Qed.

  Lemma peaks_selected : NoDup peaks ->
    incl out peaks /\ NoDup out /\ length out <= max_layers /\
    (forall p q, In p out -> In q out -> p <> q -> ~ similar p q) /\
    (forall p, In p peaks -> In p out \/ length out = max_layers \/ exists q, In q out /\ similar p q /\ wle (value p) (value q) = true) /\
    (peaks <> [] -> 1 <= max_layers -> exists p, In p out /\ forall q, In q peaks -> wle (value q) (value p) = true).
  Proof.
    intro HN. destruct (select_ok (estimate_cluster_similarity b) threshold max_layers (fun p => nth p sizes 0) order [] ltac:(constructor) ltac:(cbn; lia)) as (H1 & H2 & (new & H3 & H4 & H5) & H6).
    fold out in H1, H2, H3, H5, H6. cbn [app] in *.
    assert (HNo : NoDup out) by (apply H5, (Permutation_NoDup (Permutation_sym order_perm)); auto).
    split; [intros p Hp; apply (Permutation_in _ order_perm), H4; now rewrite <- H3|]. split; auto. split; auto. split; [|split].
    - intros p q Hp Hq Hne Hs.
      assert (Hs' : similar q p) by (destruct Hs as (j & Hj & Hlt); exists j; split; auto; now apply jaccard_index_sym).
      clear - H1 Hp Hq Hne Hs Hs'. induction H1 as [|a l Ha H1 IH]; [destruct Hp|]. rewrite Forall_forall in Ha.
      destruct Hp as [->|Hp], Hq as [->|Hq]; [congruence| | |auto].
      + apply (Ha q Hq). now apply similar_iff.
      + apply (Ha p Hp). now apply similar_iff.
    - intros p Hp. apply (Permutation_in _ (Permutation_sym order_perm)) in Hp. apply in_split in Hp as (l1 & l2 & E).
      destruct (H6 l1 p l2 E) as [H|[H|(q & Hq1 & Hq2 & Hq3)]]; auto. right. right. exists q. split; auto. split; [now apply similar_iff|].
      pose proof order_sorted as HS. rewrite E in HS. exact (ssorted_split _ _ _ _ HS q Hq2).
    - intros Hne Hm. destruct order as [|p l] eqn:E; [exfalso; apply Hne, Permutation_nil; rewrite <- E; apply order_perm|].
      destruct (select_first (estimate_cluster_similarity b) threshold max_layers (fun p => nth p sizes 0) p l Hm) as (l' & El). exists p. split.
      + unfold select_diverse_peaks. rewrite E, El. now left.
      + intros q Hq. apply (Permutation_in _ (Permutation_sym order_perm)) in Hq. pose proof order_sorted as HS. rewrite E in *. destruct Hq as [->|Hq]; [apply wle_refl|].
        inversion HS as [|? ? _ Hf]; subst. rewrite Forall_forall in Hf. now apply Hf.
  Qed.
End Peaks.
