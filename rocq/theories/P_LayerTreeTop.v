(** The tree of clusters across layers: the search and the dictionary. *)
From Coq Require Import List Arith Lia Bool ZArith Sorted Permutation.
From Verif Require Import Prelude Order P_Sort P_Below M_Linkage M_Layers S_Layers P_LayersTop M_LayerTree S_LayerTree P_LayerTree.
Import ListNotations.
Local Open Scope nat_scope.

Definition key (r : tree_row) : nat * Z := (t_child_layer r, t_child r).
Definition trow u p l c : tree_row := {| t_parent_layer := u; t_parent := p; t_child_layer := l; t_child := c |}.

(** ** First occurrences *)
Definition add (st : search_state) (r : tree_row) : search_state := visit_child (t_parent_layer r) (t_parent r) (t_child_layer r) st (t_child r).

Lemma fold_add cs : forall mapping found, fold_left add cs ([], fun _ => [(-1)%Z]) = (mapping, found) ->
  NoDup (map key mapping) /\
  (forall l c, In c (found l) <-> c = (-1)%Z \/ In (l, c) (map key mapping)) /\
  (forall r, In r mapping -> (0 <= t_child r)%Z /\ exists c1 c2, cs = c1 ++ r :: c2 /\ ~ In (key r) (map key c1)) /\
  (forall r, In r cs -> (0 <= t_child r)%Z -> In (key r) (map key mapping)).
Proof.
  induction cs as [|r cs IH] using rev_ind; intros mapping found E.
  - cbn in E. injection E as <- <-. cbn. split; [constructor|]. split; [intros l c; split; [intros [<-|[]]; auto|intros [->|[]]; auto]|]. split; intros r [].
  - rewrite fold_left_app in E. cbn [fold_left] in E. destruct (fold_left add cs _) as [m f]. destruct (IH m f eq_refl) as (I1 & I2 & I3 & I4). clear IH.
    unfold add, visit_child in E. destruct r as [u p l c]. cbn in E.
    destruct ((0 <=? c)%Z && negb (existsb (Z.eqb c) (f l))) eqn:Ec; injection E as <- <-.
    + apply andb_true_iff in Ec as [Hc Hn]. apply Z.leb_le in Hc. apply negb_true_iff in Hn.
      assert (Hnew : ~ In (l, c) (map key m)).
      { intro H. assert (Hi : In c (f l)) by (apply I2; auto). assert (existsb (Z.eqb c) (f l) = true); [|congruence].
        apply existsb_exists. exists c. split; auto. apply Z.eqb_refl. }
      rewrite map_app. cbn [map key t_child_layer t_child]. split; [|split; [|split]].
      * apply (Permutation_NoDup (Permutation_cons_append (map key m) (l, c))). now constructor.
      * intros l' c'. rewrite in_app_iff. destruct (Nat.eq_dec l' l) as [->|Hne]; [rewrite upd_eq|rewrite upd_neq by auto].
        -- cbn [In]. rewrite I2. split; [intros [<-|[H|H]]; auto|intros [H|[H|[H|[]]]]; auto]. left. unfold key in H. cbn in H. congruence.
        -- rewrite I2. split; [intros [H|H]; auto|intros [H|[H|[H|[]]]]; auto]. unfold key in H. cbn in H. congruence.
      * intros r Hr. apply in_app_or in Hr as [Hr|[<-|[]]].
        -- destruct (I3 r Hr) as (H0 & c1 & c2 & -> & Hf). split; auto. exists c1, (c2 ++ [trow u p l c]). rewrite <- app_assoc. auto.
        -- split; auto. exists cs, []. split; auto. intro H. apply Hnew. apply in_map_iff in H as (q & Eq & Hq).
           change ((l, c)) with (key (trow u p l c)). change (key q = key (trow u p l c)) in Eq. rewrite <- Eq. apply I4; auto. unfold key in Eq. injection Eq as _ ->. auto.
      * intros r Hr H0. rewrite in_app_iff. apply in_app_or in Hr as [Hr|[<-|[]]]; [left; auto|right; now left].
    + split; auto. split; auto. split.
      * intros r Hr. destruct (I3 r Hr) as (H0 & c1 & c2 & -> & Hf). split; auto. exists c1, (c2 ++ [trow u p l c]). rewrite <- app_assoc. auto.
      * intros r Hr H0. apply in_app_or in Hr as [Hr|[<-|[]]]; auto. cbn in *. apply andb_false_iff in Ec as [Ec|Ec]; [apply Z.leb_gt in Ec; lia|].
        apply negb_false_iff, existsb_exists in Ec as (c' & Hc' & E'). apply Z.eqb_eq in E'. subst c'. apply I2 in Hc' as [->|H]; [lia|auto].
Qed.

(** ** Sorting *)
Lemma ss_app {A} (R : A -> A -> Prop) l l' : StronglySorted R l -> StronglySorted R l' -> (forall x y, In x l -> In y l' -> R x y) -> StronglySorted R (l ++ l').
Proof.
  induction 1 as [|x l Hs IH Hf]; intros H' H; auto. cbn. constructor; [apply IH; auto; intros; apply H; auto; now right|].
  apply Forall_app. split; auto. apply Forall_forall. intros y Hy. apply H; auto. now left.
Qed.

Lemma ss_flat_map {A B} (R : B -> B -> Prop) (f : A -> list B) l :
  (forall a, In a l -> StronglySorted R (f a)) -> StronglySorted (fun a b => forall x y, In x (f a) -> In y (f b) -> R x y) l ->
  StronglySorted R (flat_map f l).
Proof.
  intros H Hs. induction Hs as [|a l Hs IH Hf]; cbn; [constructor|]. apply ss_app; [apply H; now left|apply IH; intros; apply H; now right|].
  intros x y Hx Hy. apply in_flat_map in Hy as (b & Hb & Hy). rewrite Forall_forall in Hf. eapply Hf; eauto.
Qed.

Lemma ss_weaken {A} (R R' : A -> A -> Prop) l : (forall x y, In x l -> In y l -> R x y -> R' x y) -> StronglySorted R l -> StronglySorted R' l.
Proof.
  intros H Hs. induction Hs as [|a l Hs IH Hf]; constructor; [apply IH; intros; apply H; auto; now right|].
  rewrite Forall_forall in *. intros y Hy. apply H; auto; [now left|now right].
Qed.

Lemma ss_seq a k : StronglySorted lt (seq a k).
Proof. revert a. induction k as [|k IH]; intro a; cbn; constructor; auto. apply Forall_forall. intros x Hx. apply in_seq in Hx. lia. Qed.

Lemma ss_rev_seq k : StronglySorted (fun a b => b < a) (rev (seq 0 k)).
Proof.
  induction k as [|k IH]; [constructor|]. rewrite seq_S, rev_app_distr. cbn. constructor; auto. apply Forall_forall. intros x Hx. apply in_rev, in_seq in Hx. lia.
Qed.

Lemma ss_map {A B} (R : B -> B -> Prop) (f : A -> B) l : StronglySorted (fun a b => R (f a) (f b)) l -> StronglySorted R (map f l).
Proof.
  induction 1 as [|a l Hs IH Hf]; cbn; constructor; auto. rewrite Forall_forall in *. intros y Hy. apply in_map_iff in Hy as (b & <- & Hb). auto.
Qed.

Lemma ss_const {A} (R : A -> A -> Prop) l : (forall x y, In x l -> In y l -> R x y) -> StronglySorted R l.
Proof.
  induction l as [|a l IH]; intro H; constructor; [apply IH; intros; apply H; now right|]. apply Forall_forall. intros y Hy. apply H; [now left|now right].
Qed.

Section Tree.
  Variable argsort : list Z -> list nat.
  Hypothesis Hsort : argsorts_Z argsort.
  Variables (labels : list (list Z)) (N : nat).
  Hypothesis Hlen : forall l, In l labels -> length l = N.
  Hypothesis HN : 0 < N.
  Hypothesis Hgap : forall l, In l labels -> gap_free l.
  Notation n := (length labels).
  Notation layer i := (nth i labels []).
  Notation lab := (label_of labels).

  Lemma layer_in i : i < n -> In (layer i) labels.
  Proof. apply nth_In. Qed.
  Lemma layer_len i : i < n -> length (layer i) = N.
  Proof. intro H. apply Hlen, layer_in, H. Qed.
  Lemma lab_eq i x : i < n -> x < N -> nth x (layer i) 0%Z = lab i x.
  Proof. intros Hi Hx. unfold label_of. apply nth_indep. now rewrite layer_len. Qed.
  Lemma lab_in i x c : lab i x = c -> (0 <= c)%Z -> i < n -> x < N /\ In c (layer i).
  Proof.
    intros E Hc Hi. unfold label_of in E. destruct (le_lt_dec (length (layer i)) x) as [Hx|Hx].
    - rewrite nth_overflow in E by auto. lia.
    - rewrite layer_len in Hx by auto. split; auto. rewrite <- E. apply nth_In. now rewrite layer_len.
  Qed.

  (** The candidates for the parents, in the order of the search. *)
  Definition block (pair : nat * nat) : list tree_row :=
    let (u, l) := pair in
    flat_map (fun p => if (0 <=? p)%Z then map (fun c => trow u p l c) (group_of argsort (layer u) (layer l) p) else []) (unique_Z (layer u)).

  Lemma visit_groups_ok u l gs : forall ps i st,
    (forall j p, nth_error ps j = Some p -> (0 <= p)%Z -> nth_error gs (i + j) = Some (group_of argsort (layer u) (layer l) p)) ->
    visit_groups u l gs i ps st =
    Ok (fold_left add (flat_map (fun p => if (0 <=? p)%Z then map (fun c => trow u p l c) (group_of argsort (layer u) (layer l) p) else []) ps) st).
  Proof.
    induction ps as [|p ps IH]; intros i st H; auto. cbn [visit_groups flat_map]. rewrite fold_left_app. destruct (Z.leb_spec 0 p) as [Hp|Hp].
    - pose proof (H 0 p eq_refl Hp) as E. rewrite Nat.add_0_r in E. rewrite E. cbn [bind]. rewrite IH.
      + f_equal. f_equal. generalize (group_of argsort (layer u) (layer l) p). intro g. revert st. clear. induction g as [|c g IH]; intro st; auto. cbn. apply IH.
      + intros j q Hj Hq. rewrite <- (H (S j) q Hj Hq). f_equal. lia.
    - cbn [bind fold_left]. apply IH. intros j q Hj Hq. rewrite <- (H (S j) q Hj Hq). f_equal. lia.
  Qed.

  Lemma visit_all_ok : forall ps st, (forall u l, In (u, l) ps -> u < n) -> visit_all argsort labels ps st = Ok (fold_left add (flat_map block ps) st).
  Proof.
    induction ps as [|[u l] ps IH]; intros st H; auto. cbn [visit_all flat_map]. rewrite fold_left_app. unfold visit_layers.
    assert (Hu : u < n) by (apply (H u l); now left).
    destruct (groups_ok argsort Hsort (layer u) (layer l)) as (gs & E & Hg).
    - intro E. pose proof (layer_len u Hu). rewrite E in H0. cbn in H0. lia.
    - apply Hgap, layer_in, Hu.
    - rewrite E. cbn [bind]. rewrite visit_groups_ok; [|exact Hg]. cbn [bind]. apply IH. intros; eapply H; right; eauto.
  Qed.

  Lemma pairs_in u l : In (u, l) (layer_pairs n) <-> 1 <= u < n /\ l < u.
  Proof.
    unfold layer_pairs. rewrite in_flat_map. split.
    - intros (u' & Hu & Hl). apply in_map_iff in Hl as (l' & E & Hl). injection E as -> ->. apply in_seq in Hu. apply in_rev, in_seq in Hl. lia.
    - intros [Hu Hl]. exists u. split; [apply in_seq; lia|]. apply in_map_iff. exists l. split; auto. apply -> in_rev. apply in_seq. lia.
  Qed.

  Lemma block_in u l r : 1 <= u < n -> l < u -> In r (block (u, l)) <->
    t_parent_layer r = u /\ t_child_layer r = l /\ (0 <= t_parent r)%Z /\ exists x, x < N /\ lab u x = t_parent r /\ lab l x = t_child r.
  Proof.
    intros Hu Hl. unfold block. rewrite in_flat_map. split.
    - intros (p & Hp & Hr). destruct (Z.leb_spec 0 p); [|destruct Hr]. apply in_map_iff in Hr as (c & <- & Hc). apply (group_in argsort Hsort) in Hc as (x & Hx & Ex & Ec).
      rewrite layer_len in Hx by lia. rewrite lab_eq in Ex, Ec by lia. cbn. split; auto. split; auto. split; auto. exists x. auto.
    - intros (<- & <- & Hp & x & Hx & Ep & Ec). exists (t_parent r). split.
      + apply unique_Z_in. apply (lab_in _ _ _ Ep Hp); lia.
      + rewrite (proj2 (Z.leb_le _ _) Hp). apply in_map_iff. exists (t_child r). split; [destruct r; reflexivity|].
        apply (group_in argsort Hsort). exists x. rewrite layer_len by lia. rewrite !lab_eq by lia. auto.
  Qed.

  (** Order of the candidates. *)
  Definition before (a b : tree_row) : Prop :=
    t_parent_layer a < t_parent_layer b \/
    (t_parent_layer a = t_parent_layer b /\ (t_child_layer b < t_child_layer a \/ (t_child_layer a = t_child_layer b /\ (t_parent a <= t_parent b)%Z))).

  Definition candidates : list tree_row := flat_map block (layer_pairs n).

  Lemma candidates_sorted : StronglySorted before candidates.
  Proof.
    apply ss_flat_map.
    - intros [u l] Hin. apply pairs_in in Hin. unfold block. apply ss_flat_map.
      + intros p Hp. destruct (0 <=? p)%Z; [|constructor]. apply ss_const. intros x y Hx Hy. apply in_map_iff in Hx as (c & <- & _). apply in_map_iff in Hy as (d & <- & _).
        right. cbn. split; auto. right. split; auto. lia.
      + eapply ss_weaken; [|apply unique_Z_sorted]. intros p q _ _ Hlt x y Hx Hy. destruct (0 <=? p)%Z; [|destruct Hx]. destruct (0 <=? q)%Z; [|destruct Hy].
        apply in_map_iff in Hx as (c & <- & _). apply in_map_iff in Hy as (d & <- & _). right. cbn. split; auto. right. split; auto. lia.
    - assert (Hb : forall u l r, In r (block (u, l)) -> t_parent_layer r = u /\ t_child_layer r = l).
      { intros u l r Hr. apply in_flat_map in Hr as (p & _ & Hr). destruct (0 <=? p)%Z; [|destruct Hr]. apply in_map_iff in Hr as (c & <- & _). auto. }
      unfold layer_pairs. apply ss_flat_map.
      + intros u Hu. apply ss_map. eapply ss_weaken; [|apply ss_rev_seq]. intros l l' _ _ Hlt x y Hx Hy. apply Hb in Hx as [H1 H2]. apply Hb in Hy as [H3 H4]. right. cbv beta in Hlt. lia.
      + eapply ss_weaken; [|apply ss_seq]. intros u u' _ _ Hlt [u1 l1] [u2 l2] H1 H2 x y Hx Hy. apply in_map_iff in H1 as (a & E1 & _). apply in_map_iff in H2 as (b & E2 & _).
        injection E1 as -> ->. injection E2 as -> ->. apply Hb in Hx as [H1 H2]. apply Hb in Hy as [H3 H4]. left. lia.
  Qed.

  Lemma first_before r q c1 c2 : candidates = c1 ++ r :: c2 -> ~ In (key r) (map key c1) -> In q candidates -> key q = key r -> q = r \/ before r q.
  Proof.
    intros E Hf Hq Ek. pose proof candidates_sorted as Hs. rewrite E in *. apply in_app_or in Hq as [Hq|[->|Hq]]; auto.
    - exfalso. apply Hf. rewrite <- Ek. now apply in_map.
    - right. clear - Hs Hq. induction c1 as [|a c1 IH]; cbn in Hs; apply StronglySorted_inv in Hs as [Hs Hf]; auto. rewrite Forall_forall in Hf. auto.
  Qed.

  Lemma candidate_in r : In r candidates <-> 1 <= t_parent_layer r < n /\ t_child_layer r < t_parent_layer r /\ (0 <= t_parent r)%Z /\
    exists x, x < N /\ lab (t_parent_layer r) x = t_parent r /\ lab (t_child_layer r) x = t_child r.
  Proof.
    unfold candidates. rewrite in_flat_map. split.
    - intros ((u & l) & Hp & Hr). apply pairs_in in Hp as [Hu Hl]. apply block_in in Hr as (<- & <- & H); auto.
    - intros (Hu & Hl & H). exists (t_parent_layer r, t_child_layer r). split; [now apply pairs_in|]. apply block_in; auto.
  Qed.

  Theorem tree_ok : exists rows, build_cluster_tree argsort labels = Ok rows /\ right_tree labels rows.
  Proof.
    unfold build_cluster_tree. rewrite visit_all_ok by (intros u l H; apply pairs_in in H; lia). fold candidates. cbn [bind].
    destruct (fold_left add candidates ([], fun _ => [(-1)%Z])) as [m f] eqn:Ef. destruct (fold_add candidates m f Ef) as (I1 & I2 & I3 & I4). cbn [fst snd].
    assert (Hmap : forall r, In r m -> In r candidates).
    { intros r Hr. destruct (I3 r Hr) as (_ & c1 & c2 & E & _). rewrite E. apply in_or_app. right. now left. }
    destruct (map_res_all (orphans n labels f) (fun i rs => rs = map (fun c => trow n 0 i (Z.of_nat c))
        (filter (fun c => negb (existsb (Z.eqb (Z.of_nat c)) (f i))) (seq 0 (Z.to_nat (fold_left Z.max (tl (layer i)) (hd 0%Z (layer i)) + 1))))) (rev (seq 0 n))) as (rest & Er & HF).
    { intros i Hi. apply in_rev, in_seq in Hi. unfold orphans. pose proof (layer_len i ltac:(lia)) as Hl. destruct (layer i) as [|a l]; [cbn in Hl; lia|]. cbn [zmax bind]. eexists. split; reflexivity. }
    rewrite Er. cbn [bind]. eexists. split; [reflexivity|].
    (* the rows below the root *)
    assert (Htop : forall i, i < n -> exists t, fold_left Z.max (tl (layer i)) (hd 0%Z (layer i)) = t /\ In t (layer i) /\ forall x, In x (layer i) -> (x <= t)%Z).
    { intros i Hi. pose proof (layer_len i Hi) as Hl. destruct (zmax_ok (layer i)) as (t & Et & Ht & Hmax); [intro E; rewrite E in Hl; cbn in Hl; lia|].
      exists t. split; auto. destruct (layer i) as [|a l]; [cbn in Hl; lia|]. cbn in *. congruence. }
    assert (Hrest : forall r, In r (concat rest) <-> t_parent_layer r = n /\ t_parent r = 0%Z /\ cluster_in labels (t_child_layer r) (t_child r) /\ ~ In (t_child r) (f (t_child_layer r))).
    { intro r. assert (H1 : In r (concat rest) <-> exists i, i < n /\ In r (map (fun c => trow n 0 i (Z.of_nat c))
        (filter (fun c => negb (existsb (Z.eqb (Z.of_nat c)) (f i))) (seq 0 (Z.to_nat (fold_left Z.max (tl (layer i)) (hd 0%Z (layer i)) + 1)))))).
      { assert (Hi : forall i, In i (rev (seq 0 n)) <-> i < n) by (intro i; rewrite <- in_rev, in_seq; lia).
        clear - HF Hi. rewrite in_concat. split.
        - intros (rs & Hrs & Hr). assert (H : exists i, In i (rev (seq 0 n)) /\ rs = map (fun c => trow n 0 i (Z.of_nat c))
            (filter (fun c => negb (existsb (Z.eqb (Z.of_nat c)) (f i))) (seq 0 (Z.to_nat (fold_left Z.max (tl (layer i)) (hd 0%Z (layer i)) + 1))))).
          { clear Hi Hr. induction HF as [|i rs' l l' H HF IH]; [destruct Hrs|]. destruct Hrs as [<-|Hrs]; [exists i; split; [now left|auto]|]. destruct (IH Hrs) as (j & Hj & E). exists j. split; [now right|auto]. }
          destruct H as (i & H1 & ->). exists i. split; auto. now apply Hi.
        - intros (i & H1 & Hr). apply Hi in H1. clear Hi. induction HF as [|j rs' l l' H HF IH]; [destruct H1|]. destruct H1 as [->|H1].
          + exists rs'. split; [now left|]. rewrite H. auto.
          + destruct (IH H1) as (rs & Hrs & Hx). exists rs. split; auto. now right. }
      rewrite H1. clear H1. split.
      - intros (i & Hi & Hr). apply in_map_iff in Hr as (c & <- & Hc). apply filter_In in Hc as [Hc Hn]. apply in_seq in Hc.
        destruct (Htop i Hi) as (t & Et & Ht & Hmax). rewrite Et in Hc. cbn. split; auto. split; auto. split.
        + split; auto. split; [lia|]. apply (proj2 (Hgap _ (layer_in i Hi) t Ht)). lia.
        + intro H. apply negb_true_iff in Hn. assert (existsb (Z.eqb (Z.of_nat c)) (f i) = true); [|congruence]. apply existsb_exists. exists (Z.of_nat c). split; auto. apply Z.eqb_refl.
      - intros (E1 & E2 & (Hi & Hc & Hin) & Hn). exists (t_child_layer r). split; auto. apply in_map_iff. exists (Z.to_nat (t_child r)). rewrite Z2Nat.id by auto.
        split; [destruct r; cbn in *; subst; reflexivity|]. apply filter_In. split.
        + apply in_seq. destruct (Htop _ Hi) as (t & -> & Ht & Hmax). specialize (Hmax _ Hin). lia.
        + rewrite Z2Nat.id by auto. apply negb_true_iff, not_true_iff_false. intro H. apply existsb_exists in H as (c & Hc' & E). apply Z.eqb_eq in E. subst c. auto. }
    assert (Hfound : forall r, In r (concat rest) -> ~ In (key r) (map key m)).
    { intros r Hr H. apply Hrest in Hr as (_ & _ & _ & Hn). apply Hn, I2. right. exact H. }
    split; [|split].
    - change (map (fun r => (t_child_layer r, t_child r)) (m ++ concat rest)) with (map key (m ++ concat rest)). rewrite map_app.
      apply NoDup_app_intro'; auto.
      + (* the orphans are distinct *)
        assert (HNi : NoDup (rev (seq 0 n))) by (apply NoDup_rev, seq_NoDup). clear - HF HNi.
        induction HF as [|i rs l l' H HF IH]; cbn; [constructor|]. apply NoDup_cons_iff in HNi as [Hi HNi]. rewrite map_app. apply NoDup_app_intro'; auto.
        * subst rs. rewrite map_map. cbn. apply FinFun.Injective_map_NoDup; [intros a b E; injection E as E; lia|]. apply NoDup_filter, seq_NoDup.
        * intros k Hk Hk'. subst rs. rewrite map_map in Hk. apply in_map_iff in Hk as (c & <- & _). apply in_map_iff in Hk' as (r & Er' & Hr). cbn in Er'. unfold key in Er'. injection Er' as El _.
          apply Hi. rewrite <- El. clear - HF Hr. apply in_concat in Hr as (rs & Hrs & Hr). induction HF as [|j rs' l l' H HF IH]; [destruct Hrs|]. destruct Hrs as [->|Hrs]; [left|right; auto].
          subst rs. apply in_map_iff in Hr as (c & <- & _). reflexivity.
      + intros k Hk Hk'. apply in_map_iff in Hk' as (r & <- & Hr). apply (Hfound r Hr Hk).
    - intros i c. change (map (fun r => (t_child_layer r, t_child r)) (m ++ concat rest)) with (map key (m ++ concat rest)). rewrite map_app, in_app_iff. split.
      + intros Hc. destruct (in_dec Z.eq_dec c (f i)) as [H|H].
        * apply I2 in H as [->|H]; auto. destruct Hc as (_ & Hc & _). lia.
        * right. apply in_map_iff. exists (trow n 0 i c). split; auto. apply Hrest. cbn. auto.
      + intros [H|H]; apply in_map_iff in H as (r & E & Hr); unfold key in E; injection E as <- <-.
        * pose proof (proj1 (I3 r Hr)) as H0. apply Hmap, candidate_in in Hr as (Hu & Hl & Hp & x & Hx & Ep & Ec). split; [lia|]. split; auto. apply (lab_in _ _ _ Ec H0); lia.
        * apply Hrest in Hr as (_ & _ & Hr & _). exact Hr.
    - (* parents *)
      assert (Hov : forall j p i c, i < j < n -> (0 <= p)%Z -> overlap labels j p i c -> In (trow j p i c) candidates).
      { intros j p i c Hij Hp (x & E1 & E2). apply candidate_in. cbn. split; [lia|]. split; [lia|]. split; auto. exists x. split; auto. apply (lab_in _ _ _ E1 Hp); lia. }
      intros r Hr. apply in_app_or in Hr as [Hr|Hr].
      + left. destruct (I3 r Hr) as (H0 & c1 & c2 & E & Hf). pose proof (Hmap r Hr) as Hc. apply candidate_in in Hc as (Hu & Hl & Hp & x & Hx & Ep & Ec).
        split; [lia|]. split; auto. split; [split; [lia|split; [auto|apply (lab_in _ _ _ Ep Hp); lia]]|]. split; [exists x; auto|]. split.
        * intros j p Hj Hp' Ho. apply Hov in Ho; [|lia|auto]. destruct (first_before r _ c1 c2 E Hf Ho eq_refl) as [E'|Hb]; [rewrite <- E' in Hj; cbn in Hj; lia|].
          unfold before in Hb. cbn in Hb. lia.
        * intros p Hp' Ho. apply Hov in Ho; [|lia|lia]. destruct (first_before r _ c1 c2 E Hf Ho eq_refl) as [E'|Hb]; [rewrite <- E' in Hp'; cbn in Hp'; lia|].
          unfold before in Hb. cbn in Hb. lia.
      + right. pose proof Hr as Hr'. apply Hrest in Hr as (E1 & E2 & (Hi & Hc & Hin) & Hn). split; auto. split; auto. intros j p Hj Hp Ho. apply Hov in Ho; auto.
        apply (Hfound r Hr'). apply (I4 _ Ho). cbn. auto.
  Qed.
End Tree.

(** ** The layer whose labels are returned *)
Lemma argmax_from_ok {P : WOrd} : forall (l : list P) best pos i (pre : list P), length pre = i -> pos < i -> nth_error pre pos = Some best ->
  (forall x, In x pre -> wle x best = true) ->
  exists m, nth_error (pre ++ l) (argmax_from best pos i l) = Some m /\ forall x, In x (pre ++ l) -> wle x m = true.
Proof.
  induction l as [|x l IH]; intros best pos i pre Hl Hp He Hm; cbn.
  - rewrite app_nil_r. eauto.
  - replace (pre ++ x :: l) with ((pre ++ [x]) ++ l) by now rewrite <- app_assoc. unfold wlt. destruct (wle x best) eqn:E; cbn.
    + apply IH; [rewrite app_length; cbn; lia|lia|now rewrite nth_error_app1 by lia|]. intros y Hy. apply in_app_or in Hy as [Hy|[<-|[]]]; auto.
    + apply IH; [rewrite app_length; cbn; lia|lia| |].
      * rewrite nth_error_app2 by lia. now rewrite Hl, Nat.sub_diag.
      * intros y Hy. apply in_app_or in Hy as [Hy|[<-|[]]]; [|apply wle_refl]. assert (Hbx : wle best x = true) by (destruct (wle_total P best x); congruence). eapply wle_trans; eauto.
Qed.

Lemma plscan_result_ok {V P : WOrd} argsort (ys : list (layer V P)) d : build_layer_cluster_tree argsort (map y_labels ys) = Ok d ->
  exists y, plscan_result argsort ys = Ok (d, y) /\ In y ys /\ forall y', In y' ys -> wle (y_persistence y') (y_persistence y) = true.
Proof.
  intro E. unfold plscan_result. rewrite E. cbn [bind]. destruct ys as [|y0 [|y1 ys]].
  - discriminate.
  - exists y0. split; auto. split; [now left|]. intros y' [<-|[]]. apply wle_refl.
  - set (l := y0 :: y1 :: ys). cbn [map argmax bind].
    destruct (argmax_from_ok (map y_persistence (y1 :: ys)) (y_persistence y0) 0 1 [y_persistence y0]) as (m & Em & Hm); auto.
    { intros x [<-|[]]. apply wle_refl. }
    change ([y_persistence y0] ++ map y_persistence (y1 :: ys)) with (map y_persistence l) in Em, Hm. change (y_persistence y1 :: map y_persistence ys) with (map y_persistence (y1 :: ys)).
    rewrite nth_error_map in Em. destruct (nth_error l _) as [y|] eqn:Ey; [|discriminate]. cbn in Em. injection Em as <-.
    exists y. apply (nth_error_nth _ _ y0) in Ey as Ey'. split; [change (Ok (d, nth (argmax_from (y_persistence y0) 0 1 (map y_persistence (y1 :: ys))) l y0) = Ok (d, y)); now rewrite Ey'|]. split; [eapply nth_error_In; eauto|]. intros y' Hy'. apply Hm. now apply in_map.
Qed.
