(** The layers of a hierarchy. *)
From Coq Require Import List Arith Lia Bool ZArith QArith Sorted Permutation.
From Verif Require Import Prelude Order Size Forest M_Linkage S_Linkage M_Condense S_Condense M_Select S_Select P_CTree P_Below P_SelectTop
  M_Labels S_Labels P_LabelsTop M_Layers S_Layers P_Peaks P_Barcode P_LayerSets P_DendroNodes P_TopNodes P_LayersRun P_LayerCurve P_LayerSelect P_LayerSearch.
Import ListNotations.
Local Open Scope nat_scope.

Lemma map_res_all {A B} (f : A -> res B) (Q : A -> B -> Prop) l :
  (forall a, In a l -> exists b, f a = Ok b /\ Q a b) -> exists bs, map_res f l = Ok bs /\ Forall2 Q l bs.
Proof.
  induction l as [|a l IH]; intro H; cbn [map_res]; [exists []; auto|].
  destruct (H a (or_introl eq_refl)) as (b & E & HQ). destruct IH as (bs & E' & HF); [intros; apply H; now right|].
  exists (b :: bs). rewrite E. cbn [bind]. rewrite E'. auto.
Qed.

Lemma zmax_ok l : l <> [] -> exists m, zmax l = Ok m /\ In m l /\ forall x, In x l -> (x <= m)%Z.
Proof.
  destruct l as [|a l]; [congruence|]. intros _. cbn [zmax]. eexists. split; [reflexivity|].
  assert (H : forall l a, In (fold_left Z.max l a) (a :: l) /\ forall x, In x (a :: l) -> (x <= fold_left Z.max l a)%Z).
  { clear. induction l as [|b l IH]; intro a; cbn [fold_left].
    - split; [now left|]. intros x [->|[]]. lia.
    - destruct (IH (Z.max a b)) as [H1 H2]. split.
      + destruct H1 as [H1|H1]; [|right; now right]. rewrite <- H1. destruct (Z.max_spec a b) as [[_ ->]|[_ ->]]; [right; left|left]; auto.
      + intros x [->|[->|Hx]]; [| |apply H2; now right].
        * specialize (H2 (Z.max x b) (or_introl eq_refl)). lia.
        * specialize (H2 (Z.max a x) (or_introl eq_refl)). lia. }
  apply H.
Qed.

Lemma ssorted_same l : forall l', StronglySorted lt l -> StronglySorted lt l' -> (forall x, In x l <-> In x l') -> l = l'.
Proof.
  induction l as [|a l IH]; intros [|b l'] H H' Hi; auto.
  - destruct (proj2 (Hi b) (or_introl eq_refl)).
  - destruct (proj1 (Hi a) (or_introl eq_refl)).
  - apply StronglySorted_inv in H as [H Hf]. apply StronglySorted_inv in H' as [H' Hf']. rewrite Forall_forall in Hf, Hf'.
    assert (a = b).
    { destruct (proj1 (Hi a) (or_introl eq_refl)) as [E|E]; auto. destruct (proj2 (Hi b) (or_introl eq_refl)) as [E'|E']; auto.
      specialize (Hf _ E'). specialize (Hf' _ E). lia. }
    subst b. f_equal. apply IH; auto. intro x. split; intro Hx.
    + destruct (proj1 (Hi x) (or_intror Hx)) as [E|E]; auto. subst. specialize (Hf _ Hx). lia.
    + destruct (proj2 (Hi x) (or_intror Hx)) as [E|E]; auto. subst. specialize (Hf' _ Hx). lia.
Qed.

Section Alive.
  Context {V : WOrd} {D P : Type}.
  Variables (n m : nat) (T : list (crow V NatSize)) (death_of : V -> D) (zero : D) (b : barcode D).
  Notation one := (fun _ : nat => (1 : NatSize)).
  Hypothesis HT : condensed (Sz := NatSize) n one m T.
  Hypothesis HSO : splits_once n T.
  Hypothesis HB : right_barcode n T death_of zero m b.

  Lemma nodes_top : b_nodes b + n = top_id n T.
  Proof. rewrite (rb_nodes _ _ _ _ _ _ HB). unfold top_id. lia. Qed.

  Lemma node_cluster i : i < b_nodes b -> is_cluster n T (i + n).
  Proof. intro H. apply (is_cluster_iff n one m T HT). pose proof nodes_top. lia. Qed.

  Lemma birth_bounds i : i < b_nodes b -> m <= b_births b i <= b_births b 0 /\ (b_births b 0 <= n \/ b_births b 0 = m).
  Proof.
    intro Hi. pose proof (node_cluster i Hi) as Hc.
    destruct (rb_births _ _ _ _ _ _ HB _ Hc) as (B1 & B2 & B3). replace (i + n - n) with i in * by lia.
    assert (Hr : is_cluster n T n) by now left. destruct (rb_births _ _ _ _ _ _ HB n Hr) as (R1 & R2 & R3). rewrite Nat.sub_diag in *.
    assert (Hdesc : forall d, d = i + n \/ descends n T (i + n) d -> d = n \/ descends n T n d).
    { intros d Hd. destruct (Nat.eq_dec d n) as [|Hne]; auto. right. apply (descends_sub n one m T HT). split; auto. apply (sub_root n one m T HT).
      apply (is_cluster_iff n one m T HT). destruct Hd as [->|Hd]; auto. apply (desc_bounds n one m T HT) in Hd. tauto. }
    split; [split; auto|].
    - destruct B3 as [->|(d & k & Hd & Hs & ->)]; auto. apply (R2 d k); auto.
    - destruct R3 as [->|(d & k & _ & (r & q & Hsp & _ & Ek) & ->)]; auto. left. rewrite Ek.
      apply split_pair in Hsp as (j & Hp). destruct (pair_facts n one m T HT _ _ _ Hp) as (C1 & _ & _ & _ & _ & I1 & _).
      destruct (ct_sizes _ _ _ _ HT r (ct_in n T r I1) ltac:(lia)) as (_ & xs & HN & Hx & E). rewrite ssum_ones in E.
      assert (length xs <= n); [|lia]. rewrite <- (seq_length n 0). apply NoDup_incl_length; auto. intros x Hxi. apply Hx in Hxi. apply (below_lt n T) in Hxi. apply in_seq. lia.
  Qed.

  (** At the size of an inner entry of the list of sizes. *)
  Lemma inner_alive ss p : StronglySorted lt ss -> (forall s, In s ss <-> exists i, i < b_nodes b /\ b_births b i = s) -> S p < length ss ->
    m <= nth p ss 0 < n /\ ~ In 0 (alive b (nth p ss 0)) /\ 2 <= length (alive b (nth p ss 0)).
  Proof.
    intros Hsort Hin Hp. set (s := nth p ss 0).
    assert (H1 : In s ss) by (apply nth_In; lia). assert (H2 : In (nth (S p) ss 0) ss) by (apply nth_In; lia).
    assert (Hlt : s < nth (S p) ss 0).
    { unfold s. clear - Hsort Hp. revert p Hp. induction Hsort as [|a l H IH Hf]; intros p Hp; [cbn in Hp; lia|]. destruct p as [|p].
      - cbn. rewrite Forall_forall in Hf. apply Hf, nth_In. cbn in Hp. lia.
      - cbn. apply IH. cbn in Hp. lia. }
    apply Hin in H1 as (i & Hi & Ei). apply Hin in H2 as (j & Hj & Ej).
    destruct (birth_bounds i Hi) as [Bi _]. destruct (birth_bounds j Hj) as [Bj Hn].
    assert (Hs : m <= s < n) by (destruct Hn; lia). split; auto.
    destruct (alive_cases n one m T HT death_of zero m b HB s Hs) as [E|H]; auto. exfalso.
    assert (H0 : In 0 (alive b s)) by (rewrite E; now left). apply filter_In in H0 as [_ H0]. apply andb_true_iff in H0 as [H0 _]. apply Nat.leb_le in H0. lia.
  Qed.
End Alive.

Lemma alive_sorted {D} (b : barcode D) n s : StronglySorted lt (map (fun i => i + n) (alive b s)).
Proof.
  unfold alive. generalize (fun i => (b_births b i <=? s) && (s <? b_deaths b i)). intro f. generalize 0 at 1. generalize (b_nodes b). 
  induction n0 as [|k IH]; intro a; cbn [seq filter map]; [constructor|]. destruct (f a); [|apply IH]. cbn [map]. constructor; [apply IH|].
  apply Forall_forall. intros x Hx. apply in_map_iff in Hx as (i & <- & Hi). apply filter_In in Hi as [Hi _]. apply in_seq in Hi. lia.
Qed.

Section Top.
  Context {W V P : WOrd} {D : Type} (LA : LamArith V).
  Variables (search_lam lam : W -> V) (death_of : V -> D) (dzero : D) (garbage : nat -> nat) (garbage_lambda : nat -> D).
  Variables (pzero : P) (accumulate : P -> nat -> nat -> D -> P).
  Variables (argsort : list P -> list nat) (argsort_counts : list Z -> list nat).
  Variables (n : nat) (L : list (lrow W NatSize)).
  Hypothesis HG : dendrogram n L.
  Hypothesis HS : sizes_are (Sz := NatSize) n (fun _ => 1) L.
  Hypothesis HH : heights_sorted L.
  Hypothesis Hlam : forall x y, wle x y = true -> wle (lam y) (lam x) = true.
  Hypothesis Hpos : forall x, wle (la_zero LA) (lam x) = true.
  Hypothesis HLL : LamLaws LA.
  Hypothesis Hsort : argsorts argsort.
  Hypothesis HsortZ : argsorts_Z argsort_counts.
  Hypothesis Hn : 2 <= n.

  Lemma label_count_max ls k x : label_count ls k -> zmax ls = Ok x -> k = (x + 1)%Z.
  Proof.
    intros [H1 H2] E. destruct (zmax_ok ls) as (y & E' & Hy & Hmax); [intros ->; discriminate|]. assert (y = x) as -> by congruence.
    specialize (H1 x Hy). specialize (Hmax _ H2). lia.
  Qed.

  Lemma sorted_layers (first : layer V P) layers : (forall y, In y layers -> length (y_labels y) = n) ->
    exists counts, map_res (fun y => let* m := zmax (y_labels y) in Ok (m + 1)%Z) layers = Ok counts /\
      Permutation (map (fun i => nth i layers first) (rev (argsort_counts counts))) layers /\
      StronglySorted (fun y y' => forall k k', label_count (y_labels y) k -> label_count (y_labels y') k' -> (k' <= k)%Z)
        (map (fun i => nth i layers first) (rev (argsort_counts counts))).
  Proof.
    intro Hlen. destruct (map_res_all (fun y : layer V P => let* m := zmax (y_labels y) in Ok (m + 1)%Z) (fun y c => zmax (y_labels y) = Ok (c - 1)%Z) layers) as (counts & E & HF).
    { intros y Hy. destruct (zmax_ok (y_labels y)) as (m & Em & _); [intro E; specialize (Hlen y Hy); rewrite E in Hlen; cbn in Hlen; lia|].
      exists (m + 1)%Z. rewrite Em. split; auto. f_equal. lia. }
    exists counts. split; auto. assert (Hl : length layers = length counts) by (clear - HF; induction HF; cbn; auto). destruct (HsortZ counts) as [HP HSt]. split.
    - rewrite <- Permutation_rev, HP, <- Hl. clear. induction layers as [|y l IH]; auto. cbn [length seq map nth]. apply perm_skip. rewrite <- seq_shift, map_map. exact IH.
    - assert (Hin : forall i, In i (argsort_counts counts) -> i < length layers).
      { intros i Hi. apply (Permutation_in _ HP) in Hi. apply in_seq in Hi. lia. }
      assert (Hnth : forall i, i < length layers -> zmax (y_labels (nth i layers first)) = Ok (nth i counts 0 - 1)%Z).
      { clear - HF. induction HF as [|y c l l' H HF IH]; intros i Hi; [cbn in Hi; lia|]. destruct i; cbn; auto. apply IH. cbn in Hi. lia. }
      clear HP. induction HSt as [|i l HSt IH Hf]; [constructor|]. cbn [rev]. rewrite map_app. cbn [map].
      apply ssorted_end; [apply IH; intros; apply Hin; now right|]. intros y Hy k k' Hk Hk'. apply in_map_iff in Hy as (j & <- & Hj). apply in_rev in Hj.
      rewrite Forall_forall in Hf. specialize (Hf j Hj). pose proof (Hnth i (Hin i (or_introl eq_refl))) as Ei. pose proof (Hnth j (Hin j (or_intror Hj))) as Ej.
      pose proof (label_count_max _ _ _ Hk Ej). pose proof (label_count_max _ _ _ Hk' Ei). lia.
  Qed.

  Notation one := (fun _ : nat => (1 : NatSize)).

  Lemma layer_ok m T b s p : 2 <= m -> tree_of lam n L m T -> right_barcode n T death_of dzero m b ->
    m <= s -> ~ In 0 (alive b s) -> 2 <= length (alive b s) ->
    p = fold_left (fun p i => accumulate p (b_births b i) (b_deaths b i) (b_lambdas b i)) (filter (fun i => negb (i =? 0)) (alive b s)) pzero ->
    exists lp, extract_clusters_by_id LA T (map (fun i => i + n) (alive b s)) = Ok lp /\
      layer_at LA pzero accumulate n T b s {| y_labels := fst lp; y_strengths := snd lp; y_persistence := p |}.
  Proof.
    intros Hm Ht HB Hs H0 H2 Ep. pose proof Ht as (_ & HT & _ & HSO).
    assert (Hroot : ~ In n (map (fun i => i + n) (alive b s))) by (intro H; apply in_map_iff in H as (i & E & Hi); assert (i = 0) by lia; subst; auto).
    destruct (layer_of LA lam n L Hpos HLL Hn m T (map (fun i => i + n) (alive b s)) Ht Hm) as (ls & ps & E1 & E2 & HR).
    - intros c Hc. apply (alive_iff n one m T HT death_of dzero m b HB s Hs) in Hc. tauto.
    - apply alive_sorted.
    - eapply (alive_disjoint n one m T HT death_of dzero m b HB s Hs); eauto.
    - right. rewrite map_length. auto.
    - exists (ls, ps). split; cbn [fst snd].
      + unfold extract_clusters_by_id. destruct T as [|r l] eqn:ET; [exfalso; eapply (rows_nonempty n one m []); eauto; lia|].
        rewrite (first_parent n one m _ HT r l eq_refl). rewrite E1. cbn [bind]. rewrite E2. reflexivity.
      + split; auto. exists (map (fun i => i + n) (alive b s)). split; [intro c; apply (alive_iff n one m T HT death_of dzero m b HB s Hs)|]. auto.
  Qed.

  Notation run := (layers_from_linkage_tree search_lam lam LA death_of dzero garbage garbage_lambda pzero accumulate argsort argsort_counts L n).

  Lemma layers_from_base base_m base_n threshold max_layers m T ls ps :
    base_layer search_lam lam LA L n base_m base_n = Ok (m, T, (ls, ps)) -> tree_of lam n L m T -> 2 <= m -> length ls = n ->
    exists b ys, run base_m base_n threshold max_layers = Ok ys /\
      (cluster_rows n T <> [] -> right_barcode n T death_of dzero m b) /\
      layer_stack LA pzero accumulate n T b threshold m max_layers {| y_labels := ls; y_strengths := ps; y_persistence := pzero |} ys.
  Proof.
    intros Eb Ht Hm Hlen. pose proof Ht as (_ & HT & _ & HSO). unfold layers_from_linkage_tree. rewrite Eb. cbn [bind].
    set (first := {| y_labels := ls; y_strengths := ps; y_persistence := pzero |}).
    fold (cluster_rows n T). destruct (cluster_rows n T) as [|r0 l0] eqn:EC.
    - cbn [bind]. destruct (sorted_layers first [first]) as (counts & E & HP & HSt); [intros y [<-|[]]; auto|]. rewrite E. cbn [bind].
      exists {| b_nodes := 0; b_births := garbage; b_deaths := garbage; b_parents := garbage; b_lambdas := garbage_lambda |}. eexists. split; [reflexivity|]. split; [congruence|].
      exists [], []. split.
      { split; [constructor|]. split; [cbn; lia|]. split; [intros s []|]. split; [intros s s' []|].
        assert (H0 : forall s, ~ size_peak pzero accumulate {| b_nodes := 0; b_births := garbage; b_deaths := garbage; b_parents := garbage; b_lambdas := garbage_lambda |} s).
        { intros s (ss & total & x & y & _ & H & Hl & _ & (_ & Hp & _) & _). destruct ss as [|a l]; [cbn in Hl; rewrite Hl in Hp; lia|].
          destruct (proj1 (H a) (or_introl eq_refl)) as (i & Hi & _). cbn in Hi. lia. }
        split; [|intro]; intros s Hs; destruct (H0 s Hs). }
      split; [intros s []|]. split; auto.
    - assert (Hne : cluster_rows n T <> []) by congruence. destruct (barcode_ok n one m T HT HSO death_of dzero m garbage garbage_lambda Hne) as (b & E & HB).
      rewrite EC in E. rewrite E. cbn [bind]. destruct (compute_total_persistence pzero accumulate b) as [ss total] eqn:ET.
      assert (Hnodes : 0 < b_nodes b) by (rewrite (rb_nodes _ _ _ _ _ _ HB); lia).
      destruct (curve_ok pzero accumulate b Hnodes ss total ET) as (C1 & C2 & C3 & C4).
      destruct (find_peaks_ok total) as (peaks & Ep & Hsp & Hpk). rewrite Ep. cbn [bind].
      destruct (peaks_selected argsort pzero peaks total ss b threshold (max_layers - 1) Hsort (ssorted_NoDup _ Hsp)) as (P1 & P2 & P3 & P4 & P5 & P6).
      set (sel := select_diverse_peaks argsort pzero peaks total ss b threshold (max_layers - 1)) in *.
      assert (Hinner : forall p, In p sel -> S p < length ss).
      { intros p Hp. apply P1, Hpk in Hp as (x & y & ((H1 & H2) & H3 & _) & ->). assert ((x + y) / 2 <= y) by (apply Nat.div_le_upper_bound; lia). lia. }
      destruct (map_res_all (fun peak => let* lp := extract_clusters_by_id LA T (map (fun i => i + n) (alive b (nth peak ss 0))) in
            Ok {| y_labels := fst lp; y_strengths := snd lp; y_persistence := nth peak total pzero |})
            (fun p y => layer_at LA pzero accumulate n T b (nth p ss 0) y) sel) as (more & Em & HF).
      { intros p Hp. pose proof (Hinner p Hp) as Hi. destruct (inner_alive n m T death_of dzero b HT HB ss p C1 C2 Hi) as (I1 & I2 & I3).
        destruct (layer_ok m T b (nth p ss 0) (nth p total pzero) Hm Ht HB (proj1 I1) I2 I3) as (lp & El & HL); [apply C4; lia|].
        eexists. rewrite El. cbn [bind]. split; [reflexivity|auto]. }
      rewrite Em. cbn [bind].
      destruct (sorted_layers first (first :: more)) as (counts & Ec & HP & HSt).
      { intros y [<-|Hy]; auto. clear - HF Hy. induction HF as [|p y' l l' H HF IH]; [destruct Hy|]. destruct Hy as [->|Hy]; auto.
        destruct H as [(S & _ & _ & HR) _]. apply (ly_labels _ _ _ _ _ _ HR). }
      rewrite Ec. cbn [bind]. exists b. eexists. split; [reflexivity|]. split; auto.
      assert (Hinj : forall p q, In p sel -> In q sel -> nth p ss 0 = nth q ss 0 -> p = q).
      { intros p q Hp Hq Eq. apply (proj1 (NoDup_nth ss 0) (ssorted_NoDup _ C1)); auto; [specialize (Hinner p Hp)|specialize (Hinner q Hq)]; lia. }
      assert (Hpeak : forall p, In p peaks <-> exists x y, plateau total x y /\ p = (x + y) / 2) by exact Hpk.
      assert (Hvalue : forall p, In p peaks -> p < length ss).
      { intros p Hp. apply Hpk in Hp as (x & y & ((H1 & H2) & H3 & _) & ->). assert ((x + y) / 2 <= y) by (apply Nat.div_le_upper_bound; lia). lia. }
      assert (Hback : forall s, size_peak pzero accumulate b s -> exists p, In p peaks /\ s = nth p ss 0).
      { intros s (ss' & total' & x & y & D1 & D2 & D3 & D4 & D5 & ->).
        assert (ss' = ss) as -> by (apply ssorted_same; auto; intro s; rewrite D2, C2; tauto).
        assert (total' = total) as ->.
        { apply (nth_ext _ _ pzero pzero); [congruence|]. intros k Hk. rewrite D4, C4 by lia. reflexivity. }
        exists ((x + y) / 2). split; auto. apply Hpk. eauto. }
      assert (Hp' : forall p, In p peaks -> nth p total pzero = persistence_at pzero accumulate b (nth p ss 0)).
      { intros p Hp. apply C4. auto. }
      exists (map (fun p => nth p ss 0) sel), more. split; [|split; [|split; [auto|split; [|auto]]]].
      + split; [|split; [now rewrite map_length|split; [|split; [|split]]]].
        * clear - P2 Hinj. induction sel as [|p l IH]; cbn; [constructor|]. apply NoDup_cons_iff in P2 as [Hp P2]. constructor.
          -- intro H. apply in_map_iff in H as (q & Eq & Hq). apply Hp. rewrite (Hinj p q); [auto|now left|now right|auto].
          -- apply IH; auto. intros; apply Hinj; auto; now right.
        * intros s Hs. apply in_map_iff in Hs as (p & <- & Hp). apply P1, Hpk in Hp as (x & y & Hxy & ->).
          exists ss, total, x, y. auto 7.
        * intros s s' Hs Hs' Hne'. apply in_map_iff in Hs as (p & <- & Hp). apply in_map_iff in Hs' as (q & <- & Hq). apply (P4 p q Hp Hq). congruence.
        * intros s Hs. destruct (Hback s Hs) as (p & Hp & ->). destruct (P5 p Hp) as [H|[H|(q & Hq & Hs' & Hle)]].
          -- left. apply in_map_iff. eauto.
          -- right; left. now rewrite map_length.
          -- right; right. exists (nth q ss 0). split; [apply in_map_iff; eauto|]. split; auto. rewrite <- (Hp' p Hp), <- (Hp' q (P1 q Hq)). auto.
        * intros H2 s Hs. destruct (Hback s Hs) as (p & Hp & ->). destruct P6 as (q & Hq & Hmax); [intros ->; destruct Hp|lia|].
          exists (nth q ss 0). split; [apply in_map_iff; eauto|]. rewrite <- (Hp' p Hp), <- (Hp' q (P1 q Hq)). auto.
      + intros s Hs. apply in_map_iff in Hs as (p & <- & Hp). apply (inner_alive n m T death_of dzero b HT HB ss p C1 C2 (Hinner p Hp)).
      + clear - HF. induction HF; cbn; constructor; auto.
  Qed.

  (** Without a requested number of clusters. *)
  Lemma layers_ok base_m threshold max_layers : 2 <= base_m ->
    exists T S b base ys, run base_m None threshold max_layers = Ok ys /\ tree_of lam n L base_m T /\
      (forall c, In c S <-> leaf_cluster n T c) /\ right_layer LA n T S (y_labels base) (y_strengths base) /\ y_persistence base = pzero /\
      (cluster_rows n T <> [] -> right_barcode n T death_of dzero base_m b) /\
      layer_stack LA pzero accumulate n T b threshold base_m max_layers base ys.
  Proof.
    intro Hm. destruct (leaf_layer LA lam n L HG HS HH Hlam Hpos HLL Hn base_m Hm) as (T & S & ls & ps & Ht & E & HSi & E1 & E2 & HR).
    destruct (layers_from_base base_m None threshold max_layers base_m T ls ps) as (b & ys & Er & HB & HL); auto.
    - unfold base_layer. rewrite (proj1 Ht). cbn [bind]. rewrite E. cbn [bind]. rewrite E1. cbn [bind]. rewrite E2. reflexivity.
    - apply (ly_labels _ _ _ _ _ _ HR).
    - exists T, S, b. eexists. exists ys. split; [exact Er|]. split; [exact Ht|]. split; [exact HSi|]. split; [|split; [|split; [exact HB|exact HL]]]; auto.
  Qed.
End Top.
