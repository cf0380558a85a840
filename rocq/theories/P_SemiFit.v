(** Fitting with labelled rows. *)
From Coq Require Import List Arith Lia Bool ZArith Permutation QArith Qcanon.
From Verif Require Import Prelude Order Graph Size Num M_Kruskal S_Kruskal M_Linkage S_Linkage M_Condense S_Condense
  M_Select S_Select P_EomValue M_Labels S_Labels P_LabelsEx P_EpsilonTop M_Pipeline S_Pipeline P_PipelineTop P_PipelineRun P_PipelineEx M_BCubed S_BCubed P_Semi P_SemiTop
  M_Estimator S_Estimator P_Estimator P_EstimatorEx M_SubClusters M_Detector S_Detector P_Detector P_DetectorTop P_Dbscan M_SemiFit S_SemiFit.
Import ListNotations.
Local Open Scope nat_scope.

(** ** Names of labels *)
Section Names.
  Variables (f : nat -> nat) (ok : nat -> Prop).
  Hypothesis Inj : forall a b, ok a -> ok b -> f a = f b -> a = b.
  Definition rekey {A} (d : list (nat * A)) : list (nat * A) := map (fun kv => (f (fst kv), snd kv)) d.

  Lemma eqb_rekey a b : ok a -> ok b -> (f a =? f b) = (a =? b).
  Proof. intros Ha Hb. destruct (Nat.eqb_spec a b) as [->|H]; [apply Nat.eqb_refl|]. apply Nat.eqb_neq. auto. Qed.
  Lemma get_rekey {A} (d : list (nat * A)) k : ok k -> (forall kv, In kv d -> ok (fst kv)) -> dict_get (rekey d) (f k) = dict_get d k.
  Proof.
    intros Hk. induction d as [|[k' v] d IH]; intro H; auto. cbn [rekey map dict_get fst snd]. rewrite eqb_rekey by (auto; apply (H (k', v)); now left).
    fold (rekey d). rewrite IH by (intros; apply H; now right). reflexivity.
  Qed.
  Lemma set_rekey {A} (d : list (nat * A)) k v : ok k -> (forall kv, In kv d -> ok (fst kv)) -> dict_set (rekey d) (f k) v = rekey (dict_set d k v).
  Proof.
    intros Hk. induction d as [|[k' v'] d IH]; intro H; auto. cbn [rekey map dict_set fst snd]. rewrite eqb_rekey by (auto; apply (H (k', v')); now left).
    fold (rekey d). rewrite IH by (intros; apply H; now right). destruct (k =? k'); reflexivity.
  Qed.
  Lemma set_keys {A} (d : list (nat * A)) k v kv : In kv (dict_set d k v) -> fst kv = k \/ exists kv', In kv' d /\ fst kv' = fst kv.
  Proof.
    induction d as [|[k' v'] d IH]; cbn [dict_set].
    - intros [<-|[]]. now left.
    - destruct (k =? k'); intros [<-|H]; cbn [fst].
      + right. exists (k', v'). cbn. auto.
      + right. exists kv. cbn. auto.
      + right. exists (k', v'). cbn. auto.
      + destruct (IH H) as [|(kv' & H1 & H2)]; auto. right. exists kv'. cbn. auto.
  Qed.
  Lemma counts_keys l : forall d, (forall kv, In kv d -> ok (fst kv)) -> (forall k, In k l -> ok k) ->
    (forall kv, In kv (fold_left count_up l d) -> ok (fst kv)) /\ fold_left count_up (map f l) (rekey d) = rekey (fold_left count_up l d).
  Proof.
    induction l as [|k l IH]; intros d Hd Hl; [split; auto|]. cbn [fold_left map].
    assert (Hk : ok k) by (apply Hl; now left).
    assert (E : count_up (rekey d) (f k) = rekey (count_up d k)).
    { unfold count_up. rewrite get_rekey by auto. destruct (dict_get d k); apply set_rekey; auto. }
    rewrite E. apply IH; [|intros; apply Hl; now right]. intros kv H. unfold count_up in H.
    destruct (dict_get d k); apply set_keys in H as [->|(kv' & H1 & <-)]; auto.
  Qed.
  Lemma counts_rekey l : (forall k, In k l -> ok k) -> counts (map f l) = rekey (counts l) /\ forall kv, In kv (counts l) -> ok (fst kv).
  Proof. intro H. destruct (counts_keys l [] ltac:(intros kv []) H) as [H1 H2]. split; auto. Qed.

  (** Labelled samples keep their names. *)
  Definition relabel (d : list (nat * nat)) : list (nat * nat) := map (fun kv => (fst kv, f (snd kv))) d.
  Lemma get_relabel d k : dict_get (relabel d) k = let* v := dict_get d k in Ok (f v).
  Proof. induction d as [|[k' v] d IH]; auto. cbn [relabel map dict_get fst snd]. destruct (k =? k'); auto. Qed.
  Lemma keys_relabel d : map fst (relabel d) = map fst d.
  Proof. unfold relabel. rewrite map_map. apply map_ext. auto. Qed.
  Lemma get_ok (d : list (nat * nat)) k v : (forall kv, In kv d -> ok (snd kv)) -> dict_get d k = Ok v -> ok v.
  Proof.
    induction d as [|[k' v'] d IH]; intro H; [discriminate|]. cbn [dict_get]. destruct (k =? k'); [intros [= <-]; apply (H (k', v')); now left|].
    apply IH. intros; apply H; now right.
  Qed.
  Lemma map_relabel d points : (forall kv, In kv d -> ok (snd kv)) ->
    map_res (dict_get (relabel d)) points = (let* l := map_res (dict_get d) points in Ok (map f l)) /\
    forall l, map_res (dict_get d) points = Ok l -> forall k, In k l -> ok k.
  Proof.
    intro Hd. induction points as [|p points [IH1 IH2]]; [split; auto; intros l [= <-] k []|]. cbn [map_res]. rewrite get_relabel, IH1.
    destruct (dict_get d p) as [v|] eqn:E; cbn [bind]; [|split; auto; discriminate]. destruct (map_res (dict_get d) points) as [l|] eqn:El; cbn [bind]; [|split; auto; discriminate].
    split; auto. intros l' [= <-] k [<-|H]; [eapply get_ok; eauto|eapply IH2; eauto].
  Qed.

  Lemma bcubed_relabel (B : BArith) d total points : (forall kv, In kv d -> ok (snd kv)) ->
    bcubed_of B (relabel d) (counts (map snd (relabel d))) total points = bcubed_of B d (counts (map snd d)) total points.
  Proof.
    intro Hd. destruct points as [|p points]; auto. unfold bcubed_of. set (pts := p :: points).
    destruct (map_relabel d pts Hd) as [E H]. rewrite E. destruct (map_res (dict_get d) pts) as [l|] eqn:El; auto. cbn [bind].
    assert (Es : map snd (relabel d) = map f (map snd d)) by (unfold relabel; rewrite !map_map; auto). rewrite Es.
    assert (Hs : forall k, In k (map snd d) -> ok k) by (intros k Hk; apply in_map_iff in Hk as (kv & <- & Hkv); auto).
    destruct (counts_rekey (map snd d) Hs) as [E1 K1]. destruct (counts_rekey l (H l eq_refl)) as [E2 K2]. rewrite E1, E2. clear E2.
    generalize (b_zero B). induction (counts l) as [|kv c IH]; intro acc; auto. cbn [rekey map fold_res fst snd].
    rewrite get_rekey by (auto; apply K2; now left). fold (rekey c). destruct (dict_get (counts (map snd d)) (fst kv)) as [t|]; auto. cbn [bind].
    destruct (b_term B (snd kv) (length pts) t total); auto. cbn [bind]. apply IH. intros; apply K2; now right.
  Qed.
End Names.

Section Rename.
  Variable g : Z -> Z.
  Notation f := (fun k => Z.to_nat (g (Z.of_nat k))).

  Lemma indices_relabel_gen labels s : (forall z, In z labels -> (0 <= z <-> 0 <= g z)%Z) ->
    map (fun il => (fst il, Z.to_nat (snd il))) (filter (fun il => (-1 <? snd il)%Z) (combine (seq s (length labels)) (map g labels))) =
    relabel f (map (fun il => (fst il, Z.to_nat (snd il))) (filter (fun il => (-1 <? snd il)%Z) (combine (seq s (length labels)) labels))).
  Proof.
    revert s. induction labels as [|z labels IH]; intros s H; auto. cbn [length seq map combine filter snd].
    assert (Hz := H z (or_introl eq_refl)). specialize (IH (S s) ltac:(intros; apply H; now right)).
    assert (E : (-1 <? g z)%Z = (-1 <? z)%Z) by (destruct (Z.ltb_spec (-1) z), (Z.ltb_spec (-1) (g z)); auto; lia). rewrite E.
    destruct (Z.ltb_spec (-1) z); auto. cbn [map relabel fst snd]. rewrite Z2Nat.id by lia. f_equal. exact IH.
  Qed.
  Lemma indices_relabel labels : renames g labels -> label_indices_of (map g labels) = relabel f (label_indices_of labels).
  Proof. intros [H _]. unfold label_indices_of. rewrite map_length. now apply indices_relabel_gen. Qed.

  Lemma extract_rename {V : Type} {Sz : SOrd} (A : Arith V Sz) (B : BArith) listed T ct labels virtual single : renames g labels ->
    extract_clusters_bcubed A B listed T ct (map g labels) virtual single = extract_clusters_bcubed A B listed T ct labels virtual single.
  Proof.
    intro HR. unfold extract_clusters_bcubed. rewrite (indices_relabel labels HR). set (d := label_indices_of labels).
    set (okk := fun k => In (Z.of_nat k) labels).
    assert (Inj : forall a b, okk a -> okk b -> f a = f b -> a = b).
    { intros a b Ha Hb E. destruct HR as [H1 H2]. assert (g (Z.of_nat a) = g (Z.of_nat b)).
      { apply Z2Nat.inj; auto; [apply (H1 _ Ha); lia|apply (H1 _ Hb); lia]. }
      apply Nat2Z.inj. apply H2; auto; lia. }
    assert (Hd : forall kv, In kv d -> okk (snd kv)).
    { intros kv Hkv. unfold d, label_indices_of in Hkv. apply in_map_iff in Hkv as ([i z] & <- & Hi). apply filter_In in Hi as [Hi Hz]. cbn [fst snd] in *.
      apply Z.ltb_lt in Hz. unfold okk. rewrite Z2Nat.id by lia. eapply in_combine_r; eauto. }
    assert (HH : forall k, has_key (relabel f d) k = has_key d k) by (intro k; unfold has_key; now rewrite keys_relabel).
    assert (E1 : cluster_tree_from_condensed_tree_bcubed T ct (relabel f d) = cluster_tree_from_condensed_tree_bcubed T ct d).
    { unfold cluster_tree_from_condensed_tree_bcubed. apply filter_ext. intro r. now rewrite HH. }
    rewrite E1.
    assert (E2 : condensed_tree_elements listed T (relabel f d) = condensed_tree_elements listed T d).
    { unfold condensed_tree_elements. generalize (rev T) as l. generalize (@nil (nat * list nat)) as acc. intros acc l. revert acc.
      induction l as [|r l IH]; intro acc; auto. cbn [fold_res].
      assert (ES : elements_step listed (relabel f d) (map c_parent T) r acc = elements_step listed d (map c_parent T) r acc).
      { unfold elements_step. rewrite HH. rewrite (filter_ext _ _ HH) || idtac. destruct (member (c_child r) (map c_parent T)); auto.
        destruct (dict_get acc (c_child r)) as [below|]; auto. cbn [bind]. destruct (has_key acc (c_parent r)); auto. now rewrite (filter_ext _ _ HH). }
      rewrite ES. destruct (elements_step listed d (map c_parent T) r acc); auto. cbn [bind]. apply IH. }
    rewrite E2.
    assert (E3 : forall els, score_condensed_tree_nodes_bcubed B els (relabel f d) = score_condensed_tree_nodes_bcubed B els d).
    { intro els. unfold score_condensed_tree_nodes_bcubed.
      assert (Es : map snd (relabel f d) = map f (map snd d)) by (unfold relabel; rewrite !map_map; auto).
      assert (Hs : forall k, In k (map snd d) -> okk k) by (intros k Hk; apply in_map_iff in Hk as (kv & <- & Hkv); auto).
      destruct (counts_rekey f okk Inj (map snd d) Hs) as [EC _].
      assert (EL : list_sum (map snd (counts (map snd (relabel f d)))) = list_sum (map snd (counts (map snd d)))).
      { rewrite Es, EC. unfold rekey. now rewrite map_map. }
      rewrite EL. induction els as [|ce els IH]; auto. cbn [map_res]. rewrite (bcubed_relabel f okk Inj B d) by auto.
      destruct (bcubed_of B d _ _ (snd ce)); auto. cbn [bind]. now rewrite IH. }
    destruct (condensed_tree_elements listed T d) as [els|]; auto. cbn [bind]. destruct (score_condensed_tree_nodes A T) as [sc|]; auto. cbn [bind]. now rewrite E3.
  Qed.

  Lemma run_rename {W V : WOrd} {Sz : SOrd} lam LA (A : Arith V Sz) (B : BArith) garbage by_parent listed st labels virtual wt n (L : list (lrow W Sz)) : renames g labels ->
    semi_clusters_from_linkage_tree lam LA A B garbage by_parent listed st (map g labels) virtual wt n L =
    semi_clusters_from_linkage_tree lam LA A B garbage by_parent listed st labels virtual wt n L.
  Proof.
    intro HR. unfold semi_clusters_from_linkage_tree. destruct (condensed_tree_of _ _ _ _ _) as [T|]; auto. cbn [bind].
    assert (E : semi_selected_clusters_of A B listed st (map g labels) virtual T n = semi_selected_clusters_of A B listed st labels virtual T n); [|now rewrite E].
    unfold semi_selected_clusters_of. destruct (cluster_selection_method st); auto. now apply extract_rename.
  Qed.
End Rename.

(** ** Rows with labels *)
Section Rows.
  Context {Row : Type}.
  Variable ok : Row -> bool.
  Notation ok' := (fun row : Row * Z => ok (fst row)).

  Lemma combine_fst : forall (X : list Row) (l : list Z), length X = length l -> map fst (combine X l) = X.
  Proof. induction X as [|x X IH]; intros [|z l] H; auto; try discriminate. cbn. f_equal. apply IH. cbn in H. lia. Qed.
  Lemma filter_rows (R : list (Row * Z)) : map fst (filter ok' R) = filter ok (map fst R).
  Proof. induction R as [|r R IH]; auto. cbn [filter map]. destruct (ok (fst r)); cbn [map]; now rewrite IH. Qed.
  Lemma forallb_rows (R : list (Row * Z)) : forallb ok' R = forallb ok (map fst R).
  Proof. induction R as [|r R IH]; auto. cbn [forallb map]. now rewrite IH. Qed.
  Lemma index_rows (R : list (Row * Z)) : finite_index_of ok' R = finite_index_of ok (map fst R).
  Proof.
    unfold finite_index_of. rewrite map_length. apply filter_ext. intro i. rewrite nth_error_map. destruct (nth_error R i); auto.
  Qed.

  (** A fit depends on the rows only through the run on the complete ones. *)
  Lemma fit_rows {W V : WOrd} {Sz : SOrd} zero set_list (run : list (Row * Z) -> res (fitted W V Sz)) (run' : list Row -> res (fitted W V Sz)) R :
    run (filter ok' R) = run' (filter ok (map fst R)) -> fit zero ok' set_list run R = fit zero ok set_list run' (map fst R).
  Proof.
    intro E. unfold fit. rewrite forallb_rows, index_rows, map_length. assert (HF : forallb ok (map fst R) = true \/ forallb ok (map fst R) = false) by (destruct (forallb ok (map fst R)); auto).
    destruct HF as [HF|HF]; rewrite HF.
    - assert (EF : filter ok' R = R). { apply all_finite_filter. now rewrite forallb_rows. } rewrite (all_finite_filter ok _ HF), EF in E. exact E.
    - rewrite <- index_rows, !take_index. rewrite index_rows, take_index, E. reflexivity.
  Qed.
  Lemma fit_same {W V : WOrd} {Sz : SOrd} zero set_list (run : list (Row * Z) -> res (fitted W V Sz)) R R' :
    map fst R = map fst R' -> run (filter ok' R) = run (filter ok' R') -> fit zero ok' set_list run R = fit zero ok' set_list run R'.
  Proof.
    intros E E'. rewrite (fit_rows zero set_list run (fun _ => run (filter ok' R)) R eq_refl). symmetry. rewrite E.
    apply (fit_rows zero set_list run (fun _ => run (filter ok' R)) R'). auto.
  Qed.

  Lemma filter_agree : forall (X : list Row) (l l' : list Z), length X = length l -> length X = length l' ->
    (forall p x, nth_error X p = Some x -> ok x = true -> nth_error l p = nth_error l' p) -> filter ok' (combine X l) = filter ok' (combine X l').
  Proof.
    induction X as [|x X IH]; intros [|z l] [|z' l'] H H' HA; auto; try discriminate. cbn [combine filter fst]. cbn in H, H'.
    rewrite (IH l l') by (try lia; intros p y; apply (HA (S p) y)). destruct (ok x) eqn:E; auto.
    specialize (HA 0 x eq_refl E). cbn in HA. now injection HA as ->.
  Qed.
End Rows.

Section Fit.
  Context {W V : WOrd} {Row : Type}.
  Variables (lam : W -> V) (LA : LamArith V) (garbage : nat -> V) (mst_of : list Row -> res (list (edge W))) (ok : Row -> bool) (set_list : list nat -> list nat).
  Variables (A : Arith V NatSize) (B : BArith) (by_parent : list (crow V NatSize) -> list (crow V NatSize)) (listed : list nat -> list nat)
    (st : settings V NatSize) (virtual : bool).
  Notation run := (semi_fast_hdbscan lam LA garbage mst_of A B by_parent listed st virtual).
  Notation sfit := (semi_fit (la_zero LA) ok set_list run).
  Notation ok' := (fun row : Row * Z => ok (fst row)).

  Lemma labelled_spec y : existsb (fun l => negb (l =? -1)%Z) (map clean_label y) = true <-> labelled_somewhere y.
  Proof.
    rewrite existsb_exists. split.
    - intros (l & H & E). apply in_map_iff in H as ([z|] & <- & H); cbn in E; [|discriminate]. exists z. split; auto. apply negb_true_iff, Z.eqb_neq in E. auto.
    - intros (l & H & E). exists l. split; [apply in_map_iff; exists (Some l); auto|]. apply negb_true_iff, Z.eqb_neq. auto.
  Qed.
  Lemma semi_fit_ok X y : length y = length X -> labelled_somewhere y -> sfit X y = fit (la_zero LA) ok' set_list run (combine X (map clean_label y)).
  Proof. intros H HL. unfold semi_fit. rewrite H, Nat.eqb_refl. cbn [negb]. apply labelled_spec in HL. rewrite HL. reflexivity. Qed.
  Lemma semi_fit_unlabelled X y : ~ labelled_somewhere y -> sfit X y = Err ValueError.
  Proof.
    intro H. unfold semi_fit. destruct (negb _); auto. destruct (existsb _ _) eqn:E; auto. exfalso. apply H. apply labelled_spec, E.
  Qed.
  Lemma semi_fit_lengths X y : length y <> length X -> sfit X y = Err ValueError.
  Proof. intro H. unfold semi_fit. destruct (Nat.eqb_spec (length X) (length y)); [congruence|reflexivity]. Qed.

  (** Only the labels of complete rows matter. *)
  Lemma missing_labels X y y' : length y = length X -> length y' = length X -> labelled_somewhere y -> labelled_somewhere y' ->
    (forall p x, nth_error X p = Some x -> ok x = true -> nth_error (map clean_label y) p = nth_error (map clean_label y') p) -> sfit X y = sfit X y'.
  Proof.
    intros H H' HL HL' HA. rewrite !semi_fit_ok by auto. apply fit_same; [rewrite !combine_fst; rewrite ?map_length; auto|].
    f_equal. apply filter_agree; rewrite ?map_length; auto.
  Qed.

  (** Labels are names. *)
  Definition map_label (g : Z -> Z) (row : Row * Z) : Row * Z := (fst row, g (snd row)).
  Lemma combine_map g : forall (X : list Row) l, combine X (map g l) = map (map_label g) (combine X l).
  Proof. induction X as [|x X IH]; intros [|z l]; auto. cbn. now rewrite IH. Qed.
  Lemma filter_map_label g R : filter ok' (map (map_label g) R) = map (map_label g) (filter ok' R).
  Proof. induction R as [|r R IH]; auto. cbn [map filter]. unfold map_label at 1. cbn [fst]. destruct (ok (fst r)); cbn [map]; now rewrite IH. Qed.
  Lemma run_renamed g R : renames g (map snd R) -> run (map (map_label g) R) = run R.
  Proof.
    intro HR. unfold semi_fast_hdbscan, degenerate. rewrite !map_length.
    assert (E1 : map fst (map (map_label g) R) = map fst R) by (rewrite map_map; apply map_ext; auto).
    assert (E2 : map snd (map (map_label g) R) = map g (map snd R)) by (rewrite !map_map; apply map_ext; auto). rewrite E1, E2.
    destruct (length R =? 0); auto. destruct (length R <? 2); auto. destruct (mst_of (map fst R)) as [M|]; auto. cbn [bind].
    destruct (mst_to_linkage_tree (sort_mst M)) as [L|]; auto. cbn [bind]. now rewrite run_rename.
  Qed.
  Lemma fit_renamed X y y' g : length y = length X -> labelled_somewhere y -> labelled_somewhere y' ->
    map clean_label y' = map g (map clean_label y) -> renames g (map clean_label y) -> sfit X y' = sfit X y.
  Proof.
    intros H HL HL' E HR. assert (H' : length y' = length X) by (rewrite <- (map_length clean_label), E, !map_length; auto).
    rewrite !semi_fit_ok by auto. apply fit_same; [rewrite !combine_fst; rewrite ?map_length; auto|].
    rewrite E, combine_map, filter_map_label. apply run_renamed.
    assert (HI : forall z, In z (map snd (filter ok' (combine X (map clean_label y)))) -> In z (map clean_label y)).
    { intros z Hz. apply in_map_iff in Hz as ([x z'] & <- & Hz). apply filter_In in Hz as [Hz _]. cbn [snd]. eapply in_combine_r; eauto. }
    destruct HR as [H1 H2]. split; auto.
  Qed.

  (** ** What the fit reports *)
  Section Report.
    Variables (NN : bscore B -> Prop) (X : list Row) (y : list (option Z)) (M : list (edge W)).
    Hypothesis Hset : forall l, Permutation (set_list l) l.
    Hypothesis HK : setting_ok lam LA A by_parent st.
    Hypothesis HB : BLaws B NN.
    Hypothesis Hlisted : forall l, Permutation (listed l) l.
    Notation F := (filter ok X).
    Hypothesis Hleaf : leaves_ok A (la_zero LA) (length F) (fun _ => 1) (min_cluster_size st).
    Hypothesis Hy : length y = length X.
    Hypothesis HL : labelled_somewhere y.
    Hypothesis Hn : (if forallb ok X then 2 else 3) <= length F.
    Hypothesis EM : mst_of F = Ok M.
    Hypothesis HM : spanning_tree (length F) M.
    (** The labels of the complete rows. *)
    Definition kept_labels : list Z := map snd (filter ok' (combine X (map clean_label y))).
    Notation R := (filter ok' (combine X (map clean_label y))).
    Notation semi_run := (semi_clusters_from_spanning_tree lam LA A B garbage by_parent listed st kept_labels virtual M).

    Lemma rows_kept : map fst R = F.
    Proof. rewrite filter_rows, combine_fst; auto. now rewrite map_length. Qed.
    Lemma kept_length : length kept_labels = length F.
    Proof. unfold kept_labels. rewrite map_length, <- rows_kept. now rewrite map_length. Qed.
    Lemma kept_places pos : places ok X pos -> forall i, i < length F -> nth_error kept_labels i = nth_error (map clean_label y) (pos i).
    Proof.
      intros HP i Hi. assert (HP' : places ok' (combine X (map clean_label y)) pos).
      { assert (E : map fst (combine X (map clean_label y)) = X) by (apply combine_fst; now rewrite map_length). destruct HP as (P1 & P2 & P3).
        assert (EL : length R = length F) by (rewrite <- rows_kept; now rewrite map_length).
        pose proof (index_places ok' (combine X (map clean_label y))) as Q. 
        assert (pos_is : forall i, i < length F -> pos i = nth i (finite_index_of ok' (combine X (map clean_label y))) 0).
        { rewrite index_rows, E. pose proof (index_places ok X) as Q'. clear Q. intros k Hk. revert k Hk.
          apply (places_unique ok X); [split; auto|exact Q']. }
        destruct Q as (Q1 & Q2 & Q3). rewrite EL in *. unfold places. rewrite EL. split; [|split].
        - intros a b Hab. apply P1. auto.
        - intros a Ha. rewrite pos_is by auto. now apply Q2.
        - intros p x Ex Hx. destruct (Q3 p x Ex Hx) as (a & Ha & <-). exists a. split; auto. }
      destruct HP' as (_ & P2 & _). assert (EL : length R = length F) by (rewrite <- rows_kept; now rewrite map_length). rewrite EL in P2.
      unfold kept_labels. rewrite nth_error_map, <- P2 by auto. destruct (nth_error (combine X (map clean_label y)) (pos i)) as [[x z]|] eqn:E.
      - cbn [option_map snd]. symmetry. 
        assert (G : forall (X : list Row) (l : list Z) p x z, nth_error (combine X l) p = Some (x, z) -> nth_error l p = Some z).
        { induction X0 as [|a X0 IH]; intros [|b l] [|p] u v K; cbn in *; try discriminate; [now injection K as <- <-|eapply IH; eauto]. }
        eapply G; eauto.
      - exfalso. specialize (P2 i Hi). rewrite E in P2. symmetry in P2. apply nth_error_None in P2. lia.
    Qed.

    Lemma semi_prefix : match semi_run with
      | Ok (ls, ps, T) => exists L, mst_to_linkage_tree (sort_mst M) = Ok L /\
          run R = Ok {| f_labels := ls; f_probabilities := ps; f_linkage := L; f_condensed := T; f_mst := sort_mst M |}
      | Err e => run R = Err e end.
    Proof.
      assert (HR : length R = length F) by (rewrite <- rows_kept; now rewrite map_length).
      assert (H2 : 2 <= length F) by (destruct (forallb ok X); lia).
      unfold semi_fast_hdbscan, semi_clusters_from_spanning_tree. rewrite HR. destruct (Nat.eqb_spec (length F) 0) as [|_]; [lia|]. destruct (Nat.ltb_spec (length F) 2) as [|_]; [lia|].
      rewrite rows_kept, EM. cbn [bind]. destruct (mst_to_linkage_tree (sort_mst M)) as [L|]; [|reflexivity]. cbn [bind]. fold kept_labels.
      destruct (semi_clusters_from_linkage_tree lam LA A B garbage by_parent listed st kept_labels virtual (fun _ => 1) (length M + 1) L) as [[[ls ps] T]|]; [|reflexivity]. cbn [bind fst snd]. eauto.
    Qed.

    Lemma semi_report :
      (exists r0 r pos others ls ps T, semi_run = Ok (ls, ps, T) /\ run R = Ok r0 /\
         f_labels r0 = ls /\ f_probabilities r0 = ps /\ f_condensed r0 = T /\ f_mst r0 = sort_mst M /\ sfit X y = Ok r /\
         other_rows ok X others /\ places ok X pos /\ (forallb ok X = true -> r = r0) /\
         (forallb ok X = false -> extends (Sz := NatSize) (la_zero LA) ok' (combine X (map clean_label y)) (fun _ => 1) (min_cluster_size st) r0 r pos others)) \/
      (cluster_selection_persistence st <> None /\ sfit X y = Err IndexError).
    Proof.
      assert (HR : length R = length F) by (rewrite <- rows_kept; now rewrite map_length).
      assert (EX : map fst (combine X (map clean_label y)) = X) by (apply combine_fst; now rewrite map_length).
      assert (H2 : 2 <= length F) by (destruct (forallb ok X); lia).
      assert (Hfit : forall e, run R = Err e -> sfit X y = Err e).
      { intros e E. rewrite semi_fit_ok by auto. unfold fit. rewrite take_index, forallb_rows, EX.
        assert (HF : forallb ok X = true \/ forallb ok X = false) by (destruct (forallb ok X); auto). destruct HF as [HF|HF]; rewrite HF.
        - assert (EF : R = combine X (map clean_label y)) by (apply all_finite_filter; rewrite forallb_rows, EX; auto). rewrite <- EF. exact E.
        - now rewrite E. }
      pose proof semi_prefix as SP.
      destruct (c48_total lam LA A B NN garbage by_parent listed st kept_labels virtual (length F) M HK HB Hlisted kept_length Hleaf HM H2) as [(ls & ps & T & E & HC & HT & HO & _)|[Hp E]].
      2:{ right. split; auto. rewrite E in SP. auto. }
      left. rewrite E in SP. destruct SP as (L & EL & ER). set (r0 := {| f_labels := ls; f_probabilities := ps; f_linkage := L; f_condensed := T; f_mst := sort_mst M |}) in ER.
      destruct (linkage_plain (length F) M HM) as (L' & EL' & (L1 & L2 & L3 & L4 & L5)). assert (L' = L) by congruence. subst L'.
      assert (HLK : linkage_of (Sz := NatSize) (length F) (fun _ => 1) (sort_mst M) L).
      { split; auto. split; auto. split; auto. exists (sort_mst M). split; auto. }
      pose proof (spanning_perm _ _ _ (sort_mst_perm M) HM) as HM'.
      assert (HF : forallb ok X = true \/ forallb ok X = false) by (destruct (forallb ok X); auto). destruct HF as [HF|HF].
      - assert (EF : R = combine X (map clean_label y)) by (apply all_finite_filter; rewrite forallb_rows, EX; auto).
        exists r0, r0, (fun i => nth i (finite_index_of ok X) 0), [], ls, ps, T. split; auto. split; auto. do 4 (split; [reflexivity|]). split.
        { rewrite semi_fit_ok by auto. unfold fit. rewrite forallb_rows, EX, HF. rewrite <- EF. exact ER. }
        split; [|split; [apply index_places|split; [auto|congruence]]]. split; [constructor|]. intro p. split; [intros []|]. intros (x & Ex & Hx).
        rewrite forallb_forall in HF. rewrite HF in Hx; [discriminate|eapply nth_error_In; eauto].
      - rewrite HF in Hn. assert (HF' : forallb ok' (combine X (map clean_label y)) = false) by (rewrite forallb_rows, EX; auto).
        destruct (fit_extends (la_zero LA) ok' set_list run (combine X (map clean_label y)) (fun _ => 1) (fun _ => 1) (min_cluster_size st) Hset HF') with (r0 := r0)
          as (r & others & E1 & H3 & H4 & H5 & _); rewrite ?HR; auto.
        { apply (cl_labels _ _ _ _ _ HC). } { apply (cl_strengths _ _ _ _ _ HC). }
        exists r0, r, (fun i => nth i (finite_index_of ok X) 0), others, ls, ps, T. split; auto. split; auto. do 4 (split; [reflexivity|]).
        split; [rewrite semi_fit_ok by auto; exact E1|]. split.
        { destruct H3 as [N3 H3]. split; auto. intro p. rewrite H3. split.
          - intros (row & Er & Hr). exists (fst row). split; auto. rewrite <- EX, nth_error_map, Er. auto.
          - intros (x & Ex & Hx). rewrite <- EX, nth_error_map in Ex. destruct (nth_error (combine X (map clean_label y)) p) as [row|]; [|discriminate]. injection Ex as <-. eauto. }
        split; [apply index_places|]. split; [congruence|]. intros _. rewrite index_rows, EX in H5. exact H5.
    Qed.
  End Report.
End Fit.
