(** Boruvka rounds over a space tree end with a minimum spanning tree. *)
From Coq Require Import List Arith Lia Bool Permutation Relations Sorted.
From Verif Require Import Prelude Order Graph UF M_DisjointSet P_DisjointSet M_Precomputed M_Linkage M_Select
  M_CoreGraph M_TreeQuery M_Boruvka S_Kruskal S_Precomputed S_CoreGraph S_SpaceTree S_Boruvka
  P_Sort P_Forest P_Precomputed2 P_KruskalRun P_KruskalEntry P_Boruvka P_CoreGraph P_CoreGraphRun P_PrecomputedBoruvka
  P_TreeQuery P_BoruvkaQuery P_BoruvkaRound.
Import ListNotations.

(** ** Node components *)
Section Nodes.
  Variables (t : space_tree) (n : nat).
  Hypothesis TS : tree_shape t n.

  (** Marks are right: a marked node holds samples of that component only. *)
  Definition marked (comp : nat -> nat) (nc : nat -> option nat) : Prop :=
    forall node c q, node < t_nodes t -> nc node = Some c -> below t node q -> comp q = c.

  Lemma below_first node : node < t_nodes t -> below t node (t_idx t (t_start t node)).
  Proof.
    intros H. exists (t_start t node). split; [|auto].
    assert (N := ts_nonempty _ _ TS node H). lia.
  Qed.

  Section Update.
    Variables (old comp : nat -> nat) (nc0 : nat -> option nat).
    Hypothesis Coarser : forall x y, x < n -> y < n -> old x = old y -> comp x = comp y.
    Hypothesis M0 : marked old nc0.

    (** Nodes from [i] on have been visited. *)
    Definition visited (nc : nat -> option nat) (i : nat) : Prop :=
      (forall node, node < i -> nc node = nc0 node) /\
      (forall node c, i <= node < t_nodes t ->
         (nc node = Some c <-> forall q, below t node q -> comp q = c)).

    Lemma update_node_ok nc i : i < t_nodes t -> visited nc (S i) ->
      visited (update_node t comp nc i) i.
    Proof.
      intros Hi [V1 V2].
      assert (Keep : (forall c, (forall q, below t i q -> comp q = c) -> False) -> visited nc i).
      { intros H. split; [intros; apply V1; lia|]. intros node c Hn.
        destruct (Nat.eq_dec node i) as [->|N]; [|apply V2; lia]. split.
        - intros E q Hq. exfalso. rewrite V1 in E by lia.
          apply (H (comp (t_idx t (t_start t i)))). intros q' Hq'.
          assert (B := below_first i Hi).
          apply Coarser; [eapply below_range; eauto|eapply below_range; eauto|].
          rewrite (M0 i c q' Hi E Hq'). symmetry. apply (M0 i c _ Hi E B).
        - intros Hq. exfalso. eapply H; eauto. }
      assert (Set_ : forall c, (forall q, below t i q -> comp q = c) -> visited (upd nc i (Some c)) i).
      { intros c H. split.
        - intros node Hn. rewrite upd_neq by lia. apply V1. lia.
        - intros node c' Hn. destruct (Nat.eq_dec node i) as [->|N].
          + rewrite upd_eq. split.
            * intros [= <-]. exact H.
            * intros H'. assert (B := below_first i Hi). f_equal.
              rewrite <- (H _ B). now apply H'.
          + rewrite upd_neq by auto. apply V2. lia. }
      unfold update_node. destruct (t_leaf t i) eqn:L.
      - destruct (forallb _ _) eqn:E.
        + apply Set_. intros q (k & Hk & <-). rewrite forallb_forall in E.
          destruct (Nat.eq_dec k (t_start t i)) as [->|N]; [auto|].
          specialize (E k). rewrite in_seq in E. specialize (E ltac:(lia)). now apply Nat.eqb_eq in E.
        + apply Keep. intros c H. rewrite <- not_true_iff_false in E. apply E.
          apply forallb_forall. intros k Hk. apply in_seq in Hk. apply Nat.eqb_eq.
          rewrite (H (t_idx t k)) by (exists k; split; [lia|auto]).
          symmetry. apply H. now apply below_first.
      - destruct (ts_split _ _ TS i Hi L) as (S1 & _).
        assert (Ch := fun q => below_children t n TS i q Hi L).
        replace (2 * i + 1 + 1) with (2 * i + 2) by lia.
        assert (Hl := fun c => V2 (2 * i + 1) c ltac:(lia)).
        assert (Hr := fun c => V2 (2 * i + 2) c ltac:(lia)).
        assert (Bl := below_first (2 * i + 1) ltac:(lia)).
        assert (Br := below_first (2 * i + 2) ltac:(lia)).
        assert (Both : forall c, (forall q, below t i q -> comp q = c) ->
                  nc (2 * i + 1) = Some c /\ nc (2 * i + 2) = Some c).
        { intros c H. split; [apply Hl|apply Hr]; intros q Hq; apply H; apply Ch; auto. }
        destruct (nc (2 * i + 1)) as [a|] eqn:El; destruct (nc (2 * i + 2)) as [b|] eqn:Er.
        + destruct (Nat.eqb_spec a b) as [<-|N].
          * apply Set_. intros q Hq. apply Ch in Hq. destruct Hq as [Hq|Hq].
            -- now apply (proj1 (Hl a)).
            -- now apply (proj1 (Hr a)).
          * apply Keep. intros c H. destruct (Both c H). congruence.
        + apply Keep. intros c H. destruct (Both c H). congruence.
        + apply Keep. intros c H. destruct (Both c H). congruence.
        + assert (No : forall c, (forall q, below t i q -> comp q = c) -> False).
          { intros c H. destruct (Both c H). congruence. }
          specialize (Keep No). destruct Keep as [K1 K2]. split.
          * intros node Hn. rewrite upd_neq by lia. auto.
          * intros node c Hn. destruct (Nat.eq_dec node i) as [->|N].
            -- rewrite upd_eq. split; [discriminate|]. intros H. exfalso. eauto.
            -- rewrite upd_neq by auto. auto.
    Qed.

    Lemma update_nodes_visited i : i <= t_nodes t ->
      forall nc, visited nc i -> visited (fold_left (update_node t comp) (rev (seq 0 i)) nc) 0.
    Proof.
      induction i as [|i IH]; intros Hi nc V; [exact V|].
      rewrite seq_S, rev_app_distr. cbn [rev app fold_left Nat.add]. apply IH; [lia|].
      apply update_node_ok; auto.
    Qed.

    Lemma update_nodes_marked : marked comp (update_nodes t comp nc0).
    Proof.
      assert (V : visited nc0 (t_nodes t)) by (split; [auto|intros; lia]).
      apply update_nodes_visited in V; [|lia]. destruct V as [_ V].
      intros node c q Hn E Hq. apply (V node c); auto. lia.
    Qed.
  End Update.
End Nodes.

Lemma acyclic_no_loop {W} (M : list (edge W)) e : acyclic M -> In e M -> esrc e <> edst e.
Proof.
  intros A H E. destruct (in_split _ _ H) as (l1 & l2 & ->).
  apply (acyclic_perm _ (e :: l1 ++ l2)) in A; [|symmetry; apply Permutation_middle].
  apply acyclic_tail in A. apply (proj2 A). rewrite E. apply rst_refl.
Qed.

(** ** Candidates *)
Section Choose.
  Context {W : WOrd}.

  Definition edge_of (ih : nat * @cand W) : edge W :=
    (fst ih, match snd (snd ih) with Some q => q | None => fst ih end, fst (snd ih)).

  Lemma dict_get_map {A B} (g : A -> B) (d : list (nat * A)) k :
    dict_get (map (fun kv => (fst kv, g (snd kv))) d) k =
    match dict_get d k with Ok v => Ok (g v) | Err e => Err e end.
  Proof. induction d as [|[k' v] d IH]; cbn; [auto|]. now destruct (k =? k'). Qed.

  Lemma dict_set_map {A B} (g : A -> B) (d : list (nat * A)) k v :
    dict_set (map (fun kv => (fst kv, g (snd kv))) d) k (g v) =
    map (fun kv => (fst kv, g (snd kv))) (dict_set d k v).
  Proof.
    induction d as [|[k' v'] d IH]; cbn; [auto|]. destruct (k =? k'); cbn; [auto|]. now rewrite IH.
  Qed.

  Definition as_edges (l : list (nat * (nat * @cand W))) : list (nat * edge W) :=
    map (fun kv => (fst kv, edge_of (snd kv))) l.

  Lemma select_as_note l : forall D,
    as_edges (fold_left
      (fun component_edges (x : nat * (nat * @cand W)) =>
         let '(c, (i, h)) := x in
         match dict_get component_edges c with
         | Ok old => if wlt (fst h) (fst (snd old)) then dict_set component_edges c (i, h) else component_edges
         | Err _ => dict_set component_edges c (i, h)
         end) l D) = note_all (as_edges l) (as_edges D).
  Proof.
    induction l as [|[c [i h]] l IH]; intros D; cbn [fold_left]; [reflexivity|].
    rewrite IH. unfold note_all. cbn [as_edges map fold_left fst snd]. f_equal. unfold note_edge, as_edges.
    rewrite dict_get_map. unfold cand in *. destruct (dict_get D c) as [old|er].
    - change (ewt (edge_of (i, h))) with (fst h). change (ewt (edge_of old)) with (fst (snd old)).
      destruct (wlt (fst h) (fst (snd old))); [|reflexivity]. now rewrite dict_set_map.
    - now rewrite dict_set_map.
  Qed.

  Lemma select_as_edges comps (cands : list (@cand W)) :
    as_edges (select_candidates comps cands) =
    note_all (as_edges (combine comps (combine (seq 0 (length cands)) cands))) [].
  Proof. unfold select_candidates. now rewrite select_as_note. Qed.

  Lemma candidate_edges_ok (l : list (nat * (nat * @cand W))) :
    (forall x, In x l -> snd (snd (snd x)) <> None) ->
    map_res (fun x => candidate_edge (snd x)) l = Ok (map snd (as_edges l)).
  Proof.
    induction l as [|x l IH]; intros H; cbn [map_res]; [reflexivity|].
    assert (Hx := H x (or_introl eq_refl)). unfold candidate_edge at 1.
    destruct (snd (snd (snd x))) as [j|] eqn:E; [|congruence]. cbn [bind].
    rewrite IH by (intros; apply H; now right). cbn [bind as_edges map snd].
    unfold edge_of at 1. now rewrite E.
  Qed.

  Lemma in_combine3 (comps : list nat) (cands : list (@cand W)) n c i h :
    length comps = n -> length cands = n ->
    In (c, (i, h)) (combine comps (combine (seq 0 (length cands)) cands)) <->
    nth_error cands i = Some h /\ c = nth i comps 0.
  Proof.
    intros L1 L2.
    assert (G : forall (l1 : list nat) (l2 : list (@cand W)) a, length l1 = length l2 ->
      (In (c, (i, h)) (combine l1 (combine (seq a (length l2)) l2)) <->
       a <= i /\ nth_error l2 (i - a) = Some h /\ i < a + length l2 /\ c = nth (i - a) l1 0)).
    { clear. induction l1 as [|x l1 IH]; intros l2 a L; destruct l2 as [|y l2]; try discriminate.
      - cbn. split; [tauto|]. intros (A & B & _). destruct (i - a); discriminate.
      - cbn [length seq combine In nth]. rewrite IH by (cbn in L; lia). split.
        + intros [E|(A & B & C & D)].
          * injection E as -> -> ->. rewrite Nat.sub_diag. cbn. repeat split; auto; lia.
          * split; [lia|]. replace (i - a) with (S (i - S a)) by lia. cbn. repeat split; auto; lia.
        + intros (A & B & C & D). destruct (Nat.eq_dec i a) as [->|N].
          * left. rewrite Nat.sub_diag in B, D. cbn in B, D. congruence.
          * right. replace (i - a) with (S (i - S a)) in B, D by lia. cbn in B, D. repeat split; auto; lia. }
    rewrite G by congruence. rewrite !Nat.sub_0_r. split; [tauto|]. intros [A B].
    assert (i < length cands) by (apply nth_error_Some; congruence). repeat split; auto; lia.
  Qed.
End Choose.

Section Tree.
  Context {W : WOrd}.
  Variables (t : space_tree) (n : nat) (rd lb : nat -> nat -> W) (core : nat -> W).
  Hypothesis TS : tree_shape t n.
  Hypothesis LB : lower_bounds t rd lb.
  Hypothesis Sym : forall i j, i < n -> j < n -> rd i j = rd j i.
  Notation mrd := (mutual core rd).
  Hypothesis Fin : forall i j, i < n -> j < n -> wfinite (mrd i j) = true.

  Definition G (a b : nat) (w : W) : Prop := a < n /\ b < n /\ equiv w (mrd a b).

  Lemma mutual_lub i j z : wle (rd i j) z = true -> wle (core i) z = true -> wle (core j) z = true ->
    wle (mrd i j) z = true.
  Proof. intros. unfold mutual. repeat apply wmax_lub; auto. Qed.

  Lemma mutual_sym i j : i < n -> j < n -> wle (mrd i j) (mrd j i) = true.
  Proof.
    intros Hi Hj. apply mutual_lub.
    - rewrite Sym by auto. apply mrd_rd.
    - apply mrd_core_r.
    - apply mrd_core_l.
  Qed.

  Lemma equiv_trans (x y z : W) : equiv x y -> equiv y z -> equiv x z.
  Proof. intros [A B] [C D]. split; eapply wle_trans; eauto. Qed.
  Lemma equiv_refl (x : W) : equiv x x.
  Proof. split; apply wle_refl. Qed.

  Lemma G_sym a b w : G a b w -> G b a w.
  Proof.
    intros (A & B & C). split; [auto|]. split; [auto|]. eapply equiv_trans; [exact C|].
    split; now apply mutual_sym.
  Qed.

  Lemma phase_range F : phase_inv G F -> in_range n F.
  Proof. intros P e He. destruct (ph_edges _ _ P e He) as (A & B & _). auto. Qed.

  (** State between rounds. *)
  Record rinv (d : disjoint_set) (nc : nat -> option nat) (comps : list nat) (k : nat) (F : list (edge W)) : Prop := {
    ri_tracks : tracks n d F;
    ri_phase : phase_inv G F;
    ri_labels : labels_classes n comps (connected F);
    ri_marked : marked t (fun i => nth i comps 0) nc;
    ri_count : k = length (nodup Nat.eq_dec comps)
  }.

  Lemma nodup_unique (l : list nat) : length (nodup Nat.eq_dec l) = length (unique l).
  Proof. unfold unique, nsort. now rewrite isort_length. Qed.

  Lemma rinv_count d nc comps k F : rinv d nc comps k F -> k + length F = n.
  Proof.
    intros R. rewrite (ri_count _ _ _ _ _ R), nodup_unique.
    apply (labels_count n F comps); [apply (ph_acyclic _ _ (ri_phase _ _ _ _ _ R))| |apply R].
    apply phase_range. apply R.
  Qed.

  Lemma refresh d nc comps (F F' : list (edge W)) :
    labels_classes n comps (connected F) -> marked t (fun i => nth i comps 0) nc ->
    (forall x y, connected F x y -> connected F' x y) -> tracks n d F' -> phase_inv G F' ->
    exists d' nc' comps', update_component_vectors t n d nc = Ok (d', nc', comps') /\
      rinv d' nc' comps' (length (nodup Nat.eq_dec comps')) F'.
  Proof.
    intros [HL HC] HM Hmore HT HP. unfold update_component_vectors.
    destruct (update_points_ok n d F' HT) as (d' & comps' & E & HT' & HL').
    rewrite E. cbn [bind]. do 3 eexists. split; [reflexivity|]. split; auto.
    eapply update_nodes_marked; eauto. cbn beta. intros x y Hx Hy Exy.
    apply HL'; auto. apply Hmore. now apply HC.
  Qed.

  Lemma labels_two comps (F : list (edge W)) : labels_classes n comps (connected F) ->
    1 < length (nodup Nat.eq_dec comps) -> forall i, i < n ->
    exists q, q < n /\ nth q comps 0 <> nth i comps 0.
  Proof.
    intros [HL _] H i Hi.
    destruct (existsb (fun c => negb (c =? nth i comps 0)) comps) eqn:E.
    - apply existsb_exists in E. destruct E as (c & Hc & Ec).
      destruct (In_nth _ _ 0 Hc) as (q & Hq & Eq). exists q. split; [lia|]. rewrite Eq.
      apply negb_true_iff, Nat.eqb_neq in Ec. auto.
    - exfalso. assert (All : forall c, In c (nodup Nat.eq_dec comps) -> c = nth i comps 0).
      { intros c Hc. apply nodup_In in Hc. rewrite <- not_true_iff_false in E.
        destruct (Nat.eq_dec c (nth i comps 0)) as [|N]; [auto|]. exfalso. apply E.
        apply existsb_exists. exists c. split; [auto|]. apply negb_true_iff. now apply Nat.eqb_neq. }
      assert (ND := NoDup_nodup Nat.eq_dec comps).
      destruct (nodup Nat.eq_dec comps) as [|a [|b l]]; cbn in H; try lia.
      inversion ND as [|? ? N _]; subst. apply N. rewrite (All a), (All b) by (cbn; auto). now left.
  Qed.

  (** One round of choosing and merging. *)
  Lemma merge_round d nc comps k F cands :
    rinv d nc comps k F -> 1 < k ->
    lightest_found n core rd (fun i => nth i comps 0) cands ->
    exists d' new, merge_candidates d comps cands = Ok (d', new) /\
      tracks n d' (F ++ new) /\ phase_inv G (F ++ new) /\ 0 < length new.
  Proof.
    intros R Hk (LL & HR & HF).
    assert (HLab := ri_labels _ _ _ _ _ R). destruct HLab as [HL HC].
    set (comp := fun i => nth i comps 0) in *.
    assert (Hkn := rinv_count _ _ _ _ _ R).
    set (C := as_edges (combine comps (combine (seq 0 (length cands)) cands))).
    set (D0 := select_candidates comps cands).
    assert (ED : as_edges D0 = note_all C []) by apply select_as_edges.
    assert (HD : best_of C (as_edges D0)).
    { rewrite ED. apply (note_all_best C [] []), best_nil. }
    assert (InC : forall c e, In (c, e) C <-> exists i h, nth_error cands i = Some h /\ c = comp i /\ e = edge_of (i, h)).
    { intros c e. unfold C, as_edges. rewrite in_map_iff. split.
      - intros ([c' [i h]] & E & Hin). cbn in E. injection E as -> <-.
        apply (in_combine3 comps cands n) in Hin; auto. exists i, h. tauto.
      - intros (i & h & A & -> & ->). exists (comp i, (i, h)). split; [reflexivity|].
        apply (in_combine3 comps cands n); auto. }
    (* every component has a finite candidate *)
    assert (Good : forall x, In x D0 -> exists i q, snd x = (i, (mrd i q, Some q)) /\ i < n /\ q < n /\
               fst x = comp i /\ comp q <> comp i).
    { intros [c [i h]] Hx.
      assert (Hx' : In (c, edge_of (i, h)) (as_edges D0)).
      { unfold as_edges. apply in_map_iff. exists (c, (i, h)). auto. }
      assert (Horig := Hx'). apply (bo_from _ _ HD) in Horig. apply InC in Horig.
      destruct Horig as (i' & h' & N & Ec & Ee).
      assert (i' = i) as -> by (unfold edge_of in Ee; injection Ee; auto).
      assert (Ew : fst h' = fst h) by (unfold edge_of in Ee; injection Ee; auto).
      assert (Hi : i < n) by (rewrite <- LL; apply nth_error_Some; congruence).
      destruct (labels_two comps F (conj HL HC)) with (i := i) as (q & Hq & Nq); auto.
      { rewrite <- (ri_count _ _ _ _ _ R). exact Hk. }
      destruct (HF i q Hi Hq Nq (Fin i q Hi Hq)) as (j & hj & J1 & J2 & J3).
      destruct (bo_least _ _ HD c (edge_of (j, hj))) as (f & F1 & F2).
      { apply InC. exists j, hj. split; [auto|]. split; [|auto]. rewrite Ec. symmetry. exact J2. }
      assert (f = edge_of (i, h)) as -> by (eapply keys_unique; eauto; apply HD).
      change (ewt (edge_of (i, h))) with (fst h) in F2. change (ewt (edge_of (j, hj))) with (fst hj) in F2.
      assert (Ffin : wfinite (fst h) = true).
      { unfold wfinite. eapply wle_lt_trans; [exact F2|]. eapply wle_lt_trans; [exact J3|]. now apply Fin. }
      (* the stored pair itself comes from the list of candidates *)
      assert (Hin : nth_error cands i = Some h).
      { assert (K : In (c, (i, h)) (combine comps (combine (seq 0 (length cands)) cands))).
        { clear -Hx. unfold D0, select_candidates in Hx.
          set (l := combine comps _) in *.
          assert (GG : forall l D x, In x (fold_left
      (fun component_edges (x : nat * (nat * @cand W)) =>
         let '(c, (i, h)) := x in
         match dict_get component_edges c with
         | Ok old => if wlt (fst h) (fst (snd old)) then dict_set component_edges c (i, h) else component_edges
         | Err _ => dict_set component_edges c (i, h)
         end) l D) -> In x l \/ In x D).
          { clear. induction l as [|[c [i h]] l IH]; intros D x H; cbn [fold_left] in H; [auto|].
            apply IH in H. destruct H as [H|H]; [left; now right|].
            destruct x as [c' v'].
            destruct (dict_get D c) as [old|er].
            - destruct (wlt (fst h) (fst (snd old))); [|auto].
              apply dict_set_in in H. destruct H as [[-> ->]|H]; [left; now left|auto].
            - apply dict_set_in in H. destruct H as [[-> ->]|H]; [left; now left|auto]. }
          apply GG in Hx. destruct Hx as [Hx|[]]. exact Hx. }
        apply (in_combine3 comps cands n) in K; tauto. }
      destruct (HR i h Hin) as [->|(q' & Q1 & Q2 & ->)].
      - cbn in Ffin. unfold wfinite in Ffin. rewrite wlt_irrefl in Ffin. discriminate.
      - exists i, q'. cbn [fst snd]. auto. }
    assert (Good' : forall e, In e (map snd (as_edges D0)) ->
              esrc e < n /\ edst e < n /\ ewt e = mrd (esrc e) (edst e) /\ comp (edst e) <> comp (esrc e)).
    { intros e He. unfold as_edges in He. rewrite map_map in He. apply in_map_iff in He.
      destruct He as (x & <- & Hx). destruct (Good x Hx) as (i & q & E & A & B & _ & Cc). cbn [snd].
      rewrite E. unfold edge_of, esrc, edst, ewt. cbn [fst snd]. auto. }
    unfold merge_candidates. fold D0. rewrite candidate_edges_ok.
    2:{ intros x Hx. destruct (Good x Hx) as (i & q & E & _). rewrite E. discriminate. }
    cbn [bind].
    destruct (merge_edges_ok n (map snd (as_edges D0)) d F (ri_tracks _ _ _ _ _ R)
                (ph_acyclic _ _ (ri_phase _ _ _ _ _ R))) as (d' & new & E1 & T1 & I1 & A1 & C1).
    { intros e He. destruct (Good' e He) as (A & B & _). auto. }
    exists d', new. split; [exact E1|]. split; [exact T1|].
    assert (CC : forall c e, In (c, e) C -> c = comp (esrc e)).
    { intros c e H. apply InC in H. destruct H as (i & h & _ & -> & ->). reflexivity. }
    split.
    - eapply (merge_edges_phase G G_sym n (map snd (as_edges D0)) d F); eauto.
      + apply R.
      + intros e He. destruct (Good' e He) as (A & B & _). auto.
      + apply R.
      + (* only the chosen edges need to be edges of the graph *)
        split.
        * intros e He. destruct (Good' e He) as (A & B & E & _). split; [auto|]. split; [auto|].
          rewrite E. apply equiv_refl.
        * intros e He c x w Hc Hn (Gc & Gx & Gw).
          destruct (Good' e He) as (A & B & E & _).
          assert (Ecomp : comp (esrc e) = comp c) by (apply HC; auto).
          assert (Nx : comp x <> comp c).
          { intro K. apply Hn. apply HC; auto. }
          destruct (HF c x Gc Gx Nx (Fin c x Gc Gx)) as (j & hj & J1 & J2 & J3).
          apply in_map_iff in He. destruct He as ([c1 e'] & E' & He). cbn in E'. subst e'.
          assert (E1' := CC _ _ (bo_from _ _ HD _ _ He)).
          destruct (bo_least _ _ HD c1 (edge_of (j, hj))) as (f & F1 & F2).
          { apply InC. exists j, hj. split; [auto|]. split; [|auto].
            rewrite E1', Ecomp. symmetry. exact J2. }
          assert (f = e) as -> by (eapply keys_unique; eauto; apply HD).
          eapply wle_trans; [exact F2|]. change (ewt (edge_of (j, hj))) with (fst hj).
          eapply wle_trans; [exact J3|]. apply Gw.
        * assert (K := bo_keys _ _ HD).
          assert (Cd : forall c e, In (c, e) (as_edges D0) -> c = comp (esrc e) /\ esrc e < n).
          { intros c e He. split; [apply CC; now apply (bo_from _ _ HD)|].
            apply Good'. apply in_map_iff. exists (c, e). auto. }
          clear -K Cd HC. induction (as_edges D0) as [|[c e] l IH]; cbn [map]; constructor.
          -- inversion_clear K as [|? ? Kx Kn]. rewrite Forall_forall. intros f Hf Hcon.
             apply in_map_iff in Hf. destruct Hf as ([c' f'] & E & Hf). cbn in E. subst f'.
             destruct (Cd c e (or_introl eq_refl)) as [E1 L1].
             destruct (Cd c' f (or_intror Hf)) as [E2 L2].
             apply Kx. apply in_map_iff. exists (c', f). split; [|auto]. cbn.
             rewrite E2, E1. symmetry. apply HC; auto.
          -- inversion_clear K as [|? ? Kx Kn]. apply IH; auto. intros c' f Hf. apply Cd. now right.
    - destruct new as [|e0 new]; [exfalso|cbn; lia].
      rewrite app_nil_r in C1.
      assert (Hn : 0 < n) by lia.
      destruct (nth_error cands 0) as [h0|] eqn:E0.
      2:{ apply nth_error_None in E0. lia. }
      destruct (bo_least _ _ HD (comp 0) (edge_of (0, h0))) as (f & F1 & _).
      { apply InC. exists 0, h0. auto. }
      assert (Hf : In f (map snd (as_edges D0))) by (apply in_map_iff; exists (comp 0, f); auto).
      destruct (Good' f Hf) as (A & B & _ & N). apply N. symmetry. apply HC; auto.
  Qed.

  Lemma rounds_ok mode : match mode with Plain _ => True | Reproducible nt _ => 0 < nt end ->
    forall fuel round d nc comps k F,
    rinv d nc comps k F -> k <= fuel ->
    exists M, rounds t n rd lb fuel mode round core d nc comps k F = Ok M /\
      phase_inv G M /\ (forall x y, x < n -> y < n -> connected M x y).
  Proof.
    intros Hm. induction fuel as [|fuel IH]; intros round d nc comps k F R Hk; cbn [rounds].
    all: assert (Stop : k <= 1 -> exists M, Ok F = Ok M /\ phase_inv G M /\ (forall x y, x < n -> y < n -> connected M x y)).
    1,3: intros H; exists F; split; [auto|]; split; [apply R|]; intros x y Hx Hy;
      apply (labels_one n comps _ (ri_labels _ _ _ _ _ R)); auto;
      rewrite distinct_unique, <- nodup_unique, <- (ri_count _ _ _ _ _ R);
      assert (P := distinct_pos n comps _ ltac:(lia) (ri_labels _ _ _ _ _ R));
      rewrite distinct_unique, <- nodup_unique, <- (ri_count _ _ _ _ _ R) in P; lia.
    - destruct (Nat.ltb_spec 1 k); [lia|]. now apply Stop.
    - destruct (Nat.ltb_spec 1 k) as [Hlt|Hge]; [|now apply Stop].
      destruct (round_query_ok t n rd lb core (fun i => nth i comps 0) nc TS LB (ri_marked _ _ _ _ _ R) mode round k Hm)
        as (cands & E1 & LF).
      rewrite E1. cbn [bind].
      destruct (merge_round d nc comps k F cands R Hlt LF) as (d1 & new & E2 & T2 & P2 & N2).
      rewrite E2. cbn [bind].
      destruct (refresh d1 nc comps F (F ++ new)) as (d2 & nc2 & comps2 & E3 & R3); auto.
      { apply R. } { apply R. }
      { intros x y. apply connected_incl. intros e He. apply in_or_app. now left. }
      rewrite E3. cbn [bind].
      assert (K1 := rinv_count _ _ _ _ _ R). assert (K3 := rinv_count _ _ _ _ _ R3).
      rewrite app_length in K3.
      replace (k - length new) with (length (nodup Nat.eq_dec comps2)) by lia.
      apply IH; [exact R3|lia].
  Qed.

  (** The result is a minimum spanning tree of the complete graph. *)
  Lemma phase_minimal (M : list (edge W)) : 0 < n -> phase_inv G M -> (forall x y, x < n -> y < n -> connected M x y) ->
    spanning_tree n M /\
    min_spanning_forest (complete_graph n mrd) (map (at_weight mrd) M) /\
    (forall e, In e M -> equiv (ewt e) (mrd (esrc e) (edst e))).
  Proof.
    intros Hn P HC.
    assert (Eq : forall e, In e M -> equiv (ewt e) (mrd (esrc e) (edst e))).
    { intros e He. apply (ph_edges _ _ P e He). }
    assert (Rg := phase_range M P). assert (Ac := ph_acyclic _ _ P).
    assert (InG : forall a b w, In (a, b, w) (complete_graph n mrd) <-> a < n /\ b < n /\ a <> b /\ w = mrd a b).
    { intros a b w. unfold complete_graph. rewrite in_flat_map. split.
      - intros (i & Hi & H). apply in_map_iff in H. destruct H as (j & E & Hj).
        apply filter_In in Hj. destruct Hj as [Hj Nj]. apply in_seq in Hi, Hj.
        apply negb_true_iff, Nat.eqb_neq in Nj. injection E as -> -> <-. repeat split; auto; lia.
      - intros (A & B & N & ->). exists a. split; [apply in_seq; lia|]. apply in_map_iff. exists b.
        split; [auto|]. apply filter_In. split; [apply in_seq; lia|].
        apply negb_true_iff, Nat.eqb_neq. auto. }
    assert (Cp : forall p : W -> bool, (forall x y, wle x y = true -> p y = true -> p x = true) ->
       forall x y, connected (passing p M) x y -> connected (passing p (map (at_weight mrd) M)) x y).
    { intros p Hp x y. apply connected_mono. intros e He. apply in_passing in He. destruct He as [He Hw].
      apply (connected_edge _ (at_weight mrd e)). apply in_passing. split; [now apply in_map|].
      unfold at_weight, ewt. cbn [snd]. eapply Hp; [apply (Eq e He)|exact Hw]. }
    split; [|split; [|exact Eq]].
    - split; auto.
      assert (L := labels_count n M (repeat 0 n) Ac Rg).
      assert (LC : labels_classes n (repeat 0 n) (connected M)).
      { split; [apply repeat_length|]. intros x y Hx Hy. rewrite !nth_repeat. split; auto. }
      specialize (L LC). rewrite <- nodup_unique in L.
      assert (length (nodup Nat.eq_dec (repeat 0 n)) = 1).
      { clear -Hn. destruct n as [|m]; [lia|]. clear Hn. induction m as [|m IH]; [reflexivity|].
        cbn [repeat nodup] in *. destruct (in_dec Nat.eq_dec 0 (0 :: repeat 0 m)) as [_|N]; [exact IH|].
        exfalso. apply N. now left. }
      lia.
    - split.
      + intros e He. apply in_map_iff in He. destruct He as (f & <- & Hf). unfold at_weight.
        apply InG. destruct (Rg f Hf) as [A B]. repeat split; auto.
        eapply acyclic_no_loop; eauto.
      + apply acyclic_strip. apply acyclic_strip in Ac. unfold strip in *. rewrite map_map. exact Ac.
      + apply levels_of_bottleneck.
        * intros e He. apply in_map_iff in He. destruct He as (f & <- & Hf). unfold at_weight.
          apply InG. destruct (Rg f Hf) as [A B]. repeat split; auto.
          eapply acyclic_no_loop; eauto.
        * intros [[a b] w] He. apply InG in He. destruct He as (A & B & N & ->).
          apply Cp.
          { intros x y Hxy Hy. eapply wle_trans; eauto. }
          apply (ph_inside _ _ P a b (mrd a b)); [|auto]. split; [auto|]. split; [auto|]. apply equiv_refl.
  Qed.
End Tree.
