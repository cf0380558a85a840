(** The condensed tree: the main loop keeps the invariant of P_Condense. *)
From Coq Require Import List Arith Lia Bool Permutation Sorted ZArith.
From Verif Require Import Prelude Order Graph UF Size M_Linkage S_Linkage P_Dendro M_Condense S_Condense P_Bfs P_Condense.
Import ListNotations.

Section Run.
  Context {W V : WOrd} {Sz : SOrd}.
  Variables (n : nat) (L : list (lrow W Sz)) (wt : nat -> Sz).
  Variables (mcs : Sz) (mx : option Sz) (lam : W -> V).
  Hypothesis HG : dendrogram n L.
  Hypothesis HS : sizes_are n wt L.
  Hypothesis HH : heights_sorted L.
  Hypothesis Hlam : forall x y, wle x y = true -> wle (lam y) (lam x) = true.
  Hypothesis Hsamples : forall x, x < n -> sle mcs (wt x) = false.
  Hypothesis Hn2 : 2 <= n.

  Notation lf := (lv n L).
  Notation nd := (nodes n L).
  Notation weight := (weight_of n L wt).
  Notation big := (large n L wt mcs).
  Notation little := (small n L wt mcs).
  Notation split := (true_split n L wt mcs mx).
  Notation JJ := (J n L wt mcs mx lam).
  Implicit Types st : cstate V Sz.

  Lemma len_n : length L + 1 = n.
  Proof. destruct HG. lia. Qed.
  Lemma len_root : 2 * length L = 2 * n - 2.
  Proof. destruct HG. lia. Qed.
  Lemma Hdown : down n L.
  Proof. exact (dg_down _ _ HG). Qed.

  Lemma emit_ok st r : length (k_rows st) < 2 * n - 2 ->
    emit L st r = Ok {| k_relabel := k_relabel st; k_ignore := k_ignore st;
                        k_rows := k_rows st ++ [r]; k_next := k_next st |}.
  Proof. intro H. unfold emit. rewrite len_root. now rewrite (proj2 (Nat.leb_gt _ _) H). Qed.

  Definition ignored (ign ign' : nat -> bool) (vs : list nat) : Prop :=
    forall w, ign' w = true <-> ign w = true \/ (n <= w /\ In w vs).

  Lemma eliminate_loop_ok vs p l : forall st,
    length (k_rows st) + length (filter (fun w => w <? n) vs) <= 2 * n - 2 ->
    exists ign, eliminate_loop L vs p l st =
      Ok {| k_relabel := k_relabel st; k_ignore := ign;
            k_rows := k_rows st ++ prows p l (filter (fun w => w <? n) vs); k_next := k_next st |} /\
      ignored (k_ignore st) ign vs.
  Proof.
    induction vs as [|v vs IH]; intros st Hc.
    - exists (k_ignore st). simpl. rewrite app_nil_r. split; [now destruct st|].
      intro w. simpl. tauto.
    - cbn [eliminate_loop filter] in *. rewrite len_n. destruct (Nat.ltb_spec v n) as [Hv|Hv].
      + simpl in Hc. rewrite emit_ok by lia. cbn [bind].
        edestruct IH as (ign & E & Hi); [|rewrite E].
        { cbn [k_rows]. rewrite app_length. simpl. lia. }
        exists ign. cbn [k_relabel k_ignore k_rows k_next]. split.
        * rewrite <- app_assoc. reflexivity.
        * intro w. rewrite (Hi w). cbn [k_ignore In]. split; [tauto|]. intros [?|[? [->|?]]]; auto. lia.
      + cbn [bind]. edestruct IH as (ign & E & Hi); [|rewrite E].
        { cbn [set_ignore k_rows]. lia. }
        exists ign. cbn [set_ignore k_relabel k_ignore k_rows k_next]. split; auto.
        intro w. rewrite (Hi w). cbn [set_ignore k_ignore In].
        destruct (upd_case (k_ignore st) v w true) as [[-> E1]|[Hne E1]]; rewrite E1.
        * intuition.
        * intuition.
  Qed.

  Lemma eliminate_ok v p l st : v < n + length L -> length (k_rows st) + length (lf v) <= 2 * n - 2 ->
    exists xs ign, eliminate_branch L v p l st =
      Ok {| k_relabel := k_relabel st; k_ignore := ign;
            k_rows := k_rows st ++ prows p l xs; k_next := k_next st |} /\
      ignored (k_ignore st) ign (nd v) /\ Permutation xs (lf v).
  Proof.
    intros Hv Hc. unfold eliminate_branch. rewrite len_n. destruct (Nat.ltb_spec v n) as [H|H].
    - rewrite lv_sample in Hc by auto. simpl in Hc. rewrite emit_ok by lia.
      exists [v], (k_ignore st). split; [reflexivity|]. split.
      + intro w. rewrite nodes_sample by auto. simpl. split; [auto|]. intros [?|[? [<-|[]]]]; auto. lia.
      + now rewrite lv_sample.
    - destruct (bfs_ok n L v Hdown Hv) as (R & -> & HP & _). cbn [bind].
      assert (HPf : Permutation (filter (fun w => w <? n) R) (lf v)).
      { rewrite (lv_nodes n L v Hdown). now apply filter_perm. }
      destruct (eliminate_loop_ok R p l st) as (ign & -> & Hi).
      { now rewrite (Permutation_length HPf). }
      exists (filter (fun w => w <? n) R), ign. split; auto. split; auto.
      intro w. rewrite (Hi w). split; (intros [?|[? Hw]]; auto; right; split; auto);
        [apply (Permutation_in _ HP)|apply (Permutation_in _ (Permutation_sym HP))]; auto.
  Qed.

  Lemma node_count_ok v : v < n + length L -> exists s, node_count L wt v = Ok s /\ weight v s.
  Proof.
    intro H. unfold node_count. rewrite len_n. destruct (Nat.leb_spec n v) as [Hv|Hv].
    - destruct (nth_error L (v - n)) as [r|] eqn:E; [|apply nth_error_None in E; lia].
      exists (l_n r). split; auto. right. exists (v - n), r. split; [lia|auto].
    - exists (wt v). split; auto. left. auto.
  Qed.

  Definition Inv (rest : list nat) st : Prop :=
    exists s top F, JJ (k_rows st) s top F /\ k_next st = n + 1 + 2 * s /\
    (forall f, In f F -> n <= fnode f /\ In (fnode f) rest /\ k_relabel st (fnode f) = fown f /\
       forall w, In w (nd (fnode f)) -> k_ignore st w = false) /\
    (forall v, In v rest -> n <= v -> k_ignore st v = false -> exists f, In f F /\ In v (nd (fnode f))).

  Lemma front_disjoint T s top f F g w : JJ T s top (f :: F) -> In g F ->
    In w (nd (fnode f)) -> In w (nd (fnode g)) -> False.
  Proof.
    intros HJ Hg H1 H2. apply (nodes_disjoint n L (fnode f) (fnode g) w Hdown); auto.
    - apply (J_range _ _ _ _ _ _ _ _ _ _ HJ). simpl; auto.
    - apply (J_range _ _ _ _ _ _ _ _ _ _ HJ). simpl; auto.
    - pose proof (J_perm _ _ _ _ _ _ _ _ _ _ HJ) as HP.
      assert (HN : NoDup (flat_map (fun f => lf (fnode f)) (f :: F))).
      { assert (H : NoDup (seq 0 n)) by apply seq_NoDup. rewrite <- HP in H.
        apply NoDup_app_iff in H. tauto. }
      apply in_split in Hg as (F1 & F2 & ->). cbn [flat_map] in HN.
      rewrite flat_map_app in HN. cbn [flat_map] in HN.
      assert (HP' : Permutation (lf (fnode f) ++ flat_map (fun f => lf (fnode f)) F1 ++ lf (fnode g) ++ flat_map (fun f => lf (fnode f)) F2)
        ((lf (fnode f) ++ lf (fnode g)) ++ flat_map (fun f => lf (fnode f)) F1 ++ flat_map (fun f => lf (fnode f)) F2)).
      { rewrite <- app_assoc. apply Permutation_app_head. apply Permutation_app_swap_app. }
      rewrite HP' in HN. apply NoDup_app_iff in HN. tauto.
  Qed.

  Lemma child_nodes i r v : nth_error L i = Some r -> v = l_a r \/ v = l_b r ->
    forall w, In w (nd v) -> In w (nd (n + i)) /\ w <> n + i.
  Proof.
    intros Hi Hv w Hw. rewrite (nodes_node _ _ _ _ Hdown Hi). split.
    - right. apply in_or_app. destruct Hv as [->| ->]; auto.
    - pose proof (Hdown _ _ Hi). apply nodes_le in Hw; [|exact Hdown]. destruct Hv as [->| ->]; lia.
  Qed.

  (** What the loop body has to do at an internal node. *)
  Lemma Inv_step v rest st st' s top c l0 F i r D G s' top' :
    NoDup (v :: rest) -> v = n + i -> nth_error L i = Some r ->
    In (l_a r) rest -> In (l_b r) rest ->
    JJ (k_rows st) s top ((v, c, l0) :: F) ->
    (forall f, In f ((v, c, l0) :: F) -> n <= fnode f /\ In (fnode f) (v :: rest) /\ k_relabel st (fnode f) = fown f /\
       forall w, In w (nd (fnode f)) -> k_ignore st w = false) ->
    (forall u, In u (v :: rest) -> n <= u -> k_ignore st u = false -> exists f, In f ((v, c, l0) :: F) /\ In u (nd (fnode f))) ->
    Permutation (D ++ map fnode G) [l_a r; l_b r] ->
    (forall g, In g G -> big (fnode g)) ->
    JJ (k_rows st') s' top' (G ++ F) -> k_next st' = n + 1 + 2 * s' ->
    ignored (k_ignore st) (k_ignore st') (flat_map nd D) ->
    (forall g, In g G -> k_relabel st' (fnode g) = fown g) ->
    (forall w, w <> l_a r -> w <> l_b r -> k_relabel st' w = k_relabel st w) ->
    Inv rest st'.
  Proof.
    intros HN Ev Hi Har Hbr HJ HF HC HP HB HJ' Hnext Hign Hrl Hrl'.
    inversion_clear HN as [|? ? HNv HNr].
    assert (Hch : forall u, In u (D ++ map fnode G) -> u = l_a r \/ u = l_b r).
    { intros u Hu. apply (Permutation_in _ HP) in Hu. simpl in Hu. intuition. }
    assert (Hil : i < length L) by (apply nth_error_Some; congruence).
    pose proof (Hdown _ _ Hi) as [Hab Hbb].
    assert (HvF : (v, c, l0) = (n + i, c, l0)) by (now rewrite Ev).
    assert (Hdis : forall f w, In f F -> In w (nd v) -> In w (nd (fnode f)) -> False).
    { intros f w Hf. apply (front_disjoint _ _ _ _ _ _ _ HJ Hf). }
    assert (Hkk : forall u u' w, Permutation [u; u'] [l_a r; l_b r] -> In w (nd u) -> In w (nd u') -> False).
    { assert (Hd : forall w, In w (nd (l_a r)) -> In w (nd (l_b r)) -> False).
      { intro w. apply (nodes_disjoint n L _ _ w Hdown); try lia.
        rewrite <- (lv_node _ _ _ _ Hdown Hi). apply (lf_NoDup n L HG). lia. }
      intros u u' w HP' H1 H2. apply Permutation_length_2_inv in HP'.
      destruct HP' as [E|E]; injection E; intros; subst u u'; eauto. }
    exists s', top', (G ++ F). split; auto. split; auto. split.
    - intros f Hf. apply in_app_iff in Hf as [Hf|Hf].
      + assert (Hfc : fnode f = l_a r \/ fnode f = l_b r).
        { apply Hch, in_or_app. right. now apply in_map. }
        split. { apply (big_node n L wt mcs Hsamples); [destruct Hfc; lia|auto]. }
        split. { destruct Hfc as [->| ->]; auto. }
        split; [auto|]. intros w Hw.
        destruct (k_ignore st' w) eqn:E; auto. apply Hign in E as [E|[_ E]].
        * destruct (child_nodes i r (fnode f) Hi Hfc w Hw) as [Hw' _].
          destruct (HF _ (or_introl eq_refl)) as (_ & _ & _ & H). rewrite H in E; auto.
          unfold fnode. cbn [fst]. now rewrite Ev.
        * exfalso. apply in_flat_map in E as (d & Hd & E).
          apply (Hkk d (fnode f) w); auto.
          apply in_split in Hd as (D1 & D2 & ->).
          apply in_split in Hf as (G1 & G2 & ->).
          pose proof (Permutation_length HP) as Hlen. rewrite map_app in Hlen. repeat (rewrite app_length in Hlen; simpl in Hlen).
          destruct D1, D2, G1, G2; simpl in Hlen; try lia. exact HP.
      + destruct (HF f (or_intror Hf)) as (H1 & H2 & H3 & H4).
        assert (Hnv : ~ In (fnode f) (nd v)).
        { intro H. apply (Hdis f (fnode f)); auto. apply nodes_self. }
        assert (Hna : fnode f <> l_a r /\ fnode f <> l_b r).
        { split; intro E; apply Hnv; rewrite Ev, E;
            [apply (child_nodes i r (l_a r) Hi)|apply (child_nodes i r (l_b r) Hi)]; auto; apply nodes_self. }
        split; auto. split.
        { destruct H2 as [E|H2]; auto. exfalso. apply Hnv. rewrite <- E. apply nodes_self. }
        split. { rewrite Hrl'; tauto. }
        intros w Hw. destruct (k_ignore st' w) eqn:E; auto. apply Hign in E as [E|[_ E]].
        * now rewrite H4 in E.
        * exfalso. apply in_flat_map in E as (d & Hd & E). apply (Hdis f w); auto. rewrite Ev.
          apply (child_nodes i r d Hi); auto. apply Hch, in_or_app; auto.
    - intros u Hu Hn Hign'. assert (Hig : k_ignore st u = false).
      { destruct (k_ignore st u) eqn:E; auto. rewrite <- Hign'. symmetry. apply Hign. auto. }
      destruct (HC u (or_intror Hu) Hn Hig) as (f & [<-|Hf] & Huf).
      + unfold fnode in Huf. cbn [fst] in Huf. rewrite Ev in Huf.
        rewrite (nodes_node _ _ _ _ Hdown Hi) in Huf.
        destruct Huf as [E|Huf]; [exfalso; apply HNv; rewrite Ev, E; auto|].
        assert (exists k, In k (D ++ map fnode G) /\ In u (nd k)) as (k & Hk & Huk).
        { apply in_app_iff in Huf as [Huf|Huf].
          - exists (l_a r). split; auto. apply (Permutation_in _ (Permutation_sym HP)). simpl; auto.
          - exists (l_b r). split; auto. apply (Permutation_in _ (Permutation_sym HP)). simpl; auto. }
        apply in_app_iff in Hk as [Hk|Hk].
        * exfalso. assert (k_ignore st' u = true); [|congruence]. apply Hign. right. split; auto.
          apply in_flat_map. eauto.
        * apply in_map_iff in Hk as (g & <- & Hg). exists g. split; auto. apply in_or_app; auto.
      + exists f. split; auto. apply in_or_app; auto.
  Qed.

  Lemma above_max_true v s : weight v s -> above_max mx s = true -> too_large n L wt mx v.
  Proof.
    intros Hw H. unfold above_max in H. destruct mx as [m|] eqn:E; [|discriminate].
    exists s, m. split; auto. split; auto. now apply slt_true.
  Qed.
  Lemma above_max_false v s : weight v s -> above_max mx s = false -> ~ too_large n L wt mx v.
  Proof.
    intros Hw H (t & m & Ht & E & Hm). rewrite (weight_inj n L wt v t s) in Hm; auto.
    unfold above_max in H. rewrite E in H. apply slt_false in H. congruence.
  Qed.

  Lemma ign_none ign : ignored ign ign (flat_map nd []).
  Proof. intro w. simpl. tauto. Qed.
  Lemma ign_one ign ign' v : ignored ign ign' (nd v) -> ignored ign ign' (flat_map nd [v]).
  Proof. intros H w. cbn [flat_map]. rewrite app_nil_r. apply H. Qed.

  Lemma condense_node_ok R1 v rest st : topological n L (R1 ++ v :: rest) -> NoDup (R1 ++ v :: rest) ->
    (forall u, In u (v :: rest) -> u < n + length L) ->
    Inv (v :: rest) st -> exists st', condense_node L lam mcs mx wt v st = Ok st' /\ Inv rest st'.
  Proof.
    intros HT HN Hb (s & top & F & HJ & Hnext & HF & HC).
    assert (HNr : NoDup (v :: rest)) by (apply NoDup_app_iff in HN; tauto).
    unfold condense_node. rewrite len_n.
    destruct (k_ignore st v || (v <? n)) eqn:Eskip.
    { exists st. split; auto. exists s, top, F. split; auto. split; auto. split.
      - intros f Hf. destruct (HF f Hf) as (H1 & H2 & H3 & H4). split; auto. split; auto.
        destruct H2 as [E|H2]; auto. exfalso. apply orb_true_iff in Eskip as [E'|E'].
        + rewrite E, H4 in E'; [discriminate|apply nodes_self].
        + apply Nat.ltb_lt in E'. lia.
      - intros u Hu. apply HC. simpl; auto. }
    apply orb_false_iff in Eskip as [Eig Ev]. apply Nat.ltb_ge in Ev.
    destruct (nth_error L (v - n)) as [r|] eqn:Er.
    2:{ apply nth_error_None in Er. specialize (Hb v (or_introl eq_refl)). lia. }
    (* v is on the frontier *)
    assert (exists f, In f F /\ fnode f = v) as (f & Hf & Efv).
    { destruct (HC v (or_introl eq_refl) Ev Eig) as (f & Hf & Hvf). exists f. split; auto.
      destruct (HF f Hf) as (_ & H2 & _). destruct H2 as [E|H2]; auto. exfalso.
      pose proof H2 as H2'. apply in_split in H2 as (S1 & S2 & E).
      destruct (topological_nodes n L _ Hdown HT (fnode f) (R1 ++ v :: S1) S2 v) as [H|H].
      - rewrite E, <- app_assoc. reflexivity.
      - auto.
      - inversion_clear HNr as [|? ? Hx _]. apply Hx. now rewrite H at 1.
      - inversion_clear HNr as [|? ? Hx _]. apply Hx. rewrite E. apply in_or_app. right. right. auto. }
    apply in_split in Hf as (F1 & F2 & EF).
    destruct f as [[v' c] l0]. unfold fnode in Efv. cbn [fst] in Efv. subst v'.
    assert (HPF : Permutation F ((v, c, l0) :: F1 ++ F2)).
    { rewrite EF. symmetry. apply Permutation_middle. }
    clear EF. set (F' := F1 ++ F2) in *. clearbody F'. clear F1 F2.
    apply (J_perm_F _ _ _ _ _ _ _ _ _ _ _ HPF) in HJ.
    assert (HF' : forall f, In f ((v, c, l0) :: F') -> n <= fnode f /\ In (fnode f) (v :: rest) /\ k_relabel st (fnode f) = fown f /\
       forall w, In w (nd (fnode f)) -> k_ignore st w = false).
    { intros f Hf. apply HF. apply (Permutation_in _ (Permutation_sym HPF)). auto. }
    assert (HC' : forall u, In u (v :: rest) -> n <= u -> k_ignore st u = false -> exists f, In f ((v, c, l0) :: F') /\ In u (nd (fnode f))).
    { intros u H1 H2 H3. destruct (HC u H1 H2 H3) as (f & Hf & Hu). exists f. split; auto.
      apply (Permutation_in _ HPF). auto. }
    clear HF HC F HPF.
    destruct (HF' _ (or_introl eq_refl)) as (_ & _ & Erl & _). unfold fnode, fown in Erl. cbn [fst snd] in Erl.
    rewrite Erl.
    assert (Evi : v = n + (v - n)) by lia. set (i := v - n) in *. clearbody i.
    destruct (HT R1 v rest r eq_refl Ev) as [Har Hbr].
    { now replace (v - n) with i by lia. }
    assert (Hil : i < length L) by (apply nth_error_Some; congruence).
    pose proof (Hdown _ _ Er) as [Hab Hbb].
    assert (Hla : l_a r < n + length L) by lia. assert (Hlb : l_b r < n + length L) by lia.
    destruct (node_count_ok (l_a r) Hla) as (ca & -> & Hwa).
    destruct (node_count_ok (l_b r) Hlb) as (cb & -> & Hwb). cbn [bind].
    assert (Hne : l_a r <> l_b r).
    { intro E. pose proof (lf_NoDup n L HG (n + i) ltac:(lia)) as H. rewrite (lv_node _ _ _ _ Hdown Er), E in H.
      apply NoDup_app_iff in H as (_ & _ & H). pose proof (lv_nonempty n L (l_b r) Hdown Hlb).
      destruct (lf (l_b r)) as [|x l]; [congruence|]. apply (H x); simpl; auto. }
    (* room for the rows *)
    assert (Hcap : length (k_rows st) + length (lf (l_a r)) + length (lf (l_b r)) <= 2 * n - 2).
    { pose proof (J_cap _ _ _ _ _ _ _ _ _ _ HJ) as H. unfold cap in H. cbn [map list_sum fold_right] in H.
      unfold fnode at 1 in H. cbn [fst] in H. rewrite Evi, (lv_node _ _ _ _ Hdown Er), app_length in H.
      pose proof (lf_len n L HG (l_a r) Hla). pose proof (lf_len n L HG (l_b r) Hlb). lia. }
    assert (Hlfn : 1 <= length (lf (l_a r)) /\ 1 <= length (lf (l_b r))).
    { split; apply (lf_len n L HG); auto. }
    rewrite Evi in HJ.
    assert (bigA : sle mcs ca = true -> big (l_a r)) by (intro; exists ca; auto).
    assert (bigB : sle mcs cb = true -> big (l_b r)) by (intro; exists cb; auto).
    assert (litA : sle mcs ca = false -> little (l_a r)) by (intro; exists ca; auto).
    assert (litB : sle mcs cb = false -> little (l_b r)) by (intro; exists cb; auto).
    assert (nsA : sle mcs ca = false -> ~ split r).
    { intros E ((t & Ht & Hm) & _). rewrite (weight_inj n L wt _ _ _ Ht Hwa) in Hm. congruence. }
    assert (nsB : sle mcs cb = false -> ~ split r).
    { intros E (_ & (t & Ht & Hm) & _). rewrite (weight_inj n L wt _ _ _ Ht Hwb) in Hm. congruence. }
    set (l := lam (l_d r)) in *.
    (* one side dropped, the other kept *)
    assert (Hone : forall d k, Permutation [d; k] [l_a r; l_b r] -> little d -> big k -> ~ split r ->
      d < n + length L -> length (k_rows st) + length (lf d) <= 2 * n - 2 ->
      exists st', eliminate_branch L d c l (set_relabel st k c) = Ok st' /\ Inv rest st').
    { intros d k HPdk Hd Hk Hns Hdl Hcd.
      destruct (eliminate_ok d c l (set_relabel st k c) Hdl Hcd) as (xs & ign & E & Hig & HPx).
      cbn [set_relabel k_relabel k_ignore k_rows k_next] in E, Hig.
      eexists. split; [exact E|].
      assert (Hkn : k = l_a r \/ k = l_b r).
      { assert (H : In k [l_a r; l_b r]) by (apply (Permutation_in _ HPdk); simpl; auto). simpl in H. intuition. }
      apply (Inv_step v rest st _ s top c l0 F' i r [d] [(k, c, l)] s top); auto.
      - now rewrite Evi.
      - intros g [<-|[]]. auto.
      - cbn [k_rows]. apply (J_move n L wt mcs mx lam HG HH Hlam _ _ _ _ _ _ _ _ [d] [k] xs HJ); auto.
        + intros d' [<-|[]]; auto.
        + intros k' [<-|[]]; auto.
        + simpl. rewrite app_nil_r. auto.
      - cbn [k_ignore]. now apply ign_one.
      - intros g [<-|[]]. cbn [k_relabel]. apply upd_eq.
      - intros w Hw1 Hw2. cbn [k_relabel]. apply upd_neq. destruct Hkn; congruence. }
    unfold slt. destruct (sle mcs ca) eqn:Eca; destruct (sle mcs cb) eqn:Ecb; cbn [negb andb]; rewrite ?andb_true_r, ?andb_false_r.
    - (* both large *)
      rewrite (proj2 (Nat.ltb_ge (l_a r) n)) by (apply (big_node n L wt mcs Hsamples); auto).
      destruct (above_max mx ca && above_max mx cb) eqn:Emax.
      + apply andb_true_iff in Emax as [Ea Eb].
        eexists. split; [reflexivity|].
        apply (Inv_step v rest st _ s top c l0 F' i r [] [(l_a r, c, l); (l_b r, c, l)] s top); auto.
        * now rewrite Evi.
        * intros g [<-|[<-|[]]]; auto.
        * cbn [k_rows set_relabel].
          pose proof (J_move n L wt mcs mx lam HG HH Hlam _ _ _ _ _ _ _ _ [] [l_a r; l_b r] [] HJ Er) as H.
          unfold prows in H. cbn [map app] in H. rewrite app_nil_r in H. apply H; auto.
          -- intros d [].
          -- intros k [<-|[<-|[]]]; auto.
          -- intros _ (_ & _ & Hno). apply Hno. split; eapply above_max_true; eauto.
        * apply ign_none.
        * intros g [<-|[<-|[]]]; cbn [set_relabel k_relabel]; unfold fnode, fown; cbn [fst snd].
          -- rewrite upd_neq by auto. apply upd_eq.
          -- apply upd_eq.
        * intros w Hw1 Hw2. cbn [set_relabel k_relabel]. now rewrite !upd_neq by auto.
      + assert (Hsp : split r).
        { split; auto. split; auto. intros [H1 H2]. apply andb_false_iff in Emax as [E|E].
          - exact (above_max_false _ _ Hwa E H1).
          - exact (above_max_false _ _ Hwb E H2). }
        unfold new_cluster. rewrite emit_ok by (cbn [set_relabel k_rows]; lia). cbn [bind].
        rewrite emit_ok.
        2:{ cbn [set_relabel incr_next k_rows]. rewrite app_length. simpl. lia. }
        cbn [bind set_relabel incr_next k_rows k_relabel k_ignore k_next].
        eexists. split; [reflexivity|].
        pose proof (J_split n L wt mcs mx lam HG HH Hlam _ _ _ _ _ _ _ _ ca cb HJ Er Hsp Hwa Hwb) as HJ'.
        apply (Inv_step v rest st _ s top c l0 F' i r []
                 [(l_a r, n + 1 + 2 * s, l); (l_b r, n + 1 + 2 * s + 1, l)] (S s)
                 (upd (upd top (n + 1 + 2 * s) (l_a r)) (n + 1 + 2 * s + 1) (l_b r))); auto.
        * now rewrite Evi.
        * intros g [<-|[<-|[]]]; auto.
        * cbn [k_rows]. rewrite <- app_assoc. rewrite Hnext. exact HJ'.
        * cbn [k_next incr_next]. rewrite Hnext. lia.
        * apply ign_none.
        * intros g [<-|[<-|[]]]; cbn [k_relabel incr_next]; unfold fnode, fown; cbn [fst snd].
          -- rewrite upd_neq by auto. rewrite upd_eq. auto.
          -- rewrite upd_eq. lia.
        * intros w Hw1 Hw2. cbn [k_relabel incr_next]. now rewrite !upd_neq by auto.
    - (* a large, b small *)
      apply (Hone (l_b r) (l_a r)); auto; [apply perm_swap|lia].
    - (* a small, b large *)
      assert (Eel : (if l_a r <? n then emit L (set_relabel st (l_b r) c) (point_row c (l_a r) l)
                     else eliminate_branch L (l_a r) c l (set_relabel st (l_b r) c)) =
                    eliminate_branch L (l_a r) c l (set_relabel st (l_b r) c)).
      { unfold eliminate_branch. rewrite len_n. now destruct (l_a r <? n). }
      rewrite Eel. apply (Hone (l_a r) (l_b r)); auto. lia.
    - (* both small *)
      destruct (eliminate_ok (l_a r) c l st Hla ltac:(lia)) as (xs & ign & -> & Hig & HPx).
      cbn [bind].
      match goal with |- context [eliminate_branch L (l_b r) c l ?st1] => set (st1' := st1) end.
      destruct (eliminate_ok (l_b r) c l st1' Hlb) as (ys & ign2 & -> & Hig2 & HPy).
      { unfold st1', prows. cbn [k_rows]. rewrite app_length, map_length, (Permutation_length HPx). lia. }
      unfold st1' in *. cbn [k_relabel k_ignore k_rows k_next] in *.
      eexists. split; [reflexivity|].
      apply (Inv_step v rest st _ s top c l0 F' i r [l_a r; l_b r] [] s top); auto.
      + now rewrite Evi.
      + intros g [].
      + cbn [k_rows app]. rewrite <- app_assoc. unfold prows. rewrite <- map_app.
        pose proof (J_move n L wt mcs mx lam HG HH Hlam _ _ _ _ _ _ _ _ [l_a r; l_b r] [] (xs ++ ys) HJ Er) as H.
        apply H; auto.
        * intros d [<-|[<-|[]]]; auto.
        * intros k [].
        * simpl. rewrite app_nil_r. now apply Permutation_app.
      + intro w. cbn [k_ignore flat_map]. rewrite app_nil_r, in_app_iff. rewrite (Hig2 w), (Hig w). tauto.
      + intros g [].
  Qed.

  Lemma condense_loop_ok : forall rest R1 st, topological n L (R1 ++ rest) -> NoDup (R1 ++ rest) ->
    (forall u, In u rest -> u < n + length L) -> Inv rest st ->
    exists st', condense_loop L lam mcs mx wt rest st = Ok st' /\ Inv [] st'.
  Proof.
    induction rest as [|v rest IH]; intros R1 st HT HN Hb HI.
    - exists st. auto.
    - destruct (condense_node_ok R1 v rest st HT HN Hb HI) as (st1 & E & HI1).
      cbn [condense_loop]. rewrite E. cbn [bind].
      apply (IH (R1 ++ [v])); auto.
      + rewrite <- app_assoc. auto.
      + rewrite <- app_assoc. auto.
      + intros; apply Hb; simpl; auto.
  Qed.

  Lemma condense_ok : exists T, condense_tree L lam mcs mx wt = Ok T /\
    condensed n wt mcs T /\ faithful n L wt mcs mx lam T /\ (mx = None -> splits_once n T /\ ascending T).
  Proof.
    unfold condense_tree. rewrite len_n, len_root.
    assert (Hroot : 2 * n - 2 < n + length L) by (destruct HG; lia).
    destruct (bfs_ok n L (2 * n - 2) Hdown Hroot) as (R & -> & HP & HT). cbn [bind].
    assert (HlR : forall u, In u R -> u < n + length L).
    { intros u Hu. apply (Permutation_in _ HP) in Hu. apply nodes_le in Hu; [lia|exact Hdown]. }
    destruct (nth_error L (n - 2)) as [r|] eqn:Er.
    2:{ apply nth_error_None in Er. destruct HG. lia. }
    edestruct (condense_loop_ok R []) as (st & -> & s & top & F & HJ & _ & HF & _).
    - exact HT.
    - cbn [app]. rewrite HP. apply nodes_NoDup; auto. exact Hdown. apply (lf_NoDup n L HG). auto.
    - auto.
    - exists 0, (fun _ => 2 * n - 2), [(2 * n - 2, n, lam (l_d r))]. cbn [k_rows k_next k_relabel k_ignore].
      split; [now apply J_init|]. split; [lia|]. split.
      + intros f [<-|[]]. unfold fnode, fown. cbn [fst snd]. split; [lia|]. split.
        * apply (Permutation_in _ (Permutation_sym HP)). apply nodes_self.
        * split; auto. apply upd_eq.
      + intros v Hv _ _. eexists. split; [left; reflexivity|]. apply (Permutation_in _ HP). auto.
    - cbn [bind]. exists (k_rows st). split; auto.
      assert (F = []) as -> by (destruct F as [|f F]; auto; destruct (HF f (or_introl eq_refl)) as (_ & [] & _)).
      eapply J_final; eauto.
  Qed.
End Run.
