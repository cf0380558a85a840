(** Subtrees of dendrograms and the breadth first search over them. *)
From Coq Require Import List Arith Lia Bool Permutation Sorted ZArith.
From Verif Require Import Prelude Order Graph UF Size M_Linkage S_Linkage P_Dendro M_Condense.
Import ListNotations.

Fixpoint nds {W Sz} (fuel n : nat) (L : list (lrow W Sz)) (v : nat) : list nat :=
  match fuel with
  | 0 => []
  | S f =>
      v :: (if v <? n then []
            else match nth_error L (v - n) with
                 | Some r => nds f n L (l_a r) ++ nds f n L (l_b r)
                 | None => []
                 end)
  end.
(** All nodes of the subtree of [v]. *)
Definition nodes {W Sz} (n : nat) (L : list (lrow W Sz)) (v : nat) : list nat := nds (S v) n L v.

Section Nodes.
  Context {W Sz : Type}.
  Implicit Types L : list (lrow W Sz).

  Lemma nds_enough n L : down n L -> forall f g v, v < f -> v < g -> nds f n L v = nds g n L v.
  Proof.
    intro HD. induction f as [|f IH]; intros g v Hf Hg; [lia|].
    destruct g as [|g]; [lia|]. simpl. f_equal. destruct (v <? n) eqn:E; auto.
    apply Nat.ltb_ge in E. destruct (nth_error L (v - n)) as [r|] eqn:Er; auto.
    destruct (HD _ _ Er). f_equal; apply IH; lia.
  Qed.

  Lemma nodes_sample n L v : v < n -> nodes n L v = [v].
  Proof. intro H. unfold nodes. simpl. now rewrite (proj2 (Nat.ltb_lt v n) H). Qed.

  Lemma nodes_node n L i r : down n L -> nth_error L i = Some r ->
    nodes n L (n + i) = (n + i) :: nodes n L (l_a r) ++ nodes n L (l_b r).
  Proof.
    intros HD Hi. unfold nodes at 1. simpl. f_equal.
    rewrite (proj2 (Nat.ltb_ge (n + i) n)) by lia.
    replace (n + i - n) with i by lia. rewrite Hi. destruct (HD _ _ Hi).
    unfold nodes. rewrite (nds_enough n L HD (n + i) (S (l_a r)) (l_a r)) by lia.
    rewrite (nds_enough n L HD (n + i) (S (l_b r)) (l_b r)) by lia. reflexivity.
  Qed.

  Lemma nodes_self n L v : In v (nodes n L v).
  Proof. unfold nodes. simpl. auto. Qed.

  Lemma nodes_le n L v : down n L -> forall w, In w (nodes n L v) -> w <= v.
  Proof.
    intro HD. induction v as [v IH] using lt_wf_ind. intros w Hw.
    destruct (Nat.lt_ge_cases v n) as [Hv|Hv].
    - rewrite nodes_sample in Hw by auto. destruct Hw as [->|[]]. auto.
    - destruct (nth_error L (v - n)) as [r|] eqn:Er.
      + replace v with (n + (v - n)) in Hw by lia. destruct (HD _ _ Er).
        rewrite (nodes_node _ _ _ _ HD Er) in Hw. destruct Hw as [<-|Hw]; [lia|].
        apply in_app_iff in Hw as [Hw|Hw]; apply IH in Hw; lia.
      + unfold nodes in Hw. simpl in Hw. rewrite (proj2 (Nat.ltb_ge v n)), Er in Hw by lia.
        destruct Hw as [->|[]]. auto.
  Qed.

  Lemma nodes_lv n L v : down n L -> forall w, In w (nodes n L v) -> incl (lv n L w) (lv n L v).
  Proof.
    intro HD. induction v as [v IH] using lt_wf_ind. intros w Hw.
    destruct (Nat.lt_ge_cases v n) as [Hv|Hv].
    - rewrite nodes_sample in Hw by auto. destruct Hw as [->|[]]. apply incl_refl.
    - destruct (nth_error L (v - n)) as [r|] eqn:Er.
      + replace v with (n + (v - n)) in Hw |- * by lia. destruct (HD _ _ Er).
        rewrite (nodes_node _ _ _ _ HD Er) in Hw. rewrite (lv_node _ _ _ _ HD Er).
        destruct Hw as [<-|Hw].
        * rewrite (lv_node _ _ _ _ HD Er). apply incl_refl.
        * apply in_app_iff in Hw as [Hw|Hw]; apply IH in Hw; try lia;
            intros x Hx; apply in_or_app; auto.
      + unfold nodes in Hw. simpl in Hw. rewrite (proj2 (Nat.ltb_ge v n)), Er in Hw by lia.
        destruct Hw as [->|[]]. apply incl_refl.
  Qed.

  Lemma lv_nodes n L v : down n L -> lv n L v = filter (fun w => w <? n) (nodes n L v).
  Proof.
    intro HD. induction v as [v IH] using lt_wf_ind.
    destruct (Nat.lt_ge_cases v n) as [Hv|Hv].
    - rewrite nodes_sample, lv_sample by auto. simpl. now rewrite (proj2 (Nat.ltb_lt v n) Hv).
    - destruct (nth_error L (v - n)) as [r|] eqn:Er.
      + replace v with (n + (v - n)) by lia. destruct (HD _ _ Er).
        rewrite (nodes_node _ _ _ _ HD Er), (lv_node _ _ _ _ HD Er). cbn [filter].
        rewrite (proj2 (Nat.ltb_ge (n + (v - n)) n)) by lia.
        rewrite filter_app. f_equal; apply IH; lia.
      + unfold nodes, lv. simpl. rewrite (proj2 (Nat.ltb_ge v n)), Er by lia. reflexivity.
  Qed.

  Lemma nodes_trans n L v w u : down n L ->
    In w (nodes n L v) -> In u (nodes n L w) -> In u (nodes n L v).
  Proof.
    intro HD. revert w. induction v as [v IH] using lt_wf_ind. intros w Hw Hu.
    destruct (Nat.lt_ge_cases v n) as [Hv|Hv].
    - rewrite nodes_sample in Hw by auto. destruct Hw as [->|[]]. auto.
    - destruct (nth_error L (v - n)) as [r|] eqn:Er.
      + replace v with (n + (v - n)) in Hw |- * by lia. destruct (HD _ _ Er).
        rewrite (nodes_node _ _ _ _ HD Er) in Hw. destruct Hw as [<-|Hw]; auto.
        rewrite (nodes_node _ _ _ _ HD Er). right.
        apply in_app_iff in Hw as [Hw|Hw]; apply in_or_app; [left|right]; eapply IH; eauto; lia.
      + unfold nodes in Hw. simpl in Hw. rewrite (proj2 (Nat.ltb_ge v n)), Er in Hw by lia.
        destruct Hw as [->|[]]. auto.
  Qed.

  Lemma nodes_disjoint n L a b w : down n L -> a < n + length L -> b < n + length L ->
    NoDup (lv n L a ++ lv n L b) -> In w (nodes n L a) -> In w (nodes n L b) -> False.
  Proof.
    intros HD Ha Hb HN H1 H2. apply NoDup_app_iff in HN as (_ & _ & HN).
    assert (Hw : w < n + length L) by (pose proof (nodes_le _ _ _ HD _ H1); lia).
    pose proof (lv_nonempty n L w HD Hw) as Hne.
    destruct (lv n L w) as [|x l] eqn:E; [congruence|].
    apply (HN x); [apply (nodes_lv _ _ _ HD _ H1)|apply (nodes_lv _ _ _ HD _ H2)]; rewrite E; simpl; auto.
  Qed.

  Lemma nodes_NoDup n L v : down n L -> v < n + length L -> NoDup (lv n L v) -> NoDup (nodes n L v).
  Proof.
    intro HD. induction v as [v IH] using lt_wf_ind. intros Hlt HN.
    destruct (Nat.lt_ge_cases v n) as [Hv|Hv].
    - rewrite nodes_sample by auto. repeat constructor. simpl. tauto.
    - destruct (nth_error L (v - n)) as [r|] eqn:Er; [|apply nth_error_None in Er; lia].
      replace v with (n + (v - n)) in HN |- * by lia. destruct (HD _ _ Er).
      rewrite (lv_node _ _ _ _ HD Er) in HN. rewrite (nodes_node _ _ _ _ HD Er).
      pose proof (proj1 (NoDup_app_iff _ _) HN) as (N1 & N2 & _).
      constructor.
      + rewrite in_app_iff. intros [H'|H']; apply nodes_le in H'; auto; lia.
      + apply NoDup_app_iff. split; [apply IH; auto; lia|]. split; [apply IH; auto; lia|].
        intros w. apply nodes_disjoint; auto; lia.
  Qed.

  (** ** Breadth first search *)
  Lemma bfs_children_ok n L tp : down n L -> (forall v, In v tp -> v < n + length L) ->
    exists next, bfs_children n L tp = Ok next /\
      Permutation (flat_map (nodes n L) tp) (tp ++ flat_map (nodes n L) next) /\
      (forall w, In w next -> exists v, In v tp /\ w < v) /\
      (forall v r, In v tp -> n <= v -> nth_error L (v - n) = Some r -> In (l_a r) next /\ In (l_b r) next).
  Proof.
    intro HD. induction tp as [|v tp IH]; intro Hb.
    - exists []. simpl. split; auto. split; auto. split; [intros w []|intros v r []].
    - destruct IH as (next & E & HP & Hd & Hc); [intros; apply Hb; simpl; auto|].
      cbn [bfs_children]. rewrite E. cbn [bind].
      destruct (Nat.leb_spec n v) as [Hv|Hv].
      + destruct (nth_error L (v - n)) as [r|] eqn:Er.
        2:{ apply nth_error_None in Er. specialize (Hb v (or_introl eq_refl)). lia. }
        destruct (HD _ _ Er).
        exists (l_a r :: l_b r :: next). split; auto. split; [|split].
        * cbn [flat_map]. assert (En : nodes n L v = v :: nodes n L (l_a r) ++ nodes n L (l_b r)).
          { replace v with (n + (v - n)) at 1 2 by lia. now apply nodes_node. }
          rewrite En. cbn [app]. apply perm_skip. rewrite HP.
          generalize (nodes n L (l_a r)) (nodes n L (l_b r)) (flat_map (nodes n L) next). intros X Y Z.
          rewrite <- app_assoc, (app_assoc X Y (tp ++ Z)), (app_assoc X Y Z).
          rewrite !app_assoc. apply Permutation_app_tail. rewrite <- !app_assoc.
          rewrite (app_assoc X Y tp). apply Permutation_app_comm.
        * intros w [<-|[<-|Hw]]; [exists v|exists v|]; simpl; try (split; [auto|lia]).
          destruct (Hd w Hw) as (u & Hu & ?). exists u. split; auto.
        * intros u q [<-|Hu] Hn Hq.
          -- rewrite Er in Hq. injection Hq as <-. simpl; auto.
          -- destruct (Hc u q Hu Hn Hq). simpl; auto.
      + exists next. split; auto. split; [|split].
        * cbn [flat_map]. rewrite (nodes_sample n L v) by auto. simpl. now apply perm_skip.
        * intros w Hw. destruct (Hd w Hw) as (u & Hu & ?). exists u. split; simpl; auto.
        * intros u q [<-|Hu] Hn Hq; [lia|]. eauto.
  Qed.

  (** Children come after their parents. *)
  Definition topological n L (R : list nat) : Prop :=
    forall R1 v R2 r, R = R1 ++ v :: R2 -> n <= v -> nth_error L (v - n) = Some r ->
    In (l_a r) R2 /\ In (l_b r) R2.

  Lemma app_decompose {A} (l1 l2 m1 m2 : list A) x : l1 ++ l2 = m1 ++ x :: m2 ->
    (exists k, l1 = m1 ++ x :: k /\ m2 = k ++ l2) \/ (exists k, l2 = k ++ x :: m2 /\ m1 = l1 ++ k).
  Proof.
    revert m1. induction l1 as [|y l1 IH]; simpl; intros m1 E.
    - right. exists m1. auto.
    - destruct m1 as [|z m1]; simpl in E; injection E as -> E.
      + left. exists l1. auto.
      + destruct (IH _ E) as [(k & -> & ->)|(k & -> & ->)]; [left|right]; exists k; auto.
  Qed.

  Lemma bfs_loop_ok n L : down n L -> forall fuel tp,
    (forall v, In v tp -> v < n + length L) -> (forall v, In v tp -> v < fuel) ->
    exists R, bfs_loop fuel n L tp = Ok R /\ Permutation R (flat_map (nodes n L) tp) /\
      incl tp R /\ topological n L R.
  Proof.
    intro HD. induction fuel as [|f IH]; intros tp Hb Hf.
    - destruct tp as [|v tp]; [|specialize (Hf v (or_introl eq_refl)); lia].
      exists []. simpl. split; auto. split; auto. split; [apply incl_refl|].
      intros R1 v R2 r E. symmetry in E. apply app_eq_nil in E as [_ E]. discriminate.
    - destruct tp as [|v0 tp0] eqn:Etp.
      + exists []. simpl. split; auto. split; auto. split; [apply incl_refl|].
        intros R1 v R2 r E. symmetry in E. apply app_eq_nil in E as [_ E]. discriminate.
      + rewrite <- Etp in *. assert (E0 : bfs_loop (S f) n L tp =
          (let* next := bfs_children n L tp in let* rest := bfs_loop f n L next in Ok (tp ++ rest))).
        { rewrite Etp. reflexivity. }
        rewrite E0. destruct (bfs_children_ok n L tp HD Hb) as (next & -> & HP & Hd & Hc). cbn [bind].
        destruct (IH next) as (R & -> & HR & Hi & HT).
        { intros w Hw. destruct (Hd w Hw) as (v & Hv & ?). specialize (Hb v Hv). lia. }
        { intros w Hw. destruct (Hd w Hw) as (v & Hv & ?). specialize (Hf v Hv). lia. }
        cbn [bind]. exists (tp ++ R). split; auto. split; [|split].
        * rewrite HP. now apply Permutation_app_head.
        * apply incl_appl, incl_refl.
        * intros R1 v R2 r E Hn Hr. apply app_decompose in E as [(k & E1 & ->)|(k & E1 & ->)].
          -- destruct (Hc v r) as [H1 H2]; auto. { rewrite E1. apply in_elt. }
             split; apply in_or_app; right; auto.
          -- eapply HT; eauto.
  Qed.

  Lemma bfs_ok n L v : down n L -> v < n + length L ->
    exists R, bfs_from_hierarchy L v n = Ok R /\ Permutation R (nodes n L v) /\ topological n L R.
  Proof.
    intros HD Hv. destruct (bfs_loop_ok n L HD (v + 1) [v]) as (R & E & HP & _ & HT).
    - intros w [<-|[]]; auto.
    - intros w [<-|[]]; lia.
    - exists R. unfold bfs_from_hierarchy. rewrite E. split; auto. split; auto.
      simpl in HP. now rewrite app_nil_r in HP.
  Qed.

  (** The whole subtree of a node comes after it. *)
  Lemma topological_nodes n L R : down n L -> topological n L R ->
    forall v R1 R2 w, R = R1 ++ v :: R2 -> In w (nodes n L v) -> w = v \/ In w R2.
  Proof.
    intros HD HT. induction v as [v IH] using lt_wf_ind. intros R1 R2 w E Hw.
    destruct (Nat.lt_ge_cases v n) as [Hv|Hv].
    - rewrite nodes_sample in Hw by auto. destruct Hw as [->|[]]. auto.
    - destruct (nth_error L (v - n)) as [r|] eqn:Er.
      + assert (Hw' : In w ((n + (v - n)) :: nodes n L (l_a r) ++ nodes n L (l_b r))).
        { rewrite <- (nodes_node _ _ _ _ HD Er). now replace (n + (v - n)) with v by lia. }
        destruct Hw' as [<-|Hw']; [left; lia|]. right. destruct (HD _ _ Er).
        destruct (HT R1 v R2 r E Hv Er) as [Ha Hb].
        apply in_app_iff in Hw' as [Hw'|Hw'].
        * apply in_split in Ha as (S1 & S2 & ->).
          destruct (IH (l_a r) ltac:(lia) (R1 ++ v :: S1) S2 w) as [->|H']; auto.
          { rewrite E, <- app_assoc. reflexivity. } { apply in_elt. }
          apply in_or_app. right. right. auto.
        * apply in_split in Hb as (S1 & S2 & ->).
          destruct (IH (l_b r) ltac:(lia) (R1 ++ v :: S1) S2 w) as [->|H']; auto.
          { rewrite E, <- app_assoc. reflexivity. } { apply in_elt. }
          apply in_or_app. right. right. auto.
      + unfold nodes in Hw. simpl in Hw. rewrite (proj2 (Nat.ltb_ge v n)), Er in Hw by lia.
        destruct Hw as [->|[]]. auto.
  Qed.
End Nodes.
