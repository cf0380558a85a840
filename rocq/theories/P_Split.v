(** When a hierarchy has clusters. *)
From Coq Require Import List Arith Lia Bool Permutation Sorted ZArith.
From Verif Require Import Prelude Order Graph Size Num M_Linkage S_Linkage M_Condense S_Condense M_Select S_Select M_Labels S_Labels S_Epsilon M_Pipeline S_Pipeline
  P_CTree P_Below P_NodePath P_SameLinkage P_Unique P_Faithful P_Labels P_LabelsTop P_LabelsProps P_PipelineRun P_PipelineTop S_Simplify S_Level S_Unique S_Join P_Level P_Join S_Split.
Import ListNotations.
Local Open Scope nat_scope.

Section Split.
  Context {W V : WOrd} {Sz : SOrd}.
  Variables (n : nat) (wt : nat -> Sz) (mcs : Sz) (lam : W -> V) (M : list (edge W)) (L : list (lrow W Sz)) (T : list (crow V Sz)).
  Hypothesis HL : linkage_of n wt M L.
  Hypothesis Hn : 2 <= n.
  Hypothesis HT : condensed n wt mcs T.
  Hypothesis HF : faithful n L wt mcs None lam T.
  Hypothesis Hnonneg : forall x, x < n -> sle szero (wt x) = true.
  Notation root := (2 * n - 2).
  Notation dn := (dn n L).
  Notation large := (large n L wt mcs).
  Let HD : dendrogram n L := proj1 HL.

  Lemma node_lt v : v <= root -> v < n + length L.
  Proof. intro H. pose proof (dg_len _ _ HD). lia. Qed.
  Lemma weight_at v : v <= root -> exists s, weight_of n L wt v s.
  Proof.
    intro H. apply node_lt in H. destruct (le_lt_dec n v) as [Hge|Hlt]; [|exists (wt v); left; auto].
    destruct (nth_error L (v - n)) as [r|] eqn:E; [|apply nth_error_None in E; lia]. exists (l_n r). right. exists (v - n), r. split; [lia|auto].
  Qed.
  (** A node over a crowd is large. *)
  Lemma over_crowd u xs : u <= root -> NoDup xs -> (forall y, In y xs -> under n L u y) -> sle mcs (ssum (map wt xs)) = true -> large u.
  Proof.
    intros Hu N U Hm. destruct (weight_at u Hu) as [s Hs]. exists s. split; auto.
    destruct (node_samples n wt M L HL u s Hs (node_lt u Hu)) as (ys & N' & U' & ->). eapply sle_trans; [exact Hm|]. apply ssum_incl; auto.
    - intros y Hy. apply U'. auto.
    - intros y Hy. apply Hnonneg. apply U' in Hy. eapply under_lt; eauto.
  Qed.
  Lemma large_up t v : dn t v -> t <= root -> large v -> large t.
  Proof.
    intros H Ht (s & Hs & Hm). pose proof (dn_le n L HD _ _ H). destruct (node_samples n wt M L HL v s Hs (node_lt v ltac:(lia))) as (ys & N & U & ->).
    apply (over_crowd t ys); auto. intros y Hy. eapply dn_under_up; eauto. now apply U.
  Qed.
  Lemma large_live v : v <= root -> large v -> live n L wt mcs v.
  Proof.
    remember (root - v) as k eqn:E. revert v E. induction k as [k IH] using (well_founded_induction lt_wf). intros v E Hv Hl.
    destruct (Nat.eq_dec v root) as [->|Hne]; [constructor|]. destruct (parent_exists n L HD v ltac:(lia)) as (i & r & Hr & Hc).
    pose proof (child_lt n L HD i r v Hr Hc) as Hlt. pose proof (row_lt n L HD i r Hr) as Hi. eapply live_step; eauto. apply (IH (root - (n + i))); try lia.
    apply (large_up (n + i) v); auto; [|lia]. eapply dn_step; eauto. constructor.
  Qed.

  (** A merge of two large nodes makes clusters, and nothing else does. *)
  Lemma split_found i r : nth_error L i = Some r -> large (l_a r) -> large (l_b r) -> cluster_rows n T <> [].
  Proof.
    intros Hr Ha Hb E. pose proof HF as (top & Htop & _ & Hsam & Hclu). pose proof (row_lt n L HD i r Hr) as Hi.
    assert (HS : start n L wt mcs (l_a r)).
    { right. exists i, r. split; [|split; auto; split; [apply split_iff; auto|now left]]. apply large_live; [lia|]. apply (large_up _ (l_a r)); auto; [|lia].
      eapply dn_step; eauto. constructor. }
    destruct (start_top n L wt mcs lam HD Hn T HT top Htop Hsam Hclu (l_a r) HS) as (c & Hc & Et).
    assert (Hcn : c <> n) by (intros ->; pose proof (child_lt n L HD i r (l_a r) Hr ltac:(auto)); lia).
    destruct Hc as [|(Hge & q & Hq & Eq)]; [contradiction|]. assert (Hin : In q (cluster_rows n T)) by (apply (in_ct n T); auto; lia).
    rewrite E in Hin. destruct Hin.
  Qed.
  Lemma split_exists : cluster_rows n T <> [] -> exists i r, nth_error L i = Some r /\ large (l_a r) /\ large (l_b r).
  Proof.
    intro H. pose proof HF as (top & _ & _ & _ & Hclu). destruct (cluster_rows n T) as [|q l] eqn:E; [congruence|].
    assert (Hq : In q (cluster_rows n T)) by (rewrite E; now left). pose proof (ct_child_in n wt mcs T HT q Hq) as Hc. apply (ct_in n T) in Hq.
    destruct (Hclu q Hq ltac:(lia)) as (i & r & _ & Hr & Hs & _). exists i, r. split; auto. now apply split_iff in Hs.
  Qed.

  (** Two nodes, neither above the other, lie on the two sides of a merge. *)
  Lemma meet t u v : dn t u -> dn t v -> ~ dn u v -> ~ dn v u -> exists i r, nth_error L i = Some r /\ ((dn (l_a r) u /\ dn (l_b r) v) \/ (dn (l_b r) u /\ dn (l_a r) v)).
  Proof.
    induction t as [t IH] using (well_founded_induction lt_wf). intros Hu Hv N1 N2.
    destruct (dn_first n L t u Hu) as (i & r & c & -> & Hr & Hc & Hcu); [intros ->; contradiction|].
    destruct (dn_first n L (n + i) v Hv) as (j & q & d & Ej & Hq & Hd & Hdv); [intros <-; contradiction|]. assert (j = i) by lia. subst j. assert (q = r) as -> by congruence.
    pose proof (child_lt n L HD i r c Hr Hc). destruct (Nat.eq_dec c d) as [<-|Hne]; [apply (IH c); auto|].
    exists i, r. split; auto. destruct Hc as [->| ->], Hd as [->| ->]; auto; congruence.
  Qed.

  (** Below a threshold a crowd around a sample lies under one merge. *)
  Lemma crowd_node (p : W -> bool) x : threshold p -> x < n -> crowd n wt mcs (connected (passing p M) x) ->
    exists u, u <= root /\ large u /\ under n L u x /\ (u = x \/ exists j r, u = n + j /\ nth_error L j = Some r /\ p (l_d r) = true).
  Proof.
    intros Hp Hx (xs & N & U & Hm).
    assert (K : exists u, u <= root /\ under n L u x /\ (u = x \/ exists j r, u = n + j /\ nth_error L j = Some r /\ p (l_d r) = true) /\ forall y, In y xs -> under n L u y).
    { clear N Hm. induction xs as [|y l IH].
      - exists x. split; [lia|]. split; [now constructor|]. split; [auto|]. intros y [].
      - destruct IH as (u & Hu & Ux & Hor & Hall); [intros z Hz; apply U; now right|]. destruct (U y ltac:(now left)) as [Hy Hc].
        destruct (light_node n wt M L HL Hn p x y Hp Hc Hx Hy) as [<-|(j & r & Hr & Hw & U1 & U2)].
        + exists u. split; auto. split; auto. split; auto. intros z [<-|Hz]; auto.
        + pose proof (row_lt n L HD j r Hr). destruct (dn_chain n L HD _ _ _ (under_dn _ _ _ _ Ux) (under_dn _ _ _ _ U1)) as [K|K].
          * exists u. split; auto. split; auto. split; auto. intros z [<-|Hz]; auto. eapply dn_under_up; eauto.
          * exists (n + j). split; [lia|]. split; auto. split; [right; eauto|]. intros z [<-|Hz]; auto. eapply dn_under_up; eauto. }
    destruct K as (u & Hu & Ux & Hor & Hall). exists u. split; auto. split; auto. eapply over_crowd; eauto.
  Qed.

  Lemma parted_splits : parted_by n wt mcs M -> cluster_rows n T <> [].
  Proof.
    intros (eps & x & y & Hx & Hy & Cx & Cy & Hxy). pose proof (threshold_lt eps) as Hp.
    destruct (crowd_node _ x Hp Hx Cx) as (u & Hu & Lu & Ux & Ou). destruct (crowd_node _ y Hp Hy Cy) as (v & Hv & Lv & Uy & Ov).
    assert (Hfar : forall u x y, u = x \/ (exists j r, u = n + j /\ nth_error L j = Some r /\ wlt (l_d r) eps = true) -> under n L u x -> under n L u y -> x < n ->
      connected (passing (fun w => wlt w eps) M) x y).
    { clear -HL. intros u x y [->|(j & r & -> & Hr & Hw)] U1 U2 Hx.
      - rewrite (P_SameLinkage.under_leaf n L x y U2 Hx). apply connected_refl.
      - apply (node_joined n wt M L HL _ j r); auto. apply threshold_lt. }
    destruct (meet root u v) as (i & r & Hr & Hor); try (apply (root_dn n L HD); auto).
    - intro K. apply Hxy. eapply Hfar; eauto. eapply dn_under_up; eauto.
    - intro K. apply Hxy. apply connected_sym. eapply Hfar; [exact Ov|auto| |auto]. eapply dn_under_up; eauto.
    - pose proof (row_lt n L HD i r Hr). pose proof (child_lt n L HD i r (l_a r) Hr ltac:(auto)). pose proof (child_lt n L HD i r (l_b r) Hr ltac:(auto)).
      apply (split_found i r Hr); destruct Hor as [[A B]|[A B]]; (eapply large_up; [eassumption|lia|assumption]).
  Qed.

  (** Without ties, clusters part the samples. *)
  Lemma strict_below i j r q : distinct_weights M -> nth_error L i = Some r -> nth_error L j = Some q -> j < i -> wlt (l_d q) (l_d r) = true.
  Proof.
    intros Hdw Hr Hq Hlt. pose proof HL as (_ & _ & HH & _). pose proof (heights_le L j i q r HH Hq Hr ltac:(lia)) as Hle.
    destruct (wle (l_d r) (l_d q)) eqn:E; [|now apply wlt_nle]. exfalso.
    destruct (sorted_edges n wt M L HL) as (M' & HP & Em & Hlen & _).
    assert (HW : forall k s, nth_error L k = Some s -> exists e, nth_error M' k = Some e /\ ewt e = l_d s).
    { intros k s Hk. assert (Q : nth_error (map ewt M') k = Some (l_d s)) by (rewrite <- Em, nth_error_map, Hk; auto).
      rewrite nth_error_map in Q. destruct (nth_error M' k) as [e|]; [|discriminate]. injection Q as Q. eauto. }
    destruct (HW i r Hr) as (e & He & Ee). destruct (HW j q Hq) as (f & Hf & Ef).
    apply Permutation_nth_error in HP as (_ & g & Hg & Hgi).
    assert (Hij : g i = g j).
    { rewrite Hgi in He, Hf. eapply (Hdw (g i) (g j) e f); eauto; rewrite Ee, Ef; auto. }
    apply Hg in Hij. lia.
  Qed.
  Lemma splits_parted : distinct_weights M -> cluster_rows n T <> [] -> parted_by n wt mcs M.
  Proof.
    intros Hdw H. destruct (split_exists H) as (i & r & Hr & Ha & Hb). pose proof (row_lt n L HD i r Hr) as Hi.
    assert (HC : forall c, c = l_a r \/ c = l_b r -> large c -> exists x, under n L c x /\ crowd n wt mcs (connected (passing (fun w => wlt w (l_d r)) M) x)).
    { intros c Hc (s & Hs & Hm). pose proof (child_lt n L HD i r c Hr Hc) as Hlt. destruct (node_samples n wt M L HL c s Hs (node_lt c ltac:(lia))) as (xs & N & U & ->).
      destruct (has_sample n L HD c ltac:(apply (node_iff n L HD); lia)) as [x Hx]. exists x. split; auto. exists xs. split; auto. split; auto. intros y Hy. apply U in Hy.
      split; [eapply under_lt; eauto|]. destruct (le_lt_dec n c) as [Hge|Hl].
      - destruct (nth_error L (c - n)) as [q|] eqn:Eq; [|apply nth_error_None in Eq; pose proof (dg_len _ _ HD); lia].
        replace c with (n + (c - n)) in Hx, Hy by lia. apply (node_joined n wt M L HL _ (c - n) q); auto; [apply threshold_lt|]. apply (strict_below i (c - n)); auto. lia.
      - rewrite <- (P_SameLinkage.under_leaf n L c x Hx Hl), <- (P_SameLinkage.under_leaf n L c y Hy Hl). apply connected_refl. }
    destruct (HC (l_a r) ltac:(auto) Ha) as (x & Ux & Cx). destruct (HC (l_b r) ltac:(auto) Hb) as (y & Uy & Cy).
    exists (l_d r), x, y. split; [eapply under_lt; eauto|]. split; [eapply under_lt; eauto|]. split; auto. split; auto.
    destruct (side_level n wt M L HL Hn i r (l_a r) Hr ltac:(auto)) as (_ & _ & Hsep). apply Hsep; auto; [eapply under_lt; eauto|]. intro K. eapply (siblings_apart n L HD); eauto.
  Qed.
End Split.
