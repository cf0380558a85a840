(** The hierarchy determines the condensed tree up to the numbering of clusters. *)
From Coq Require Import List Arith Lia Bool Permutation.
From Verif Require Import Prelude Order Size Forest M_Linkage S_Linkage M_Condense S_Condense P_CTree P_Below P_NodePath.
Import ListNotations.

Section Unique.
  Context {W V : WOrd} {Sz : SOrd}.
  Variables (n : nat) (L : list (lrow W Sz)) (wt : nat -> Sz) (mcs : Sz) (lam : W -> V).
  Hypothesis HD : dendrogram n L.
  Hypothesis Hn : 2 <= n.
  Notation root := (2 * n - 2).
  Notation dn := (dn n L).
  Notation large := (large n L wt mcs).
  Notation small := (small n L wt mcs).
  Notation split := (true_split n L wt mcs None).
  Notation seg := (segment n L wt mcs None).

  Lemma weight_unique v s s' : weight_of n L wt v s -> weight_of n L wt v s' -> s = s'.
  Proof.
    intros [[H ->]|(i & r & -> & Hr & ->)] [[H' ->]|(j & q & E & Hq & ->)]; auto; try lia. assert (i = j) by lia. congruence.
  Qed.
  Lemma large_small v : large v -> small v -> False.
  Proof. intros (s & H1 & H2) (s' & H3 & H4). rewrite (weight_unique v s s' H1 H3) in H2. congruence. Qed.
  Lemma split_iff r : split r <-> large (l_a r) /\ large (l_b r).
  Proof. split; [intros (H1 & H2 & _); auto|]. intros [H1 H2]. split; auto. split; auto. intros [(s & m & _ & H & _) _]. discriminate. Qed.

  (** Nodes on which a cluster exists: only large sides from the root on. *)
  Inductive live : nat -> Prop :=
  | live_root : live root
  | live_step i r c : live (n + i) -> nth_error L i = Some r -> (c = l_a r \/ c = l_b r) -> large c -> live c.
  Lemma live_large v : live v -> v <> root -> large v.
  Proof. destruct 1; congruence. Qed.
  Lemma live_le v : live v -> v <= root.
  Proof. induction 1 as [|i r c _ IH Hr Hc _]; auto. pose proof (child_lt n L HD i r c Hr Hc). lia. Qed.
  Lemma live_up t v : dn t v -> live v -> t <= root -> live t.
  Proof.
    intros H Hv Ht. revert t H Ht. induction Hv as [|i r c Hv IH Hr Hc Hl]; intros t H Ht.
    - apply (dn_le n L HD) in H. replace t with root by lia. constructor.
    - destruct (Nat.eq_dec t c) as [->|Hne]; [eapply live_step; eauto|]. apply IH; auto. eapply dn_parent; eauto.
  Qed.

  Lemma seg_dn t v : seg t v -> dn t v.
  Proof. induction 1 as [|i r c _ IH Hr _ Hc _]; [constructor|]. eapply dn_step; eauto. Qed.
  Lemma seg_live t v : seg t v -> live t -> live v.
  Proof. induction 1 as [|i r c _ IH Hr _ Hc Hl]; auto. intro. eapply live_step; eauto. Qed.
  Lemma seg_between t v : seg t v -> forall u, dn t u -> dn u v -> u <> v -> exists i r, u = n + i /\ nth_error L i = Some r /\ ~ split r.
  Proof.
    induction 1 as [|i r c H IH Hr Hs Hc Hl]; intros u H1 H2 Hne.
    - exfalso. apply Hne. symmetry. now apply (dn_antisym n L HD).
    - destruct (Nat.eq_dec u (n + i)) as [->|Hne']; [eauto|]. apply IH; auto. eapply dn_parent; eauto.
  Qed.

  (** Where clusters start. *)
  Definition start (t : nat) : Prop := t = root \/ exists i r, live (n + i) /\ nth_error L i = Some r /\ split r /\ (t = l_a r \/ t = l_b r).
  Lemma start_live t : start t -> live t.
  Proof.
    intros [->|(i & r & Hl & Hr & Hs & Hc)]; [constructor|]. eapply live_step; eauto. apply split_iff in Hs as [Ha Hb]. destruct Hc as [->| ->]; auto.
  Qed.
  Lemma start_le t : start t -> t <= root.
  Proof. intro H. apply live_le. now apply start_live. Qed.
  (** A later start on the path cuts a segment. *)
  Lemma start_cuts s t u : seg s u -> dn s t -> dn t u -> start t -> t <= s -> s <= root -> t = s.
  Proof.
    intros Hseg H1 H2 Ht _ Hs. destruct (Nat.eq_dec t s) as [|Hne]; auto. exfalso. destruct Ht as [->|(i & r & Hl & Hr & Hsp & Hc)].
    - apply (dn_le n L HD) in H1. lia.
    - assert (dn s (n + i)) by (eapply dn_parent; eauto).
      assert (H3 : dn (n + i) t) by (eapply dn_step; eauto; constructor).
      assert (H4 : dn (n + i) u) by (eapply dn_trans; eauto). destruct (seg_between s u Hseg (n + i)) as (j & q & E & Hq & Hns); auto.
      + intros <-. pose proof (dn_le n L HD _ _ H2). pose proof (child_lt n L HD i r t Hr Hc). lia.
      + assert (j = i) by lia. congruence.
  Qed.
  Lemma seg_owner s t u : start s -> start t -> seg s u -> seg t u -> s = t.
  Proof.
    intros Hs Ht S1 S2. pose proof (seg_dn _ _ S1) as D1. pose proof (seg_dn _ _ S2) as D2.
    destruct (dn_chain n L HD _ _ _ D1 D2) as [H|H].
    - symmetry. eapply start_cuts; eauto; [now apply (dn_le n L HD) in H|now apply start_le].
    - eapply start_cuts; eauto; [now apply (dn_le n L HD) in H|now apply start_le].
  Qed.

  (** Where a sample leaves. *)
  Lemma leaves_once i r v j q u x : live (n + i) -> nth_error L i = Some r -> (v = l_a r \/ v = l_b r) -> small v -> under n L v x ->
    live (n + j) -> nth_error L j = Some q -> (u = l_a q \/ u = l_b q) -> small u -> under n L u x -> i = j /\ v = u.
  Proof.
    intros Hi Hr Hv Sv Uv Hj Hq Hu Su Uu.
    assert (K : forall i r v j q u, live (n + i) -> nth_error L i = Some r -> (v = l_a r \/ v = l_b r) -> small v -> under n L v x ->
      live (n + j) -> nth_error L j = Some q -> (u = l_a q \/ u = l_b q) -> under n L u x -> j < i -> False).
    { clear i r v j q u Hi Hr Hv Sv Uv Hj Hq Hu Su Uu. intros i r v j q u Hi Hr Hv Sv Uv Hj Hq Hu Uu Hlt. apply under_dn in Uv. apply under_dn in Uu.
      assert (U2 : dn (n + j) x) by (eapply dn_trans; [eapply dn_step; [apply dn_refl|eauto|eauto]|auto]).
      pose proof (child_lt n L HD i r v Hr Hv) as Hvl. pose proof (live_le _ Hi). pose proof (row_lt n L HD _ _ Hr).
      assert (Hvj : dn v (n + j)).
      { destruct (dn_chain n L HD _ _ _ Uv U2) as [|H2]; auto. destruct (Nat.eq_dec (n + j) v) as [E|Hne]; [rewrite E; constructor|].
        assert (H3 : dn (n + j) (n + i)) by (eapply (dn_parent n L HD _ i r v); eauto). apply (dn_le n L HD) in H3. lia. }
      apply (large_small v); auto. apply live_large; [|lia]. eapply live_up; eauto. lia. }
    assert (E : i = j).
    { destruct (lt_eq_lt_dec i j) as [[H|H]|H]; auto; exfalso; [eapply (K j q u i r v)|eapply (K i r v j q u)]; eauto. }
    subst j. assert (q = r) as -> by congruence. split; auto.
    destruct Hv as [->| ->], Hu as [->| ->]; auto; exfalso; eapply siblings_apart; eauto.
  Qed.

  Section Tree.
    Variable T : list (crow V Sz).
    Hypothesis HT : condensed n wt mcs T.
    Variable top : nat -> nat.
    Hypothesis top_root : top n = root.
    Hypothesis top_below : forall c x, is_cluster n T c -> (below n T c x <-> under n L (top c) x).
    Hypothesis top_samples : forall q, In q T -> c_child q < n ->
         exists i r v, seg (top (c_parent q)) (n + i) /\ nth_error L i = Some r /\
           c_lam q = lam (l_d r) /\ (v = l_a r \/ v = l_b r) /\ small v /\ under n L v (c_child q).
    Hypothesis top_clusters : forall q, In q T -> n <= c_child q ->
         exists i r, seg (top (c_parent q)) (n + i) /\ nth_error L i = Some r /\ split r /\
           c_lam q = lam (l_d r) /\ (top (c_child q) = l_a r \/ top (c_child q) = l_b r) /\
           weight_of n L wt (top (c_child q)) (c_size q).

    Lemma cluster_row c : is_cluster n T c -> c <> n -> exists q, In q T /\ c_child q = c /\ n <= c_parent q < c /\ is_cluster n T (c_parent q).
    Proof.
      intros [H|(Hc & q & Hq & E)] Hne; [contradiction|]. exists q. split; auto. split; auto.
      assert (HC : In q (cluster_rows n T)) by (apply filter_In; split; auto; apply Nat.leb_le; lia).
      pose proof (parent_lt_child n wt mcs T HT q HC) as HP. rewrite E in HP. split; auto.
      apply (is_cluster_iff n wt mcs T HT). pose proof (parent_ge n wt mcs T HT q Hq). lia.
    Qed.
    Lemma parent_cluster q : In q T -> is_cluster n T (c_parent q).
    Proof. intro Hq. apply (is_cluster_iff n wt mcs T HT). now apply (parent_ge n wt mcs T HT). Qed.

    Lemma top_start c : is_cluster n T c -> start (top c).
    Proof.
      induction c as [c IH] using (well_founded_induction lt_wf). intro Hc. destruct (Nat.eq_dec c n) as [->|Hne]; [left; auto|].
      destruct (cluster_row c Hc Hne) as (q & Hq & E & Hlt & Hp). destruct (top_clusters q Hq ltac:(lia)) as (i & r & Hs & Hr & Hsp & _ & Hch & _).
      right. exists i, r. rewrite E in Hch. repeat (split; auto). eapply seg_live; eauto. apply start_live. apply IH; auto. lia.
    Qed.

    Lemma start_found t : start t -> forall c u, is_cluster n T c -> seg (top c) u -> dn t u -> exists d, is_cluster n T d /\ top d = t.
    Proof.
      intros Ht c. induction c as [c IH] using (well_founded_induction lt_wf). intros u Hc Hs Hu.
      destruct (Nat.eq_dec (top c) t) as [|Hne]; [eauto|]. pose proof (seg_dn _ _ Hs) as Hd. pose proof (top_start c Hc) as Hst.
      destruct (dn_chain n L HD _ _ _ Hd Hu) as [H|H].
      - exfalso. apply Hne. symmetry. eapply start_cuts; eauto; [now apply (dn_le n L HD) in H|now apply start_le].
      - destruct (Nat.eq_dec c n) as [->|Hcn].
        { exfalso. apply (dn_le n L HD) in H. pose proof (start_le t Ht). apply Hne. lia. }
        destruct (cluster_row c Hc Hcn) as (q & Hq & E & Hlt & Hp). destruct (top_clusters q Hq ltac:(lia)) as (i & r & Hs' & Hr & Hsp & _ & Hch & _).
        rewrite E in Hch. apply (IH (c_parent q)) with (u := n + i); auto; [lia|]. eapply dn_parent; eauto.
    Qed.
    Lemma sample_leaves x : x < n -> exists q i r v, In q T /\ c_child q = x /\ seg (top (c_parent q)) (n + i) /\ live (n + i) /\ nth_error L i = Some r /\
           c_lam q = lam (l_d r) /\ (v = l_a r \/ v = l_b r) /\ small v /\ under n L v x.
    Proof.
      intro Hx. destruct (sample_row n wt mcs T HT x Hx) as (q & Hq & E). destruct (top_samples q Hq ltac:(lia)) as (i & r & v & H1 & H2 & H3 & H4 & H5 & H6).
      exists q, i, r, v. rewrite E in H6. repeat (split; auto). eapply seg_live; eauto. apply start_live, top_start, parent_cluster; auto.
    Qed.
    Lemma start_top t : start t -> exists c, is_cluster n T c /\ top c = t.
    Proof.
      intro Ht. pose proof (start_live t Ht) as Hl. pose proof (start_le t Ht) as Hle.
      destruct (has_sample n L HD t) as [x Hx]; [apply (node_iff n L HD); auto|]. pose proof (under_lt n L t x Hx) as Hxn.
      destruct (sample_leaves x Hxn) as (q & i & r & v & Hq & E & Hs & Hli & Hr & _ & Hv & Sv & Uv).
      apply (start_found t Ht (c_parent q) (n + i)); auto; [now apply parent_cluster|].
      apply under_dn in Hx. apply under_dn in Uv.
      assert (Ux : dn (n + i) x) by (eapply dn_trans; [eapply dn_step; [apply dn_refl|eauto|eauto]|auto]).
      destruct (dn_chain n L HD _ _ _ Hx Ux) as [|H]; auto. destruct (Nat.eq_dec (n + i) t) as [<-|Hne]; [constructor|]. exfalso.
      (* [t] lies at or below [v], so [v] would be live *)
      pose proof (child_lt n L HD i r v Hr Hv) as Hvl. pose proof (row_lt n L HD _ _ Hr).
      assert (Hvt : dn v t).
      { destruct (dn_chain n L HD _ _ _ Uv Hx) as [|H2]; auto. destruct (Nat.eq_dec t v) as [E'|Hne']; [rewrite E'; constructor|].
        assert (H3 : dn t (n + i)) by (eapply dn_parent; eauto). exfalso. apply Hne. now apply (dn_antisym n L HD). }
      apply (large_small v); auto. apply live_large; [|lia]. eapply live_up; eauto. lia.
    Qed.

    Lemma top_descends c d : descends n T c d -> dn (top c) (top d) /\ top c <> top d.
    Proof.
      induction 1 as [q Hq Hge|c d e _ [I1 I2] _ [J1 J2]].
      - destruct (top_clusters q Hq Hge) as (i & r & Hs & Hr & Hsp & _ & Hch & _). pose proof (child_lt n L HD i r _ Hr Hch).
        apply seg_dn in Hs. split; [eapply dn_step; eauto|]. apply (dn_le n L HD) in Hs. lia.
      - split; [eapply dn_trans; eauto|]. apply (dn_le n L HD) in I1. apply (dn_le n L HD) in J1. lia.
    Qed.
    Lemma top_inj c d : is_cluster n T c -> is_cluster n T d -> top c = top d -> c = d.
    Proof.
      intros Hc Hd E. destruct (has_sample n L HD (top c)) as [x Hx]; [apply (node_iff n L HD), start_le, top_start; auto|].
      assert (B1 : below n T c x) by (apply top_below; auto). assert (B2 : below n T d x) by (apply top_below; auto; congruence).
      destruct (Nat.eq_dec c d) as [|Hne]; auto. exfalso. destruct (below_nested n wt mcs T HT c d x B1 B2) as [H|H].
      - assert (K : descends n T d c) by (apply (descends_sub n wt mcs T HT); auto). apply top_descends in K. destruct K. congruence.
      - assert (K : descends n T c d) by (apply (descends_sub n wt mcs T HT); auto). apply top_descends in K. destruct K. congruence.
    Qed.
  End Tree.
End Unique.
