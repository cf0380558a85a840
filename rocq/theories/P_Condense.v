(** The condensed tree: an abstract account of the main loop. *)
From Coq Require Import List Arith Lia Bool Permutation Sorted ZArith.
From Verif Require Import Prelude Order Graph UF Size M_Linkage S_Linkage P_Dendro M_Condense S_Condense P_Bfs.
Import ListNotations.

(** Samples below a cluster, for an arbitrary set of (parent, child) pairs. *)
Inductive bel (n : nat) (P : nat -> nat -> Prop) : nat -> nat -> Prop :=
| bel_here c x : P c x -> x < n -> bel n P c x
| bel_deep c d x : P c d -> n <= d -> bel n P d x -> bel n P c x.

Lemma bel_mono n (P Q : nat -> nat -> Prop) : (forall c d, P c d -> Q c d) ->
  forall c x, bel n P c x -> bel n Q c x.
Proof.
  intros H c x. induction 1 as [c x Hp Hx|c d x Hp Hd Hb IH].
  - apply bel_here; auto.
  - apply (bel_deep n Q c d); auto.
Qed.

Section Condense.
  Context {W V : WOrd} {Sz : SOrd}.
  Variables (n : nat) (L : list (lrow W Sz)) (wt : nat -> Sz).
  Variables (mcs : Sz) (mx : option Sz) (lam : W -> V).
  Hypothesis HG : dendrogram n L.
  Hypothesis HS : sizes_are n wt L.
  Hypothesis HH : heights_sorted L.
  Hypothesis Hlam : forall x y, wle x y = true -> wle (lam y) (lam x) = true.
  Hypothesis Hsamples : forall x, x < n -> sle mcs (wt x) = false.

  Notation lf := (lv n L).
  Notation weight := (weight_of n L wt).
  Notation big := (large n L wt mcs).
  Notation little := (small n L wt mcs).
  Notation split := (true_split n L wt mcs mx).
  Notation seg := (segment n L wt mcs mx).

  Lemma HD : down n L.
  Proof. exact (dg_down _ _ HG). Qed.

  Lemma lf_root : Permutation (lf (2 * n - 2)) (seq 0 n).
  Proof.
    destruct HG as [H1 H2 H3].
    assert (HP : Permutation (child_list L ++ [2 * n - 2]) (seq 0 (n + length L))).
    { replace (n + length L) with (2 * n - 2 + 1) by lia. rewrite seq_app. simpl. now apply Permutation_app_tail. }
    pose proof (tops_partition n L [2 * n - 2] H2 HP) as H. simpl in H. now rewrite app_nil_r in H.
  Qed.

  Lemma lf_NoDup v : v < n + length L -> NoDup (lf v).
  Proof.
    (* every node is below the root *)
    assert (Hall : forall v, v <= 2 * n - 2 -> v < n + length L -> incl (lf v) (lf (2 * n - 2)) /\ NoDup (lf v)).
    { destruct HG as [H1 H2 H3].
      intro u. remember (2 * n - 2 - u) as k eqn:Ek. revert u Ek.
      induction k as [k IH] using lt_wf_ind. intros u Ek Hu Hl.
      destruct (Nat.eq_dec u (2 * n - 2)) as [->|Hne].
      - split; [apply incl_refl|]. rewrite lf_root. apply seq_NoDup.
      - assert (Hi : In u (child_list L)).
        { apply (Permutation_in _ (Permutation_sym H3)). apply in_seq. lia. }
        unfold child_list in Hi. apply in_flat_map in Hi as (r & Hr & Hc).
        apply In_nth_error in Hr as (i & Hi). pose proof (H2 _ _ Hi) as [Ha Hb].
        assert (Hil : i < length L) by (apply nth_error_Some; congruence).
        assert (Huu : u = l_a r \/ u = l_b r) by (simpl in Hc; intuition). clear Hc.
        destruct (IH (2 * n - 2 - (n + i)) ltac:(destruct Huu; lia) (n + i) eq_refl ltac:(lia) ltac:(lia)) as [Hinc Hnd].
        rewrite (lv_node _ _ _ _ H2 Hi) in Hinc, Hnd.
        apply NoDup_app_iff in Hnd as (N1 & N2 & _).
        destruct Huu as [->| ->]; split; auto; intros x Hx; apply Hinc; apply in_or_app; auto. }
    intro Hv. apply Hall; auto. destruct HG. lia.
  Qed.

  Lemma lf_len v : v < n + length L -> 1 <= length (lf v).
  Proof.
    intro H. pose proof (lv_nonempty n L v HD H). destruct (lf v); simpl; [congruence|lia].
  Qed.

  Lemma weight_sum v s : weight v s -> v < n + length L -> s = ssum (map wt (lf v)).
  Proof.
    intros [[Hv ->]|(i & r & -> & Hi & ->)] Hl.
    - rewrite lv_sample by auto. simpl. now rewrite sadd_0_r.
    - destruct (HS i r Hi) as (xs & Hn & Hx & ->). apply ssum_perm, Permutation_map.
      apply NoDup_Permutation; auto using lf_NoDup.
      intro x. rewrite Hx. apply under_lv, HD.
  Qed.

  Lemma weight_inj v s t : weight v s -> weight v t -> s = t.
  Proof.
    intros [[Hv ->]|(i & r & -> & Hi & ->)] [[Hv' ->]|(j & q & E & Hj & ->)]; auto; try lia.
    replace j with i in Hj by lia. congruence.
  Qed.

  Lemma weight_ex v : v < n + length L -> exists s, weight v s.
  Proof.
    intro H. destruct (Nat.lt_ge_cases v n).
    - exists (wt v). left. auto.
    - destruct (nth_error L (v - n)) as [r|] eqn:E.
      + exists (l_n r). right. exists (v - n), r. split; [lia|auto].
      + apply nth_error_None in E. lia.
  Qed.

  Lemma big_node v : v < n + length L -> big v -> n <= v.
  Proof.
    intros H (s & Hs & Hm). destruct (Nat.lt_ge_cases v n) as [Hv|]; auto.
    rewrite (weight_inj v s (wt v)) in Hm; auto. { rewrite Hsamples in Hm; [discriminate|auto]. }
    left. auto.
  Qed.

  Lemma child_height i r j q : nth_error L i = Some r -> nth_error L j = Some q ->
    n + j = l_a r \/ n + j = l_b r -> wle (lam (l_d r)) (lam (l_d q)) = true.
  Proof.
    intros Hi Hj Hc. apply Hlam. pose proof (HD _ _ Hi) as [H1 H2].
    assert (Hji : j < i) by (destruct Hc; lia).
    unfold heights_sorted in HH. clear - HH Hi Hj Hji. revert L HH Hi Hj.
    revert i Hji. induction j as [|j IH]; intros i Hji M HM Hi Hj.
    - destruct M as [|x M]; [discriminate|]. injection Hj as ->. destruct i as [|i]; [lia|].
      simpl in *. inversion_clear HM as [|? ? _ H]. rewrite Forall_forall in H. apply H.
      apply in_map. eapply nth_error_In; eauto.
    - destruct M as [|x M]; [discriminate|]. destruct i as [|i]; [lia|]. simpl in *.
      inversion_clear HM as [|? ? H _]. apply (IH i ltac:(lia) M); auto.
  Qed.

  (** ** The frontier *)
  (** (node, owner, bound on the lambdas above). *)
  Definition fitem : Type := nat * nat * V.
  Definition fnode (f : fitem) : nat := fst (fst f).
  Definition fown (f : fitem) : nat := snd (fst f).
  Definition fl (f : fitem) : V := snd f.

  Definition cap (F : list fitem) : nat := list_sum (map (fun f => 2 * (length (lf (fnode f)) - 1)) F).

  Definition pairs (T : list (crow V Sz)) (F : list fitem) (c d : nat) : Prop :=
    (exists r, In r T /\ c_parent r = c /\ c_child r = d) \/
    (exists f, In f F /\ fown f = c /\ In d (lf (fnode f))).

  Record J (T : list (crow V Sz)) (s : nat) (top : nat -> nat) (F : list fitem) : Prop := {
    J_perm : Permutation (map c_child (sample_rows n T) ++ flat_map (fun f => lf (fnode f)) F) (seq 0 n);
    J_ids : map c_child (cluster_rows n T) = seq (n + 1) (2 * s);
    J_pairs : forall j r q, nth_error (cluster_rows n T) (2 * j) = Some r ->
             nth_error (cluster_rows n T) (2 * j + 1) = Some q ->
             c_parent r = c_parent q /\ c_lam r = c_lam q;
    J_order : forall T1 r T2, T = T1 ++ r :: T2 ->
             c_parent r = n \/ (n < c_parent r /\ exists q, In q T1 /\ c_child q = c_parent r);
    J_own : forall f, In f F -> fown f = n \/ (n < fown f /\ exists q, In q T /\ c_child q = fown f);
    J_lam : forall r q, In r T -> In q T -> n <= c_child r -> c_parent q = c_child r ->
              wle (c_lam r) (c_lam q) = true;
    J_lamF : forall f r, In f F -> In r T -> c_child r = fown f -> wle (c_lam r) (fl f) = true;
    J_lamv : forall f i r, In f F -> fnode f = n + i -> nth_error L i = Some r -> wle (fl f) (lam (l_d r)) = true;
    J_ssize : forall r, In r T -> c_child r < n -> c_size r = sone;
    J_range : forall f, In f F -> fnode f < n + length L;
    J_seg : forall f, In f F -> seg (top (fown f)) (fnode f);
    J_top : top n = 2 * n - 2;
    J_below : forall c x, is_cluster n T c -> (bel n (pairs T F) c x <-> In x (lf (top c)));
    J_fs : forall q, In q T -> c_child q < n ->
         exists i r v, seg (top (c_parent q)) (n + i) /\ nth_error L i = Some r /\
           c_lam q = lam (l_d r) /\ (v = l_a r \/ v = l_b r) /\ little v /\ In (c_child q) (lf v);
    J_fc : forall q, In q T -> n <= c_child q ->
         exists i r, seg (top (c_parent q)) (n + i) /\ nth_error L i = Some r /\ split r /\
           c_lam q = lam (l_d r) /\ (top (c_child q) = l_a r \/ top (c_child q) = l_b r) /\
           weight (top (c_child q)) (c_size q);
    J_cap : length T + cap F <= 2 * (n - 1);
    J_once : mx = None ->
      NoDup (map fown F) /\
      (forall f r, In f F -> In r (cluster_rows n T) -> c_parent r <> fown f) /\
      splits_once n T;
    J_asc : mx = None ->
      (forall f q, In f F -> In q T -> c_parent q = fown f -> wle (c_lam q) (fl f) = true) /\
      ascending T
  }.

  Lemma J_perm_F T s top F G : Permutation F G -> J T s top F -> J T s top G.
  Proof.
    intros HP [].
    assert (Hin : forall f, In f G -> In f F) by (intro; apply Permutation_in; now apply Permutation_sym).
    constructor; auto.
    - rewrite <- J_perm0. apply Permutation_app_head. apply Permutation_flat_map. now apply Permutation_sym.
    - intros f i r Hf. apply J_lamv0. auto.
    - intros c x Hc. rewrite <- J_below0 by auto. split; apply bel_mono; intros a b [H|(f & Hf & H)];
        [left|right|left|right]; auto; exists f; split; auto. now apply (Permutation_in _ HP).
    - assert (E : cap G = cap F). { unfold cap. clear - HP. induction HP; simpl in *; lia. } lia.
    - intro E. destruct (J_once0 E) as (H1 & H2 & H3). split; [|split; auto].
      now rewrite <- HP.
    - intro E. destruct (J_asc0 E) as (H1 & H2). split; auto.
  Qed.

  Lemma cluster_range (T : list (crow V Sz)) s c : map c_child (cluster_rows n T) = seq (n + 1) (2 * s) ->
    is_cluster n T c -> n <= c < n + 1 + 2 * s.
  Proof.
    intros E [->|(H1 & r & Hr & <-)]; [lia|].
    assert (H : In (c_child r) (map c_child (cluster_rows n T))).
    { apply in_map. apply filter_In. split; auto. now apply Nat.leb_le. }
    rewrite E in H. apply in_seq in H. lia.
  Qed.

  Lemma parent_cluster (T : list (crow V Sz)) r : (forall T1 r T2, T = T1 ++ r :: T2 ->
             c_parent r = n \/ (n < c_parent r /\ exists q, In q T1 /\ c_child q = c_parent r)) ->
    In r T -> is_cluster n T (c_parent r).
  Proof.
    intros HO Hr. apply in_split in Hr as (T1 & T2 & E).
    destruct (HO _ _ _ E) as [H|(H & q & Hq & Hc)]; [left; auto|].
    right. split; [lia|]. exists q. split; auto. rewrite E. apply in_or_app. auto.
  Qed.

  Lemma cluster_rows_app (T U : list (crow V Sz)) : cluster_rows n (T ++ U) = cluster_rows n T ++ cluster_rows n U.
  Proof. apply filter_app. Qed.
  Lemma sample_rows_app (T U : list (crow V Sz)) : sample_rows n (T ++ U) = sample_rows n T ++ sample_rows n U.
  Proof. apply filter_app. Qed.

  Definition prows (c : nat) (l : V) (xs : list nat) : list (crow V Sz) :=
    map (fun x => point_row c x l) xs.

  Lemma prows_cluster c l xs : (forall x, In x xs -> x < n) -> cluster_rows n (prows c l xs) = [].
  Proof.
    induction xs as [|x xs IH]; intro H; simpl; auto.
    rewrite (proj2 (Nat.leb_gt n x)) by (apply H; simpl; auto). apply IH. intros; apply H; simpl; auto.
  Qed.
  Lemma prows_sample c l xs : (forall x, In x xs -> x < n) -> map c_child (sample_rows n (prows c l xs)) = xs.
  Proof.
    induction xs as [|x xs IH]; intro H; simpl; auto.
    rewrite (proj2 (Nat.ltb_lt x n)) by (apply H; simpl; auto). simpl. f_equal. apply IH. intros; apply H; simpl; auto.
  Qed.

  Lemma order_app (T U : list (crow V Sz)) (ok : list (crow V Sz) -> crow V Sz -> Prop) :
    (forall T1 r T2, T = T1 ++ r :: T2 -> ok T1 r) ->
    (forall U1 r U2, U = U1 ++ r :: U2 -> ok (T ++ U1) r) ->
    forall T1 r T2, T ++ U = T1 ++ r :: T2 -> ok T1 r.
  Proof.
    intros H1 H2 T1 r T2 E. apply app_decompose in E as [(k & E1 & _)|(k & E1 & ->)]; eauto.
  Qed.

  Lemma cap_app F G : cap (F ++ G) = cap F + cap G.
  Proof. unfold cap. rewrite map_app, list_sum_app. auto. Qed.

  Definition total (vs : list nat) : nat := length (flat_map lf vs).

  Lemma cap_keep c l K : (forall v, In v K -> v < n + length L) ->
    cap (map (fun k => (k, c, l)) K) + 2 * length K = 2 * total K.
  Proof.
    unfold cap, total. induction K as [|k K IH]; intro H; auto.
    cbn [map list_sum fold_right flat_map length]. rewrite app_length.
    assert (1 <= length (lf k)) by (apply lf_len, H; simpl; auto).
    unfold fnode at 1. cbn [fst snd]. 
    assert (IH' := IH (fun v Hv => H v (or_intror Hv))). unfold list_sum in IH'. lia.
  Qed.

  Lemma total_len D : (forall v, In v D -> v < n + length L) -> length D <= total D.
  Proof.
    unfold total. induction D as [|k D IH]; intro H; simpl; auto.
    rewrite app_length. assert (1 <= length (lf k)) by (apply lf_len, H; simpl; auto).
    specialize (IH (fun v Hv => H v (or_intror Hv))). lia.
  Qed.

  (** A merge that does not split its cluster. *)
  Lemma J_move T s top i r c l0 F D K xs : J T s top ((n + i, c, l0) :: F) ->
    nth_error L i = Some r -> Permutation (D ++ K) [l_a r; l_b r] ->
    (forall d, In d D -> little d) -> (forall k, In k K -> big k) -> (K <> [] -> ~ split r) ->
    Permutation xs (flat_map lf D) ->
    J (T ++ prows c (lam (l_d r)) xs) s top (map (fun k => (k, c, lam (l_d r))) K ++ F).
  Proof.
    intros HJ Hi HP HsD HbK Hns Hxs.
    assert (Hch : forall v, In v (D ++ K) -> (v = l_a r \/ v = l_b r) /\ v < n + length L).
    { intros v Hv. apply (Permutation_in _ HP) in Hv. pose proof (HD _ _ Hi).
      assert (i < length L) by (apply nth_error_Some; congruence).
      simpl in Hv. destruct Hv as [<-|[<-|[]]]; split; auto; lia. }
    assert (HlD : forall v, In v D -> v < n + length L) by (intros; apply Hch, in_or_app; auto).
    assert (HlK : forall v, In v K -> v < n + length L) by (intros; apply Hch, in_or_app; auto).
    assert (Hxn : forall x, In x xs -> x < n).
    { intros x Hx. apply (Permutation_in _ Hxs) in Hx. apply in_flat_map in Hx as (v & _ & Hx).
      eapply lv_range; eauto. }
    assert (Hlf : Permutation (lf (n + i)) (flat_map lf (D ++ K))).
    { rewrite (lv_node _ _ _ _ HD Hi). rewrite (Permutation_flat_map lf HP). simpl. now rewrite app_nil_r. }
    destruct HJ.
    assert (Hown := J_own0 _ (or_introl eq_refl)). cbn [fown fst snd] in Hown.
    assert (Hfown : forall k, fown (k, c, lam (l_d r)) = c) by reflexivity.
    assert (HinK : forall f, In f (map (fun k => (k, c, lam (l_d r))) K ++ F) ->
               (exists k, In k K /\ f = (k, c, lam (l_d r))) \/ In f F).
    { intros f Hf. apply in_app_iff in Hf as [Hf|Hf]; auto. apply in_map_iff in Hf as (k & <- & Hk). eauto. }
    assert (Hpr : forall q, In q (prows c (lam (l_d r)) xs) ->
               c_parent q = c /\ c_lam q = lam (l_d r) /\ c_size q = sone /\ In (c_child q) xs).
    { intros q Hq. apply in_map_iff in Hq as (x & <- & Hx). simpl. auto. }
    assert (Hll : wle l0 (lam (l_d r)) = true).
    { apply (J_lamv0 (n + i, c, l0) i r); simpl; auto. }
    assert (Hsegc : seg (top c) (n + i)) by (apply (J_seg0 (n + i, c, l0)); simpl; auto).
    constructor.
    - rewrite sample_rows_app, map_app, prows_sample by auto.
      rewrite <- J_perm0. cbn [flat_map]. unfold fnode at 3. cbn [fst].
      rewrite <- app_assoc. apply Permutation_app_head. rewrite Hlf, flat_map_app, Hxs.
      rewrite flat_map_app, <- app_assoc. apply Permutation_app_head. apply Permutation_app_tail.
      clear. induction K; simpl; auto. now apply Permutation_app_head.
    - now rewrite cluster_rows_app, prows_cluster, app_nil_r.
    - rewrite cluster_rows_app, prows_cluster, app_nil_r by auto. auto.
    - intros T1 q T2. apply order_app with (T := T) (U := prows c (lam (l_d r)) xs)
        (ok := fun T1 r => c_parent r = n \/ (n < c_parent r /\ exists q, In q T1 /\ c_child q = c_parent r)).
      + intros; eapply J_order0; eauto.
      + intros U1 u U2 E. destruct (Hpr u) as (-> & _). { rewrite E. apply in_elt. }
        destruct Hown as [->|(H1 & w & Hw & Hc)]; auto. right. split; auto.
        exists w. split; auto. apply in_or_app. auto.
    - intros f Hf. apply HinK in Hf as [(k & Hk & ->)|Hf].
      + rewrite Hfown. destruct Hown as [->|(H1 & w & Hw & Hc)]; auto. right. split; auto.
        exists w. split; auto. apply in_or_app. auto.
      + destruct (J_own0 f (or_intror Hf)) as [H|(H1 & w & Hw & Hc)]; auto. right. split; auto.
        exists w. split; auto. apply in_or_app. auto.
    - intros q u Hq Hu Hn E. apply in_app_iff in Hq as [Hq|Hq].
      + apply in_app_iff in Hu as [Hu|Hu]; auto. destruct (Hpr u Hu) as (E1 & -> & _).
        apply wle_trans with l0; auto. apply (J_lamF0 (n + i, c, l0)); simpl; auto. unfold fown; simpl. congruence.
      + destruct (Hpr q Hq) as (_ & _ & _ & Hx). specialize (Hxn _ Hx). lia.
    - intros f q Hf Hq E.
      assert (Hq' : In q T).
      { apply in_app_iff in Hq as [Hq|Hq]; auto. destruct (Hpr q Hq) as (_ & _ & _ & Hx).
        specialize (Hxn _ Hx). exfalso.
        apply HinK in Hf as [(k & Hk & ->)|Hf].
        - rewrite Hfown in E. destruct Hown as [|[]]; lia.
        - destruct (J_own0 f (or_intror Hf)) as [|[]]; lia. }
      apply HinK in Hf as [(k & Hk & ->)|Hf].
      + unfold fl. simpl. apply wle_trans with l0; auto. apply (J_lamF0 (n + i, c, l0)); simpl; auto.
      + apply J_lamF0; simpl; auto.
    - intros f j q Hf Ej Hj. apply HinK in Hf as [(k & Hk & ->)|Hf].
      + unfold fl, fnode in *. simpl in *. destruct (Hch k) as [Hkk _]; [apply in_or_app; auto|].
        apply (child_height i r j q); auto. destruct Hkk; [left|right]; congruence.
      + eapply (J_lamv0 f j q); simpl; auto.
    - intros q Hq Hc. apply in_app_iff in Hq as [Hq|Hq]; auto. now destruct (Hpr q Hq) as (_ & _ & -> & _).
    - intros f Hf. apply HinK in Hf as [(k & Hk & ->)|Hf]; [apply HlK; auto|apply J_range0; simpl; auto].
    - intros f Hf. apply HinK in Hf as [(k & Hk & ->)|Hf]; [|apply J_seg0; simpl; auto].
      unfold fown, fnode. simpl. apply (seg_step n L wt mcs mx _ i r k); auto.
      + apply Hns. intro; subst; destruct Hk.
      + apply Hch, in_or_app; auto.
    - auto.
    - intros c' x Hc'. assert (Hc'' : is_cluster n T c').
      { destruct Hc' as [H|(H1 & q & Hq & E)]; [left; auto|]. right. split; auto. exists q.
        split; auto. apply in_app_iff in Hq as [Hq|Hq]; auto. destruct (Hpr q Hq) as (_ & _ & _ & Hx).
        specialize (Hxn _ Hx). lia. }
      rewrite <- (J_below0 c' x Hc''). split; apply bel_mono; intros a b.
      + intros [(q & Hq & E1 & E2)|(f & Hf & E1 & E2)].
        * apply in_app_iff in Hq as [Hq|Hq].
          -- left. eauto.
          -- destruct (Hpr q Hq) as (E3 & _ & _ & Hx). right. exists (n + i, c, l0).
             split; [simpl; auto|]. split; [unfold fown; simpl; congruence|].
             unfold fnode. simpl. apply (Permutation_in _ (Permutation_sym Hlf)). rewrite flat_map_app.
             apply in_or_app. left. apply (Permutation_in _ Hxs). congruence.
        * apply HinK in Hf as [(k & Hk & ->)|Hf].
          -- right. exists (n + i, c, l0).
             split; [simpl; auto|]. split; [auto|].
             unfold fnode. simpl. apply (Permutation_in _ (Permutation_sym Hlf)). rewrite flat_map_app.
             apply in_or_app. right. apply in_flat_map. exists k. auto.
          -- right. exists f. simpl; auto.
      + intros [(q & Hq & E1 & E2)|(f & Hf & E1 & E2)].
        * left. exists q. split; auto. apply in_or_app; auto.
        * destruct Hf as [<-|Hf].
          -- unfold fown, fnode in *. simpl in E1, E2. subst a.
             apply (Permutation_in _ Hlf) in E2. rewrite flat_map_app in E2.
             apply in_app_iff in E2 as [E2|E2].
             ++ left. exists (point_row c b (lam (l_d r))). split; [|simpl; auto].
                apply in_or_app. right. apply in_map_iff. exists b. split; auto.
                apply (Permutation_in _ (Permutation_sym Hxs)); auto.
             ++ right. apply in_flat_map in E2 as (k & Hk & E2). exists (k, c, lam (l_d r)).
                split; [apply in_or_app; left; apply in_map_iff; eauto|]. auto.
          -- right. exists f. split; auto. apply in_or_app; auto.
    - intros q Hq Hc. apply in_app_iff in Hq as [Hq|Hq]; auto. destruct (Hpr q Hq) as (-> & -> & _ & Hx).
      apply (Permutation_in _ Hxs) in Hx. apply in_flat_map in Hx as (v & Hv & Hx).
      exists i, r, v. split; auto. split; auto. split; auto. split; [apply Hch, in_or_app; auto|]. auto.
    - intros q Hq Hc. apply in_app_iff in Hq as [Hq|Hq]; auto. destruct (Hpr q Hq) as (_ & _ & _ & Hx).
      specialize (Hxn _ Hx). lia.
    - rewrite app_length, cap_app. unfold prows. rewrite map_length.
      assert (E1 : length xs = total D) by (unfold total; now rewrite (Permutation_length Hxs)).
      pose proof (cap_keep c (lam (l_d r)) K HlK) as E2.
      pose proof (total_len D HlD) as E3.
      assert (E4 : length D + length K = 2).
      { rewrite <- app_length. now rewrite (Permutation_length HP). }
      assert (E5 : length (lf (n + i)) = total D + total K).
      { rewrite (Permutation_length Hlf), flat_map_app, app_length. reflexivity. }
      unfold cap in J_cap0. cbn [map list_sum fold_right] in J_cap0. fold (list_sum) in J_cap0.
      unfold fnode at 1 in J_cap0. cbn [fst] in J_cap0.
      change (length T + (2 * (length (lf (n + i)) - 1) + cap F) <= 2 * (n - 1)) in J_cap0.
      lia.
    - intro Emx. destruct (J_once0 Emx) as (H1 & H2 & H3).
      assert (HK : length K <= 1).
      { destruct K as [|k1 [|k2 K]]; simpl; try lia. exfalso.
        apply (Hns ltac:(discriminate)).
        assert (D = [] /\ K = []) as [-> ->].
        { pose proof (Permutation_length HP) as E. rewrite app_length in E. simpl in E.
          split; [destruct D|destruct K]; simpl in *; auto; lia. }
        simpl in HP. apply Permutation_length_2_inv in HP.
        assert (big k1 /\ big k2) as [B1 B2] by (split; apply HbK; simpl; auto).
        split; [|split].
        - destruct HP as [E|E]; injection E; intros; subst k1 k2; auto.
        - destruct HP as [E|E]; injection E; intros; subst k1 k2; auto.
        - intros [(? & ? & _ & E & _) _]. congruence. }
      rewrite cluster_rows_app, prows_cluster, app_nil_r by auto.
      split; [|split].
      + rewrite map_app. destruct K as [|k [|? ?]]; simpl in *; try lia; auto. now inversion H1.
      + intros f q Hf Hq. apply HinK in Hf as [(k & Hk & ->)|Hf].
        * rewrite Hfown. apply (H2 (n + i, c, l0)); simpl; auto.
        * apply H2; simpl; auto.
      + unfold splits_once. now rewrite cluster_rows_app, prows_cluster, app_nil_r.
    - intro Emx. destruct (J_once0 Emx) as (H1 & _). destruct (J_asc0 Emx) as (A1 & A2).
      cbn [map] in H1. unfold fown at 1 in H1. cbn [fst snd] in H1. inversion_clear H1 as [|? ? Hn1 Hn2].
      assert (HcT : forall q, In q T -> c_parent q = c -> wle (c_lam q) (lam (l_d r)) = true).
      { intros q Hq E. apply wle_trans with l0; auto. apply (A1 (n + i, c, l0)); simpl; auto. }
      split.
      + intros f q Hf Hq E. apply HinK in Hf as [(k & Hk & ->)|Hf].
        * rewrite Hfown in E. apply in_app_iff in Hq as [Hq|Hq]; [exact (HcT q Hq E)|].
          destruct (Hpr q Hq) as (_ & -> & _). apply wle_refl.
        * apply in_app_iff in Hq as [Hq|Hq]; [apply A1; simpl; auto|].
          exfalso. apply Hn1. destruct (Hpr q Hq) as (Ec & _). rewrite <- Ec, E. now apply in_map.
      + refine (order_app T (prows c (lam (l_d r)) xs) (fun T1 r => forall q, In q T1 -> c_parent q = c_parent r -> wle (c_lam q) (c_lam r) = true) _ _).
        * exact A2.
        * intros U1 u U2 E w Hw Ep. destruct (Hpr u) as (Eu & -> & _). { rewrite E. apply in_elt. }
          rewrite Eu in Ep. apply in_app_iff in Hw as [Hw|Hw]; auto.
          destruct (Hpr w) as (_ & -> & _); [rewrite E; apply in_or_app; auto|]. apply wle_refl.
  Qed.

  Lemma nth_error_even {A} (l : list A) s x y j z : length l = 2 * s ->
    nth_error (l ++ [x; y]) (2 * j) = Some z -> (j < s /\ nth_error l (2 * j) = Some z) \/ (j = s /\ z = x).
  Proof.
    intros Hl H. destruct (Nat.lt_ge_cases (2 * j) (length l)).
    - left. rewrite nth_error_app1 in H by auto. split; [lia|auto].
    - right. rewrite nth_error_app2 in H by auto.
      destruct (Nat.eq_dec j s) as [->|Hn].
      + rewrite Hl, Nat.sub_diag in H. simpl in H. split; congruence.
      + replace (2 * j - length l) with (2 + (2 * (j - s) - 2)) in H by lia. simpl in H.
        destruct (j - s + (j - s + 0) - 2); discriminate.
  Qed.
  Lemma nth_error_odd {A} (l : list A) s x y j z : length l = 2 * s ->
    nth_error (l ++ [x; y]) (2 * j + 1) = Some z -> (j < s /\ nth_error l (2 * j + 1) = Some z) \/ (j = s /\ z = y).
  Proof.
    intros Hl H. destruct (Nat.lt_ge_cases (2 * j + 1) (length l)).
    - left. rewrite nth_error_app1 in H by auto. split; [lia|auto].
    - right. rewrite nth_error_app2 in H by auto.
      destruct (Nat.eq_dec j s) as [->|Hn].
      + replace (2 * s + 1 - length l) with 1 in H by lia. simpl in H. split; congruence.
      + exfalso. set (k := 2 * j + 1 - length l) in H. assert (2 <= k) by (unfold k; lia).
        destruct k as [|[|k]]; simpl in H; try lia. destruct k; discriminate.
  Qed.

  Definition crow_of (c d : nat) (l : V) (sz : Sz) : crow V Sz :=
    {| c_parent := c; c_child := d; c_lam := l; c_size := sz |}.

  (** A merge that splits its cluster. *)
  Lemma J_split T s top i r c l0 F sa sb : J T s top ((n + i, c, l0) :: F) ->
    nth_error L i = Some r -> split r -> weight (l_a r) sa -> weight (l_b r) sb ->
    J (T ++ [crow_of c (n + 1 + 2 * s) (lam (l_d r)) sa; crow_of c (n + 1 + 2 * s + 1) (lam (l_d r)) sb])
      (S s) (upd (upd top (n + 1 + 2 * s) (l_a r)) (n + 1 + 2 * s + 1) (l_b r))
      ((l_a r, n + 1 + 2 * s, lam (l_d r)) :: (l_b r, n + 1 + 2 * s + 1, lam (l_d r)) :: F).
  Proof.
    intros HJ Hi Hsp Hsa Hsb. set (l := lam (l_d r)) in *.
    set (c1 := n + 1 + 2 * s) in *. set (c2 := c1 + 1) in *.
    set (top' := upd (upd top c1 (l_a r)) c2 (l_b r)) in *.
    set (r1 := crow_of c c1 l sa). set (r2 := crow_of c c2 l sb).
    pose proof (HD _ _ Hi) as [Hab Hbb].
    assert (Hil : i < length L) by (apply nth_error_Some; congruence).
    assert (Hla : l_a r < n + length L) by lia. assert (Hlb : l_b r < n + length L) by lia.
    assert (Hlf : lf (n + i) = lf (l_a r) ++ lf (l_b r)) by exact (lv_node _ _ _ _ HD Hi).
    destruct HJ.
    set (f0 := (n + i, c, l0) : fitem) in *.
    assert (Hown : is_cluster n T c).
    { destruct (J_own0 f0 (or_introl eq_refl)) as [H|(H1 & w & Hw & Hc)]; [left; auto|].
      right. unfold f0, fown in *; simpl in *. split; [lia|]. exists w. auto. }
    assert (HownF : forall f, In f F -> is_cluster n T (fown f)).
    { intros f Hf. destruct (J_own0 f (or_intror Hf)) as [H|(H1 & w & Hw & Hc)]; [left; auto|].
      right. split; [lia|]. exists w. auto. }
    assert (Hr : forall d, is_cluster n T d -> n <= d < c1) by (intros d Hd; exact (cluster_range T s d J_ids0 Hd)).
    assert (Hpar : forall q, In q T -> is_cluster n T (c_parent q)) by (intros; apply parent_cluster; auto).
    assert (Htop : forall d, d < c1 -> top' d = top d).
    { intros d Hd. unfold top'. rewrite !upd_neq by (unfold c2; lia). auto. }
    assert (Ht1 : top' c1 = l_a r). { unfold top'. rewrite upd_neq, upd_eq by (unfold c2; lia). auto. }
    assert (Ht2 : top' c2 = l_b r). { unfold top'. now rewrite upd_eq. }
    assert (Hc1 : n < c1) by (unfold c1; lia). assert (Hc2 : c1 < c2) by (unfold c2; lia).
    assert (Hcb := Hr c Hown).
    assert (Hll : wle l0 l = true) by (apply (J_lamv0 f0 i r); simpl; auto).
    assert (Hsegc : seg (top c) (n + i)) by (apply (J_seg0 f0); simpl; auto).
    assert (Ecr : cluster_rows n (T ++ [r1; r2]) = cluster_rows n T ++ [r1; r2]).
    { rewrite cluster_rows_app. f_equal. unfold cluster_rows, r1, r2. cbn [filter c_child crow_of].
      rewrite (proj2 (Nat.leb_le n c1)), (proj2 (Nat.leb_le n c2)) by lia. auto. }
    assert (Esr : sample_rows n (T ++ [r1; r2]) = sample_rows n T).
    { rewrite sample_rows_app. unfold sample_rows at 2, r1, r2. cbn [filter c_child crow_of].
      rewrite (proj2 (Nat.ltb_ge c1 n)), (proj2 (Nat.ltb_ge c2 n)) by lia. now rewrite app_nil_r. }
    assert (Elen : length (cluster_rows n T) = 2 * s).
    { rewrite <- (map_length c_child), J_ids0. apply seq_length. }
    assert (HinT : forall q, In q (T ++ [r1; r2]) -> In q T \/ q = r1 \/ q = r2).
    { intros q Hq. apply in_app_iff in Hq as [?|[?|[?|[]]]]; auto. }
    assert (Hold : forall q, In q T -> n <= c_child q -> c_child q < c1).
    { intros q Hq Hn. apply Hr. right. split; eauto. }
    assert (Hin1 : In r1 (T ++ [r1; r2])) by (apply in_or_app; simpl; auto).
    assert (Hin2 : In r2 (T ++ [r1; r2])) by (apply in_or_app; simpl; auto).
    assert (Hio : forall q, In q T -> In q (T ++ [r1; r2])) by (intros; apply in_or_app; auto).
    constructor.
    - rewrite Esr, <- J_perm0. apply Permutation_app_head. cbn [flat_map]. unfold f0, fnode at 1 2 4. cbn [fst].
      rewrite Hlf, <- app_assoc. auto.
    - rewrite Ecr, map_app, J_ids0. cbn [map c_child crow_of r1 r2].
      replace (2 * S s) with (2 * s + 2) by lia. rewrite seq_app. f_equal. simpl. unfold c2, c1.
      repeat (f_equal; try lia).
    - rewrite Ecr. intros j x y Hx Hy.
      destruct (nth_error_even _ _ _ _ _ _ Elen Hx) as [[H1 H2]|[H1 ->]];
        destruct (nth_error_odd _ _ _ _ _ _ Elen Hy) as [[H3 H4]|[H3 ->]]; try lia; eauto.
    - intros T1 q T2. apply order_app with (T := T) (U := [r1; r2])
        (ok := fun T1 r => c_parent r = n \/ (n < c_parent r /\ exists q, In q T1 /\ c_child q = c_parent r)).
      + intros; eapply J_order0; eauto.
      + intros U1 u U2 E. assert (c_parent u = c) as ->.
        { assert (Hu : In u [r1; r2]) by (rewrite E; apply in_elt). destruct Hu as [<-|[<-|[]]]; auto. }
        destruct (J_own0 f0 (or_introl eq_refl)) as [H|(H1 & w & Hw & Hc)]; auto. right. split; auto.
        exists w. split; auto. apply in_or_app. auto.
    - intros f [<-|[<-|Hf]].
      + right. unfold fown. simpl. split; [lia|]. exists r1. auto.
      + right. unfold fown. simpl. split; [lia|]. exists r2. auto.
      + destruct (J_own0 f (or_intror Hf)) as [H|(H1 & w & Hw & Hc)]; auto. right. split; auto.
        exists w. auto.
    - intros q u Hq Hu Hn E. assert (Hpu : c_parent u < c1).
      { apply HinT in Hu as [Hu|[->| ->]]; simpl; [apply Hr; auto|lia|lia]. }
      apply HinT in Hq as [Hq|[->| ->]]; [|simpl in *; lia|simpl in *; lia].
      apply HinT in Hu as [Hu|[->| ->]]; auto; simpl in *; apply wle_trans with l0; auto;
        apply (J_lamF0 f0); simpl; auto.
    - intros f q Hf Hq E. destruct Hf as [<-|[<-|Hf]]; unfold fown, fl in *; cbn [fst snd] in *.
      + apply HinT in Hq as [Hq|[->| ->]]; [|apply wle_refl|simpl in E; lia].
        specialize (Hold q Hq). lia.
      + apply HinT in Hq as [Hq|[->| ->]]; [|simpl in E; lia|apply wle_refl].
        specialize (Hold q Hq). lia.
      + pose proof (Hr _ (HownF f Hf)) as Hof. unfold fown in Hof.
        apply HinT in Hq as [Hq|[->| ->]]; [|simpl in E; lia|simpl in E; lia].
        apply J_lamF0; simpl; auto.
    - intros f j q Hf Ej Hj. destruct Hf as [<-|[<-|Hf]].
      + apply (child_height i r j q); auto.
      + apply (child_height i r j q); auto.
      + eapply (J_lamv0 f j q); simpl; auto.
    - intros q Hq Hc. apply HinT in Hq as [Hq|[->| ->]]; auto; simpl in Hc; lia.
    - intros f [<-|[<-|Hf]]; auto. apply J_range0. simpl; auto.
    - intros f [<-|[<-|Hf]]; unfold fown, fnode; cbn [fst snd].
      + rewrite Ht1. constructor.
      + rewrite Ht2. constructor.
      + rewrite Htop by (apply Hr, HownF; auto). apply J_seg0. simpl; auto.
    - rewrite Htop; auto.
    - set (P := pairs T (f0 :: F)). set (P' := pairs (T ++ [r1; r2]) _).
      assert (HP1 : forall d, P' c1 d -> In d (lf (l_a r))).
      { intros d [(q & Hq & E1 & E2)|(f & Hf & E1 & E2)].
        - apply HinT in Hq as [Hq|[->| ->]]; [|simpl in E1; lia|simpl in E1; lia].
          specialize (Hr _ (Hpar q Hq)). lia.
        - destruct Hf as [<-|[<-|Hf]]; auto.
          + unfold fown in E1. simpl in E1. lia.
          + specialize (Hr _ (HownF f Hf)). lia. }
      assert (HP2 : forall d, P' c2 d -> In d (lf (l_b r))).
      { intros d [(q & Hq & E1 & E2)|(f & Hf & E1 & E2)].
        - apply HinT in Hq as [Hq|[->| ->]]; [|simpl in E1; lia|simpl in E1; lia].
          specialize (Hr _ (Hpar q Hq)). lia.
        - destruct Hf as [<-|[<-|Hf]]; auto.
          + unfold fown in E1. simpl in E1. lia.
          + specialize (Hr _ (HownF f Hf)). lia. }
      assert (HP3 : forall e d, P' e d -> e < c1 -> P e d \/ (e = c /\ (d = c1 \/ d = c2))).
      { intros e d [(q & Hq & E1 & E2)|(f & Hf & E1 & E2)] He.
        - apply HinT in Hq as [Hq|[->| ->]]; [left; left; eauto| |]; simpl in *; auto.
        - destruct Hf as [<-|[<-|Hf]]; [unfold fown in E1; simpl in E1; lia|unfold fown in E1; simpl in E1; lia|].
          left. right. exists f. simpl; auto. }
      assert (HP4 : forall d, In d (lf (l_a r)) -> P' c1 d).
      { intros d Hd. right. exists (l_a r, c1, l). simpl; auto. }
      assert (HP5 : forall d, In d (lf (l_b r)) -> P' c2 d).
      { intros d Hd. right. exists (l_b r, c2, l). simpl; auto. }
      assert (HP6 : P' c c1) by (left; exists r1; auto).
      assert (HP7 : P' c c2) by (left; exists r2; auto).
      assert (HPo : forall e d, P e d -> P' e d \/ (e = c /\ In d (lf (n + i)))).
      { intros e d [(q & Hq & E1 & E2)|(f & Hf & E1 & E2)]; [left; left; eauto|].
        destruct Hf as [<-|Hf]; auto. left. right. exists f. simpl; auto. }
      assert (Hb1 : forall x, bel n P' c1 x <-> In x (lf (l_a r))).
      { intro x. split.
        - inversion 1; subst; auto. exfalso.
          match goal with H : P' c1 _ |- _ => apply HP1, lv_range in H end. lia.
        - intro Hx. apply bel_here; auto. eapply lv_range; eauto. }
      assert (Hb2 : forall x, bel n P' c2 x <-> In x (lf (l_b r))).
      { intro x. split.
        - inversion 1; subst; auto. exfalso.
          match goal with H : P' c2 _ |- _ => apply HP2, lv_range in H end. lia.
        - intro Hx. apply bel_here; auto. eapply lv_range; eauto. }
      assert (Hold1 : forall e x, bel n P e x -> bel n P' e x).
      { intros e x. induction 1 as [e x Hp Hx|e d x Hp Hd Hb IH].
        - destruct (HPo _ _ Hp) as [H|[-> H]]; [apply bel_here; auto|].
          rewrite Hlf in H. apply in_app_iff in H as [H|H].
          + apply (bel_deep n P' c c1 x); auto; [lia|now apply Hb1].
          + apply (bel_deep n P' c c2 x); auto; [lia|now apply Hb2].
        - destruct (HPo _ _ Hp) as [H|[-> H]].
          + apply (bel_deep n P' e d x); auto.
          + apply lv_range in H. lia. }
      assert (Hold2 : forall e x, bel n P' e x -> e < c1 -> bel n P e x).
      { intros e x. induction 1 as [e x Hp Hx|e d x Hp Hd Hb IH]; intro He.
        - destruct (HP3 _ _ Hp He) as [H|[-> [->| ->]]]; [apply bel_here; auto|lia|lia].
        - destruct (HP3 _ _ Hp He) as [H|[-> [->| ->]]].
          + apply (bel_deep n P e d x); auto. apply IH.
            destruct H as [(q & Hq & E1 & E2)|(f & Hf & E1 & E2)]; [|apply lv_range in E2; lia].
            subst d. apply Hold; auto.
          + apply Hb1 in Hb. apply bel_here; [|eapply lv_range; eauto].
            right. exists f0. split; [simpl; auto|]. split; auto. unfold f0, fnode. cbn [fst].
            rewrite Hlf. apply in_or_app. auto.
          + apply Hb2 in Hb. apply bel_here; [|eapply lv_range; eauto].
            right. exists f0. split; [simpl; auto|]. split; auto. unfold f0, fnode. cbn [fst].
            rewrite Hlf. apply in_or_app. auto. }
      intros e x He.
      assert (He' : is_cluster n T e \/ e = c1 \/ e = c2).
      { destruct He as [->|(H1 & q & Hq & E)]; [left; left; auto|].
        apply HinT in Hq as [Hq|[->| ->]]; auto. left. right. split; eauto. }
      destruct He' as [He'|[->| ->]].
      + rewrite Htop by (apply Hr; auto). rewrite <- (J_below0 e x He'). split; auto.
        intro H. apply Hold2; auto. apply Hr; auto.
      + now rewrite Ht1.
      + now rewrite Ht2.
    - intros q Hq Hc. apply HinT in Hq as [Hq|[->| ->]]; [|simpl in Hc; lia|simpl in Hc; lia].
      rewrite Htop by (apply Hr; auto). auto.
    - intros q Hq Hc. apply HinT in Hq as [Hq|[->| ->]].
      + rewrite !Htop by (try apply Hold; auto; apply Hr; auto). auto.
      + cbn [c_parent c_child c_lam c_size r1 crow_of]. rewrite Ht1, Htop by lia.
        exists i, r. repeat (split; [now auto|]). auto.
      + cbn [c_parent c_child c_lam c_size r2 crow_of]. rewrite Ht2, Htop by lia.
        exists i, r. repeat (split; [now auto|]). auto.
    - rewrite app_length. unfold cap in *. cbn [map list_sum fold_right length] in *.
      unfold f0 in J_cap0. unfold fnode at 1 2. unfold fnode at 1 in J_cap0. cbn [fst] in *.
      rewrite Hlf, app_length in J_cap0.
      pose proof (lf_len _ Hla). pose proof (lf_len _ Hlb). lia.
    - intro Emx. destruct (J_once0 Emx) as (H1 & H2 & H3). split; [|split].
      + cbn [map fown fst snd]. cbn [map] in H1. inversion_clear H1 as [|? ? Hn1 Hn2].
        assert (Hf : forall d, c1 <= d -> ~ In d (map fown F)).
        { intros d Hd Hin. apply in_map_iff in Hin as (f & E & Hf). specialize (Hr _ (HownF f Hf)). lia. }
        constructor; [|constructor]; auto.
        * simpl. intros [E|E]; [lia|]. revert E. apply Hf. auto.
        * apply Hf. lia.
      + rewrite Ecr. intros f q Hf Hq. apply in_app_iff in Hq as [Hq|Hq].
        * assert (HqT : In q T) by (apply filter_In in Hq; tauto). pose proof (Hr _ (Hpar q HqT)).
          destruct Hf as [<-|[<-|Hf]]; [unfold fown; simpl; lia|unfold fown; simpl; lia|].
          apply H2; simpl; auto.
        * assert (c_parent q = c) as -> by (destruct Hq as [<-|[<-|[]]]; auto).
          destruct Hf as [<-|[<-|Hf]]; [unfold fown; simpl; lia|unfold fown; simpl; lia|].
          intro E. cbn [map] in H1. inversion_clear H1 as [|? ? Hn1 Hn2]. apply Hn1.
          unfold f0. unfold fown at 1. cbn [fst snd]. rewrite E. now apply in_map.
      + unfold splits_once. rewrite Ecr. intros j k x y Hx Hy E.
        assert (Hno : forall m z, nth_error (cluster_rows n T) m = Some z -> c_parent z <> c).
        { intros m z Hz. apply (H2 f0); simpl; auto. eapply nth_error_In; eauto. }
        destruct (nth_error_even _ _ _ _ _ _ Elen Hx) as [[Ha1 Ha2]|[Ha1 ->]];
          destruct (nth_error_even _ _ _ _ _ _ Elen Hy) as [[Hb1 Hb2]|[Hb1 ->]]; try lia.
        * eapply H3; eauto.
        * exfalso. apply (Hno _ _ Ha2). auto.
        * exfalso. apply (Hno _ _ Hb2). auto.
    - intro Emx. destruct (J_once0 Emx) as (H1 & _). destruct (J_asc0 Emx) as (A1 & A2).
      cbn [map] in H1. inversion_clear H1 as [|? ? Hn1 Hn2].
      assert (HcT : forall q, In q T -> c_parent q = c -> wle (c_lam q) l = true).
      { intros q Hq E. apply wle_trans with l0; auto. apply (A1 f0); simpl; auto. }
      split.
      + intros f q Hf Hq E. apply HinT in Hq as Hq'.
        assert (Hp : c_parent q < c1).
        { destruct Hq' as [Hq'|[->| ->]]; [exact (proj2 (Hr _ (Hpar q Hq')))| |]; exact (proj2 (Hr _ Hown)). }
        destruct Hf as [<-|[<-|Hf]]; [unfold fown in E; simpl in E; lia|unfold fown in E; simpl in E; lia|].
        destruct Hq' as [Hq'|Hq']; [apply A1; simpl; auto|].
        exfalso. apply Hn1. replace (fown f0) with (fown f); [now apply in_map|].
        rewrite <- E. destruct Hq' as [->| ->]; reflexivity.
      + refine (order_app T [r1; r2] (fun T1 r => forall q, In q T1 -> c_parent q = c_parent r -> wle (c_lam q) (c_lam r) = true) _ _).
        * exact A2.
        * intros U1 u U2 E w Hw Ep.
          assert (Hu : In u [r1; r2]) by (rewrite E; apply in_elt).
          assert (Eu : c_parent u = c /\ c_lam u = l) by (destruct Hu as [<-|[<-|[]]]; auto).
          destruct Eu as [Eu ->]. rewrite Eu in Ep. apply in_app_iff in Hw as [Hw|Hw]; auto.
          assert (Hw' : In w [r1; r2]) by (rewrite E; apply in_or_app; auto).
          destruct Hw' as [<-|[<-|[]]]; apply wle_refl.
  Qed.

  (** The start: one cluster, the root. *)
  Lemma J_init r : nth_error L (n - 2) = Some r -> 2 <= n ->
    J [] 0 (fun _ => 2 * n - 2) [(2 * n - 2, n, lam (l_d r))].
  Proof.
    intros Hr Hn. constructor; try (intros; simpl in *; contradiction); auto.
    - simpl. rewrite app_nil_r. apply lf_root.
    - intros [|j]; discriminate.
    - intros [|? T1] ? ? E; discriminate.
    - intros f [<-|[]]. auto.
    - intros f i q [<-|[]] E Hq. unfold fnode in E. cbn [fst] in E.
      replace i with (n - 2) in Hq by lia. rewrite Hr in Hq. injection Hq as <-. apply wle_refl.
    - intros f [<-|[]]. unfold fnode. cbn [fst]. destruct HG. lia.
    - intros f [<-|[]]. constructor.
    - intros c x [->|(_ & r' & [] & _)]. split.
      + inversion 1 as [? ? HP ?|? d ? HP Hd]; subst.
        * destruct HP as [(? & [] & _)|(f & [<-|[]] & _ & H')]. auto.
        * destruct HP as [(? & [] & _)|(f & [<-|[]] & _ & H')]. apply lv_range in H'. lia.
      + intro Hx. apply bel_here; [|eapply lv_range; eauto]. right.
        eexists. split; [left; reflexivity|]. auto.
    - unfold cap, fnode. cbn [map fst list_sum fold_right length].
      rewrite (Permutation_length lf_root), seq_length. lia.
    - intros _. split; [|split].
      + simpl. repeat constructor. simpl; tauto.
      + intros f q _ [].
      + intros [|i] j q u; discriminate.
    - intros _. split; [intros f q _ []|]. intros [|? T1] ? ? E; discriminate.
  Qed.

  Lemma below_bel (T : list (crow V Sz)) c x : below n T c x <-> bel n (pairs T []) c x.
  Proof.
    split.
    - induction 1 as [r x Hr E Hx|r x Hr Hc Hb IH].
      + apply bel_here; auto. left. eauto.
      + apply (bel_deep n _ _ (c_child r)); auto. left. eauto.
    - induction 1 as [c x [(r & Hr & <- & E)|(f & [] & _)] Hx|c d x [(r & Hr & <- & E)|(f & [] & _)] Hd Hb IH].
      + now apply below_here.
      + subst d. apply below_deep; auto.
  Qed.

  (** The end: nothing is left on the frontier. *)
  Lemma J_final T s top : J T s top [] -> condensed n wt mcs T /\ faithful n L wt mcs mx lam T /\
    (mx = None -> splits_once n T /\ ascending T).
  Proof.
    intros [].
    assert (HB : forall c x, is_cluster n T c -> (below n T c x <-> In x (lf (top c)))).
    { intros c x Hc. rewrite below_bel. auto. }
    split; [|split].
    - constructor; auto.
      + simpl in J_perm0. now rewrite app_nil_r in J_perm0.
      + exists s. auto.
      + intros q Hq Hc. destruct (J_fc0 q Hq Hc) as (i & r & _ & Hi & (Hb1 & Hb2 & _) & _ & Ht & Hw).
        assert (Hb : big (top (c_child q))) by (destruct Ht as [->| ->]; auto).
        assert (Hlt : top (c_child q) < n + length L).
        { pose proof (HD _ _ Hi). assert (i < length L) by (apply nth_error_Some; congruence).
          destruct Ht as [->| ->]; lia. }
        split.
        * destruct Hb as (t & Ht' & Hle). now rewrite (weight_inj _ _ _ Hw Ht').
        * exists (lf (top (c_child q))). split; [now apply lf_NoDup|]. split.
          -- intro x. rewrite HB; [tauto|]. right. split; eauto.
          -- now apply weight_sum.
    - exists top. split; auto. split; [|split].
      + intros c x Hc. rewrite HB by auto. symmetry. apply under_lv, HD.
      + intros q Hq Hc. destruct (J_fs0 q Hq Hc) as (i & r & v & H1 & H2 & H3 & H4 & H5 & H6).
        exists i, r, v. repeat (split; [now auto|]). apply under_lv; auto. exact HD.
      + auto.
    - intro E. destruct (J_once0 E) as (_ & _ & H). destruct (J_asc0 E) as (_ & H'). auto.
  Qed.
End Condense.
