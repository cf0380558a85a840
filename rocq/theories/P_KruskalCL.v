(** Proofs about the two representations of constraints in the kernels. *)
From Coq Require Import List Arith Lia Bool Permutation Sorted ZArith NArith.
From Verif Require Import Prelude Order Graph UF S_Kruskal M_Kruskal P_Kruskal.
Import ListNotations.

(** ** Linked lists in a pool *)
Section Pool.
  Fixpoint chain (pn : nat -> option nat) (h : option nat) (L : list nat) : Prop :=
    match L with
    | [] => h = None
    | k :: L' => h = Some k /\ chain pn (pn k) L'
    end.

  Definition ends (L : list nat) (t : option nat) : Prop :=
    (L = [] /\ t = None) \/ (exists L0 k, L = L0 ++ [k] /\ t = Some k).

  Lemma ends_app L1 L2 t : L2 <> [] -> ends L2 t -> ends (L1 ++ L2) t.
  Proof.
    intros Hne [[-> _]|(L0 & k & -> & ->)]; [congruence|].
    right. exists (L1 ++ L0), k. now rewrite app_assoc.
  Qed.

  Lemma chain_upd_out pn h L t x : ~ In t L -> chain pn h L -> chain (upd pn t x) h L.
  Proof.
    revert h. induction L as [|k L IH]; simpl; intros h Hn H; auto.
    destruct H as [-> H]. split; auto. rewrite upd_neq by tauto. apply IH; tauto.
  Qed.

  Lemma chain_app pn h L0 t h2 L2 :
    NoDup (L0 ++ [t]) -> chain pn h (L0 ++ [t]) -> chain pn h2 L2 -> ~ In t L2 ->
    chain (upd pn t h2) h (L0 ++ t :: L2).
  Proof.
    revert h. induction L0 as [|k L IH]; simpl; intros h Hn H H2 Ht.
    - destruct H as [-> _]. split; auto. rewrite upd_eq. now apply chain_upd_out.
    - destruct H as [-> H]. split; auto. inversion_clear Hn as [|? ? Hk Hd].
      rewrite upd_neq by (intros ->; apply Hk, in_app_iff; simpl; auto).
      now apply IH.
  Qed.

  Variable n : nat.
  Variable c : csr_pattern.

  (** The row pointers are a valid partition of the index array. *)
  Definition csr_wf : Prop :=
    nth 0 (cl_indptr c) 0 = 0 /\
    (forall i, i < n -> nth i (cl_indptr c) 0 <= nth (S i) (cl_indptr c) 0) /\
    nth n (cl_indptr c) 0 = length (cl_indices c).

  Definition cl_rel : cannot_link := fun x y => x < n /\ In y (cl_row c x).

  Definition pool_inv (p : nat -> nat) (a : pool) : Prop :=
    exists Ls : nat -> list nat,
      (forall r, r < n -> p r = r ->
         chain (pool_next a) (comp_head a r) (Ls r) /\ ends (Ls r) (comp_tail a r) /\
         comp_csize a r = length (Ls r) /\ NoDup (Ls r) /\
         (forall k, In k (Ls r) -> k < pool_size a)) /\
      (forall r s k, r < n -> s < n -> p r = r -> p s = s -> r <> s ->
         In k (Ls r) -> In k (Ls s) -> False) /\
      (forall r v, r < n -> p r = r ->
         (In v (map (pool_vertex a) (Ls r)) <-> exists u, Root p u r /\ cl_rel u v)).

  Hypothesis CL_range : forall x y, cl_rel x y -> x < n /\ y < n.
  Hypothesis CL_sym : forall x y, cl_rel x y -> cl_rel y x.

  (** *** Scan *)
  Lemma scan_ok p a L : forall h big fuel,
    uf_wf n p -> chain (pool_next a) h L -> length L <= fuel ->
    (forall k, In k L -> pool_vertex a k < n) ->
    exists b, scan_conflicts fuel n p a h big = Ok b /\
      (b = true <-> exists k, In k L /\ Root p (pool_vertex a k) big).
  Proof.
    induction L as [|k L IH]; simpl; intros h big fuel Hwf Hc Hl Hr.
    - subst h. exists false. split; [destruct fuel; auto|]. split; [discriminate|].
      intros (k & [] & _).
    - destruct Hc as [-> Hc]. destruct fuel as [|fuel]; [lia|]. simpl.
      destruct (walk_ok n p (pool_vertex a k) n Hwf) as (r & -> & HR & _); auto.
      simpl. destruct (Nat.eqb_spec r big) as [->|Hne].
      + exists true. split; auto. split; auto. intros _. exists k. auto.
      + destruct (IH (pool_next a k) big fuel) as (b & E & Hb); auto; [lia|].
        exists b. split; auto. rewrite Hb. split.
        * intros (j & H1 & H2). exists j. auto.
        * intros (j & [<-|H1] & H2); [|exists j; auto].
          destruct Hne. eapply Root_det; eauto.
  Qed.

  Lemma scan_side p a ru rv (Hwf : uf_wf n p) :
    pool_inv p a -> ru < n -> rv < n -> p ru = ru -> p rv = rv ->
    exists b, scan_conflicts (pool_size a) n p a (comp_head a ru) rv = Ok b /\
      (b = true <-> exists x y, cl_rel x y /\ Root p x ru /\ Root p y rv).
  Proof.
    intros (Ls & H1 & H2 & H3) Hru Hrv Pu Pv.
    destruct (H1 ru Hru Pu) as (Hch & _ & _ & Hnd & Hk).
    assert (Hin : forall k, In k (Ls ru) -> exists u, Root p u ru /\ cl_rel u (pool_vertex a k)).
    { intros k Hkin. apply H3; auto. now apply in_map. }
    destruct (scan_ok p a (Ls ru) (comp_head a ru) rv (pool_size a)) as (b & E & Hb); auto.
    - now apply NoDup_bound_length.
    - intros k Hkin. destruct (Hin k Hkin) as (u & _ & Hcl). now apply CL_range in Hcl.
    - exists b. split; auto. rewrite Hb. split.
      + intros (k & Hkin & HR). destruct (Hin k Hkin) as (u & Hu & Hcl). eauto 6.
      + intros (x & y & Hcl & Hx & Hy).
        assert (In y (map (pool_vertex a) (Ls ru))) as Hy' by (apply H3; eauto).
        apply in_map_iff in Hy' as (k & <- & Hkin). eauto.
  Qed.

  Lemma pool_conflict_ok p a ru rv :
    uf_wf n p -> pool_inv p a -> ru < n -> rv < n -> p ru = ru -> p rv = rv -> ru <> rv ->
    exists b, pool_conflict n p a ru rv = Ok b /\
      (b = true <-> exists x y, cl_rel x y /\ Root p x ru /\ Root p y rv).
  Proof.
    intros Hwf Hi Hru Hrv Pu Pv Hne. unfold pool_conflict.
    assert (Hz : forall r, r < n -> p r = r -> comp_csize a r = 0 ->
                 forall x y, cl_rel x y -> ~ Root p x r).
    { intros r Hr Pr H0 x y Hxy HR. destruct Hi as (Ls & H1 & _ & H3).
      destruct (H1 r Hr Pr) as (_ & _ & Hs & _).
      assert (Hin : In y (map (pool_vertex a) (Ls r))) by (apply H3; eauto).
      destruct (Ls r); simpl in *; [tauto|lia]. }
    destruct (Nat.ltb_spec 0 (comp_csize a ru)) as [Hu|Hu]; simpl.
    - destruct (Nat.ltb_spec 0 (comp_csize a rv)) as [Hv|Hv]; simpl.
      + destruct (comp_csize a ru <=? comp_csize a rv).
        * now apply scan_side.
        * destruct (scan_side p a rv ru Hwf Hi) as (b & E & Hb); auto.
          exists b. split; auto. rewrite Hb.
          split; intros (x & y & K1 & K2 & K3); exists y, x; auto.
      + exists false. split; auto. split; [discriminate|].
        intros (x & y & Hxy & _ & Hy). exfalso. apply (Hz rv Hrv Pv ltac:(lia) y x); auto.
    - exists false. split; auto. split; [discriminate|].
      intros (x & y & Hxy & Hx & _). exfalso. apply (Hz ru Hru Pu ltac:(lia) x y); auto.
  Qed.

  (** *** Path compression does not disturb the lists *)
  Lemma Root_range_rel p u v r : cl_rel u v -> Root p u r -> u < n.
  Proof. intros [H _] _. exact H. Qed.

  Lemma roots_same p q :
    uf_wf n p -> uf_wf n q -> (forall y s, y < n -> (Root q y s <-> Root p y s)) ->
    forall r, r < n -> (q r = r <-> p r = r).
  Proof.
    intros Hp Hq H r Hr. split; intro E.
    - apply Root_self in E. apply H in E; auto. eapply Root_root; eauto.
    - apply Root_self in E. apply H in E; auto. eapply Root_root; eauto.
  Qed.

  Lemma pool_inv_stable p q a :
    uf_wf n p -> uf_wf n q -> (forall y s, y < n -> (Root q y s <-> Root p y s)) ->
    pool_inv p a -> pool_inv q a.
  Proof.
    intros Hp Hq H (Ls & H1 & H2 & H3). exists Ls.
    assert (E := roots_same p q Hp Hq H). split; [|split].
    - intros r Hr Pr. apply H1; auto. now apply E.
    - intros r s k Hr Hs Pr Ps. apply H2; auto; now apply E.
    - intros r v Hr Pr. rewrite H3 by (auto; now apply E).
      split; intros (u & K1 & K2); exists u; split; auto; apply H; auto; apply K2.
  Qed.

  (** *** Merge *)
  Lemma pool_inv_merge p a new old :
    uf_wf n p -> pool_inv p a -> new < n -> old < n -> p new = new -> p old = old -> new <> old ->
    pool_inv (upd p old new) (pool_merge a new old).
  Proof.
    intros Hwf (Ls & H1 & H2 & H3) Hnew Hold Pn Po Hne.
    destruct (H1 new Hnew Pn) as (Cn & En & Sn & Dn & Bn).
    destruct (H1 old Hold Po) as (Co & Eo & So & Do & Bo).
    assert (Hroots : forall r, r < n -> upd p old new r = r -> p r = r /\ r <> old).
    { intros r Hr E. destruct (upd_case p old r new) as [[-> E']|[K E']]; rewrite E' in E; auto. }
    assert (Hmem : forall r v, r < n -> p r = r -> r <> old ->
      ((exists u, Root (upd p old new) u r /\ cl_rel u v) <->
       (In v (map (pool_vertex a) (Ls r)) \/ (r = new /\ In v (map (pool_vertex a) (Ls old)))))).
    { intros r v Hr Pr Hro. rewrite !H3 by auto. split.
      - intros (u & HR & Hcl). apply (Root_link_iff n) in HR as (t & Ht & E); auto; [|apply Hcl].
        destruct (Nat.eqb_spec t old) as [->|Hto].
        + right. eauto.
        + left. subst r. eauto.
      - intros [(u & HR & Hcl)|[-> (u & HR & Hcl)]]; exists u; split; auto;
          apply (Root_link_iff n); auto; try apply Hcl.
        + exists r. split; auto. now rewrite (proj2 (Nat.eqb_neq r old) Hro).
        + exists old. split; auto. now rewrite Nat.eqb_refl. }
    exists (upd Ls new (Ls new ++ Ls old)).
    assert (Hdis : forall k, In k (Ls new) -> In k (Ls old) -> False) by
      (intros k; apply (H2 new old); auto).
    assert (HND : NoDup (Ls new ++ Ls old)).
    { apply NoDup_app_iff. auto. }
    (* the pool after the concatenation *)
    assert (Hgen : forall a',
      pool_size a' = pool_size a -> pool_vertex a' = pool_vertex a ->
      (forall r, r < n -> p r = r -> r <> old ->
         chain (pool_next a') (comp_head a' r) (upd Ls new (Ls new ++ Ls old) r) /\
         ends (upd Ls new (Ls new ++ Ls old) r) (comp_tail a' r) /\
         comp_csize a' r = length (upd Ls new (Ls new ++ Ls old) r)) ->
      (forall r, r < n -> upd p old new r = r ->
         chain (pool_next a') (comp_head a' r) (upd Ls new (Ls new ++ Ls old) r) /\
         ends (upd Ls new (Ls new ++ Ls old) r) (comp_tail a' r) /\
         comp_csize a' r = length (upd Ls new (Ls new ++ Ls old) r) /\
         NoDup (upd Ls new (Ls new ++ Ls old) r) /\
         (forall k, In k (upd Ls new (Ls new ++ Ls old) r) -> k < pool_size a')) /\
      (forall r s k, r < n -> s < n -> upd p old new r = r -> upd p old new s = s -> r <> s ->
         In k (upd Ls new (Ls new ++ Ls old) r) -> In k (upd Ls new (Ls new ++ Ls old) s) -> False) /\
      (forall r v, r < n -> upd p old new r = r ->
         (In v (map (pool_vertex a') (upd Ls new (Ls new ++ Ls old) r)) <->
          exists u, Root (upd p old new) u r /\ cl_rel u v))).
    { intros a' Es Ev Hloc. split; [|split].
      - intros r Hr E. destruct (Hroots r Hr E) as [Pr Hro].
        destruct (Hloc r Hr Pr Hro) as (L1 & L2 & L3). split; [auto|split; [auto|split; [auto|]]].
        destruct (upd_case Ls new r (Ls new ++ Ls old)) as [[-> ->]|[K ->]].
        + split; auto. rewrite Es. intros k Hk. apply in_app_iff in Hk as [Hk|Hk]; auto.
        + rewrite Es. destruct (H1 r Hr Pr) as (_ & _ & _ & D & B). auto.
      - intros r s k Hr Hs E1 E2 Hrs.
        destruct (Hroots r Hr E1) as [Pr Hro]. destruct (Hroots s Hs E2) as [Ps Hso].
        destruct (upd_case Ls new r (Ls new ++ Ls old)) as [[-> ->]|[K ->]];
        destruct (upd_case Ls new s (Ls new ++ Ls old)) as [[-> ->]|[K' ->]]; try congruence.
        + rewrite in_app_iff. intros [Hk|Hk] Hk'; [apply (H2 new s k)|apply (H2 old s k)]; auto.
        + rewrite in_app_iff. intros Hk' [Hk|Hk]; [apply (H2 new r k)|apply (H2 old r k)]; auto.
        + apply H2; auto.
      - intros r v Hr E. destruct (Hroots r Hr E) as [Pr Hro].
        rewrite Hmem by auto. rewrite Ev.
        destruct (upd_case Ls new r (Ls new ++ Ls old)) as [[-> ->]|[K ->]].
        + rewrite map_app, in_app_iff. tauto.
        + tauto. }
    unfold pool_merge. destruct (comp_head a old) as [h|] eqn:Eh.
    - (* old has a list *)
      destruct (Ls old) as [|k0 Lo'] eqn:ELo; simpl in Co; [congruence|].
      rewrite <- ELo in *. assert (Hnil : Ls old <> []) by congruence.
      assert (Hoh : chain (pool_next a) (Some h) (Ls old)).
      { rewrite ELo. simpl. destruct Co as [E0 C0]. split; congruence. }
      apply Hgen; simpl; auto.
      intros r Hr Pr Hro.
      destruct (upd_case Ls new r (Ls new ++ Ls old)) as [[-> ->]|[K ->]].
      + rewrite !(upd_neq _ old new) by auto. rewrite !upd_eq.
        split; [|split].
        * destruct En as [[ELn Etn]|(L0 & t & ELn & Etn)]; rewrite Etn.
          -- rewrite ELn. simpl. rewrite upd_eq. exact Hoh.
          -- rewrite ELn, <- app_assoc. simpl. apply chain_app; auto; try (rewrite <- ELn; auto).
             intro Ht. apply (Hdis t); auto. rewrite ELn. apply in_app_iff. simpl; auto.
        * now apply ends_app.
        * rewrite app_length. congruence.
      + rewrite !(upd_neq _ old r) by auto. rewrite !(upd_neq _ new r) by auto.
        destruct (H1 r Hr Pr) as (C & E & S & _ & _).
        split; [|auto].
        destruct En as [[ELn Etn]|(L0 & t & ELn & Etn)]; rewrite Etn.
        * rewrite upd_neq by auto. exact C.
        * apply chain_upd_out; auto. intro Ht. apply (H2 r new t); auto.
          rewrite ELn. apply in_app_iff. simpl; auto.
    - (* old has none *)
      destruct (Ls old) as [|k0 Lo'] eqn:ELo; simpl in Co; [|destruct Co; congruence].
      rewrite app_nil_r in *. apply Hgen; simpl; auto.
      intros r Hr Pr Hro. rewrite !(upd_neq _ old r) by auto.
      destruct (H1 r Hr Pr) as (C & E & S & _ & _).
      destruct (upd_case Ls new r (Ls new)) as [[-> ->]|[K ->]]; auto.
  Qed.

  (** *** Initialisation *)
  Definition push_pairs (a : pool) (ps : list (nat * nat)) : pool :=
    fold_left (fun a q => pool_push a (fst q) (snd q)) ps a.

  Definition init_inv (a : pool) (ps : list (nat * nat)) : Prop :=
    pool_idx a = length ps /\ pool_size a = length (cl_indices c) /\
    (forall k, length ps <= k -> pool_next a k = None) /\
    exists Ls : nat -> list nat,
      (forall r, chain (pool_next a) (comp_head a r) (Ls r) /\ ends (Ls r) (comp_tail a r) /\
         comp_csize a r = length (Ls r) /\ NoDup (Ls r) /\
         (forall k, In k (Ls r) -> k < length ps)) /\
      (forall r s k, r <> s -> In k (Ls r) -> In k (Ls s) -> False) /\
      (forall r, map (pool_vertex a) (Ls r) = map snd (filter (fun q => fst q =? r) ps)).

  Lemma init_push a ps i v :
    init_inv a ps -> init_inv (pool_push a i v) (ps ++ [(i, v)]).
  Proof.
    intros (Ei & Es & Hfresh & Ls & H1 & H2 & H3).
    set (k := pool_idx a) in *.
    assert (Hk : forall r, ~ In k (Ls r)).
    { intros r Hr. apply H1 in Hr. lia. }
    assert (HT : forall r t, comp_tail a r = Some t -> In t (Ls r) /\ t < k).
    { intros r t Et. destruct (H1 r) as (_ & E & _ & _ & B).
      destruct E as [[_ E]|(L0 & t' & E1 & E2)]; [congruence|].
      assert (In t (Ls r)) by (rewrite E1; apply in_app_iff; simpl; right; left; congruence).
      split; auto. apply B in H. lia. }
    unfold init_inv. rewrite !app_length. simpl.
    split; [fold k; lia|]. split; [auto|]. split.
    { intros j Hj. destruct (comp_tail a i) as [t|] eqn:Et.
      - apply HT in Et as [_ Et]. rewrite upd_neq by lia. apply Hfresh. lia.
      - apply Hfresh. lia. }
    exists (upd Ls i (Ls i ++ [k])).
    destruct (H1 i) as (Ci & Ei' & Si & Di & Bi).
    split; [|split].
    - intros r. destruct (upd_case Ls i r (Ls i ++ [k])) as [[-> ->]|[Kr ->]].
      + rewrite !upd_eq. split; [|split; [|split; [|split]]].
        * destruct Ei' as [[E1 E2]|(L0 & t & E1 & E2)]; rewrite E2.
          -- rewrite E1. simpl. rewrite upd_eq. split; auto. apply Hfresh. lia.
          -- rewrite E1, <- app_assoc. simpl. rewrite E1 in *. apply chain_app; auto.
             ++ simpl. split; auto. apply Hfresh. lia.
             ++ simpl. intros [E|[]]. apply (Hk i). rewrite E1, <- E. apply in_app_iff. simpl; auto.
        * right. eauto.
        * rewrite app_length. simpl. lia.
        * apply NoDup_app_iff. split; auto. split; [repeat constructor; simpl; auto|].
          intros x Hx [<-|[]]. eapply Hk; eauto.
        * intros x Hx. apply in_app_iff in Hx as [Hx|[<-|[]]]; [apply Bi in Hx; lia|lia].
      + rewrite !(upd_neq _ i r) by auto.
        destruct (H1 r) as (C & E & S & D & B). split; [|split; [|split; [|split]]]; auto.
        * destruct (comp_tail a i) as [t|] eqn:Et.
          -- apply chain_upd_out; auto. intro Ht. apply (H2 r i t); auto. now apply HT.
          -- rewrite upd_neq by auto. exact C.
        * intros x Hx. apply B in Hx. lia.
    - intros r s x Hrs.
      destruct (upd_case Ls i r (Ls i ++ [k])) as [[-> ->]|[Kr ->]];
      destruct (upd_case Ls i s (Ls i ++ [k])) as [[-> ->]|[Ks ->]]; try congruence.
      + rewrite in_app_iff. intros [Hx|[<-|[]]] Hx'; [eapply H2; eauto|eapply Hk; eauto].
      + rewrite in_app_iff. intros Hx' [Hx|[<-|[]]]; [eapply H2; eauto|eapply Hk; eauto].
      + apply H2; auto.
    - intros r. rewrite filter_app, map_app. simpl. fold k.
      assert (Ho : forall r, map (upd (pool_vertex a) k v) (Ls r) = map (pool_vertex a) (Ls r)).
      { intro r'. apply map_ext_in. intros x Hx. apply upd_neq. intros ->. eapply Hk; eauto. }
      destruct (upd_case Ls i r (Ls i ++ [k])) as [[-> ->]|[Kr ->]].
      + rewrite map_app, Ho, H3. simpl. rewrite upd_eq, Nat.eqb_refl. reflexivity.
      + rewrite Ho, H3. rewrite (proj2 (Nat.eqb_neq i r)) by auto. simpl. now rewrite app_nil_r.
  Qed.

  Lemma init_pushes qs : forall a ps, init_inv a ps -> init_inv (push_pairs a qs) (ps ++ qs).
  Proof.
    induction qs as [|q qs IH]; intros a ps H.
    - now rewrite app_nil_r.
    - replace (ps ++ q :: qs) with ((ps ++ [q]) ++ qs) by (now rewrite <- app_assoc).
      simpl. apply IH. destruct q as [i v]. simpl. now apply init_push.
  Qed.

  Definition all_pairs : list (nat * nat) :=
    flat_map (fun i => map (pair i) (cl_row c i)) (seq 0 n).

  Lemma push_rows_pairs is_ : forall a,
    fold_left (pool_push_row c) is_ a
    = push_pairs a (flat_map (fun i => map (pair i) (cl_row c i)) is_).
  Proof.
    induction is_ as [|i is_ IH]; intros a; simpl; auto. rewrite IH.
    unfold push_pairs at 2. rewrite fold_left_app. fold (push_pairs).
    unfold push_pairs. f_equal. unfold pool_push_row.
    generalize (cl_row c i). intro l. revert a. induction l as [|v l IHl]; intros a; simpl; auto.
  Qed.

  Lemma in_all_pairs x y : In (x, y) all_pairs <-> cl_rel x y.
  Proof.
    unfold all_pairs, cl_rel. rewrite in_flat_map. split.
    - intros (i & Hi & H). apply in_map_iff in H as (v & [= -> ->] & Hv). apply in_seq in Hi.
      split; auto. lia.
    - intros [H1 H2]. exists x. split; [apply in_seq; lia|]. now apply in_map.
  Qed.

  Lemma slice_length {A} a b (l : list A) : length (slice a b l) = Nat.min (b - a) (length l - a).
  Proof. unfold slice. now rewrite firstn_length, skipn_length. Qed.

  Lemma all_pairs_length : csr_wf -> length all_pairs <= length (cl_indices c).
  Proof.
    intros (H0 & Hm & Hn). unfold all_pairs. rewrite <- Hn.
    assert (G : forall m, m <= n ->
      length (flat_map (fun i => map (pair i) (cl_row c i)) (seq 0 m)) <= nth m (cl_indptr c) 0).
    { induction m as [|m IH]; intro Hle; [simpl; lia|].
      rewrite seq_S, flat_map_app, app_length. cbn [flat_map Nat.add]. rewrite app_nil_r, map_length.
      specialize (IH ltac:(lia)). specialize (Hm m ltac:(lia)).
      unfold cl_row at 2. rewrite slice_length.
       pose proof (Nat.le_min_l (nth (S m) (cl_indptr c) 0 - nth m (cl_indptr c) 0) (length (cl_indices c) - nth m (cl_indptr c) 0)). lia. }
    apply G. auto.
  Qed.

  Lemma pool_init_inv : csr_wf -> pool_inv (fun i => i) (pool_init n c).
  Proof.
    intro Hcsr. unfold pool_init. rewrite push_rows_pairs. fold all_pairs.
    match goal with |- pool_inv _ (push_pairs ?a _) => set (a0 := a) end.
    assert (H0 : init_inv a0 []).
    { repeat split; auto. exists (fun _ => []). repeat split; simpl; auto.
      - left; auto.
      - constructor.
      - intros ? []. }
    apply (init_pushes all_pairs) in H0. simpl in H0.
    destruct H0 as (Ei & Es & _ & Ls & H1 & H2 & H3).
    exists Ls. split; [|split].
    - intros r Hr _. destruct (H1 r) as (C & E & S & D & B). repeat (split; [assumption|]).
      intros k Hk. apply B in Hk. rewrite Es. pose proof (all_pairs_length Hcsr). lia.
    - intros r s k _ _ _ _. apply H2.
    - intros r v Hr _. rewrite H3, in_map_iff. split.
      + intros ((x, y) & Hy & Hin). simpl in Hy. subst y. apply filter_In in Hin as [Hin E].
        simpl in E. apply Nat.eqb_eq in E as ->. exists r. split; [now apply Root_self|].
        now apply in_all_pairs.
      + intros (u & HR & Hcl). exists (u, v). split; auto. apply filter_In. split.
        * now apply in_all_pairs.
        * simpl. apply Nat.eqb_eq. inversion HR; subst; auto. congruence.
  Qed.
End Pool.

(** ** Bit masks *)
Section Masks.
  Variable labels : list Z.
  Variable n_groups : nat.
  Let n := length labels.
  Let n_words := (n_groups + 63) / 64.
  Let g (i : nat) : Z := nth i labels (-1)%Z.
  Hypothesis Hgroups : forall i, i < n -> (g i < Z.of_nat n_groups)%Z.

  Definition mask_inv (p : nat -> nat) (m : masks) : Prop :=
    forall r, r < n -> p r = r -> forall w b,
      N.testbit (m r w) b = true <->
      exists u, u < n /\ Root p u r /\ (0 <= g u)%Z /\
                w = Z.to_nat (g u / 64) /\ b = Z.to_N (g u mod 64).

  Lemma group_word i : i < n -> (0 <= g i)%Z -> Z.to_nat (g i / 64) < n_words.
  Proof.
    intros Hi Hg. specialize (Hgroups i Hi). unfold n_words.
    assert (Z.to_nat (g i / 64) * 64 <= Z.to_nat (g i)).
    { rewrite Z2Nat.inj_div by lia. change (Z.to_nat 64) with 64.
      rewrite Nat.mul_comm. apply Nat.mul_div_le. lia. }
    assert (Z.to_nat (g i / 64) = Z.to_nat (g i) / 64) as E.
    { rewrite Z2Nat.inj_div by lia. reflexivity. }
    rewrite E. apply Nat.lt_le_trans with (S (Z.to_nat (g i) / 64)); [lia|].
    replace (S (Z.to_nat (g i) / 64)) with ((Z.to_nat (g i) + 1 * 64) / 64)
      by (rewrite Nat.div_add; lia).
    apply Nat.div_le_mono; lia.
  Qed.

  Lemma group_eq x y : (0 <= x)%Z -> (0 <= y)%Z ->
    Z.to_nat (x / 64) = Z.to_nat (y / 64) -> Z.to_N (x mod 64) = Z.to_N (y mod 64) -> x = y.
  Proof.
    intros Hx Hy H1 H2.
    assert (0 <= x / 64)%Z by (apply Z.div_pos; lia).
    assert (0 <= y / 64)%Z by (apply Z.div_pos; lia).
    assert (0 <= x mod 64 < 64)%Z by (apply Z.mod_pos_bound; lia).
    assert (0 <= y mod 64 < 64)%Z by (apply Z.mod_pos_bound; lia).
    apply Z2Nat.inj in H1; auto. apply Z2N.inj in H2; try lia.
    rewrite (Z.div_mod x 64), (Z.div_mod y 64) by lia. congruence.
  Qed.

  Lemma mask_conflict_ok p m ru rv :
    uf_wf n p -> mask_inv p m -> ru < n -> rv < n -> p ru = ru -> p rv = rv -> ru <> rv ->
    exists b, mask_conflict n_words p m ru rv = Ok b /\
      (b = true <-> exists x y, same_group labels x y /\ Root p x ru /\ Root p y rv).
  Proof.
    intros Hwf Hi Hru Hrv Pu Pv Hne. eexists. split; [reflexivity|].
    rewrite existsb_exists. split.
    - intros (w & _ & Hw). apply negb_true_iff, N.eqb_neq in Hw.
      assert (exists b, N.testbit (N.land (m ru w) (m rv w)) b = true) as [b Hb].
      { exists (N.log2 (N.land (m ru w) (m rv w))). now apply N.bit_log2. }
      rewrite N.land_spec in Hb. apply andb_true_iff in Hb as [B1 B2].
      apply Hi in B1 as (x & Hx & Rx & Gx & W1 & Q1); auto.
      apply Hi in B2 as (y & Hy & Ry & Gy & W2 & Q2); auto.
      exists x, y. split; auto. repeat split; auto.
      + intros ->. apply Hne. eapply Root_det; eauto.
      + change (g x = g y). apply group_eq; auto; [rewrite <- W1; exact W2|rewrite <- Q1; exact Q2].
    - intros (x & y & (Hxy & Hx & Hy & Gx & Exy) & Rx & Ry).
      fold (g x) in *. fold (g y) in *.
      exists (Z.to_nat (g x / 64)). split.
      { apply in_seq. pose proof (group_word x Hx Gx). lia. }
      apply negb_true_iff, N.eqb_neq. intro E.
      assert (K : N.testbit (N.land (m ru (Z.to_nat (g x / 64))) (m rv (Z.to_nat (g x / 64))))
                    (Z.to_N (g x mod 64)) = true).
      { rewrite N.land_spec. apply andb_true_iff. split.
        - apply Hi; auto. exists x. auto.
        - apply Hi; auto. exists y. rewrite <- Exy. auto. }
      rewrite E, N.bits_0 in K. discriminate.
  Qed.

  Lemma mask_inv_stable p q m :
    uf_wf n p -> uf_wf n q -> (forall y s, y < n -> (Root q y s <-> Root p y s)) ->
    mask_inv p m -> mask_inv q m.
  Proof.
    intros Hp Hq H Hi r Hr Pr w b.
    rewrite (Hi r Hr) by (now apply (roots_same n p q Hp Hq H r Hr)).
    split; intros (u & Hu & HR & K); exists u; (split; [auto|split; [now apply H|auto]]).
  Qed.

  Lemma mask_inv_merge p m new old :
    uf_wf n p -> mask_inv p m -> new < n -> old < n -> p new = new -> p old = old -> new <> old ->
    mask_inv (upd p old new) (mask_merge n_words m new old).
  Proof.
    intros Hwf Hi Hn Ho Pn Po Hne r Hr E w b.
    assert (Hr' : p r = r /\ r <> old).
    { destruct (upd_case p old r new) as [[-> E']|[K E']]; rewrite E' in E; auto. }
    destruct Hr' as [Pr Hro]. unfold mask_merge.
    assert (Hsplit : (exists u, u < n /\ Root (upd p old new) u r /\ (0 <= g u)%Z /\
                w = Z.to_nat (g u / 64) /\ b = Z.to_N (g u mod 64)) <->
      N.testbit (m r w) b = true \/ (r = new /\ N.testbit (m old w) b = true)).
    { rewrite (Hi r Hr Pr), (Hi old Ho Po). split.
      - intros (u & Hu & HR & K). apply (Root_link_iff n) in HR as (t & Ht & Et); auto.
        destruct (Nat.eqb_spec t old) as [->|]; [right|left].
        + split; auto. exists u; auto.
        + subst t. exists u; auto.
      - intros [(u & Hu & HR & K)|(-> & u & Hu & HR & K)]; exists u; (split; [auto|split; [|auto]]);
          apply (Root_link_iff n); auto.
        + exists r. split; auto. now rewrite (proj2 (Nat.eqb_neq r old) Hro).
        + exists old. split; auto. now rewrite Nat.eqb_refl. }
    rewrite Hsplit. clear Hsplit.
    destruct (upd_case m new r (fun w => if w <? n_words then N.lor (m new w) (m old w) else m new w))
      as [[-> ->]|[K ->]].
    - destruct (Nat.ltb_spec w n_words) as [Hw|Hw].
      + rewrite N.lor_spec, orb_true_iff. tauto.
      + split; [auto|]. intros [?|[_ K]]; auto. exfalso.
        apply Hi in K as (u & Hu & _ & Gu & -> & _); auto.
        pose proof (group_word u Hu Gu). lia.
    - split; [auto|]. intros [?|[? _]]; auto; congruence.
  Qed.

  Lemma mask_init_inv : mask_inv (fun i => i) (mask_init labels).
  Proof.
    intros r Hr _ w b. unfold mask_init. fold (g r).
    split.
    - destruct (Z.leb_spec 0 (g r)) as [Hg|Hg]; [|now rewrite N.bits_0].
      destruct (Nat.eqb_spec w (Z.to_nat (g r / 64))) as [Hw|Hw]; [|now rewrite N.bits_0].
      rewrite N.lor_0_l, N.shiftl_1_l, N.pow2_bits_eqb. intro E. apply N.eqb_eq in E.
      exists r. split; auto. split; [now apply Root_self|]. auto.
    - intros (u & Hu & HR & Hg & -> & ->).
      assert (u = r) as -> by (inversion HR; subst; auto; congruence).
      rewrite (proj2 (Z.leb_le 0 (g r)) Hg), Nat.eqb_refl.
      rewrite N.lor_0_l, N.shiftl_1_l, N.pow2_bits_eqb. apply N.eqb_refl.
  Qed.
End Masks.
