(** cluster_selection_persistence: relabelling. *)
From Coq Require Import List Arith Lia Bool Permutation.
From Verif Require Import Prelude Order Size Forest P_Pairs M_Linkage M_Condense S_Condense M_Select P_CTree P_Below P_Eom
  M_Simplify S_Simplify P_Simplify.
Import ListNotations.

Lemma propagate_ok n pm : (forall c, n <= c -> n <= pm c <= c) -> forall m,
  (forall c, n <= c < n + m -> propagate (seq n m) pm c = if pm c =? c then c else propagate (seq n m) pm (pm c)) /\
  (forall c, ~ (n <= c < n + m) -> propagate (seq n m) pm c = pm c).
Proof.
  intros Hpm. induction m as [|m [IH1 IH2]].
  - split; [intros; lia|]. intros; reflexivity.
  - rewrite seq_S. unfold propagate in *. rewrite fold_left_app. cbn [fold_left].
    set (pm' := fold_left (fun pm i => upd pm i (pm (pm i))) (seq n m) pm) in *.
    assert (E : pm' (n + m) = pm (n + m)) by (apply IH2; lia).
    assert (Hlt : forall c, n <= c -> c < n + m -> upd pm' (n + m) (pm' (pm' (n + m))) c = pm' c) by (intros; apply upd_neq; lia).
    split.
    + intros c Hc. destruct (Nat.eq_dec c (n + m)) as [->|Hne].
      * rewrite upd_eq, E. destruct (Nat.eqb_spec (pm (n + m)) (n + m)) as [Ee|Ee]; [rewrite Ee, E; auto|].
        specialize (Hpm (n + m)). rewrite upd_neq by lia. reflexivity.
      * rewrite Hlt by lia. rewrite IH1 by lia. destruct (Nat.eqb_spec (pm c) c) as [|Hc']; auto.
        specialize (Hpm c). rewrite upd_neq by lia. auto.
    + intros c Hc. rewrite upd_neq by lia. apply IH2. lia.
Qed.

Lemma renumber_ok n pm : (forall c, n <= c -> n <= pm c <= c) -> forall m,
  let sk := fun c => negb (pm c =? c) in
  (forall c, n <= c < n + m -> fst (renumber n (seq n m) pm) c = pm c - countp sk (seq n (pm c - n)) /\
                               snd (renumber n (seq n m) pm) c = sk c) /\
  (forall c, ~ (n <= c < n + m) -> fst (renumber n (seq n m) pm) c = pm c /\ snd (renumber n (seq n m) pm) c = false).
Proof.
  intros Hpm m sk. induction m as [|m [IH1 IH2]].
  - split; [intros; lia|]. intros; split; reflexivity.
  - rewrite seq_S. unfold renumber in *. rewrite fold_left_app. cbn [fold_left].
    set (st := fold_left _ (seq n m) (pm, fun _ => false)) in *. cbn [fst snd].
    assert (E : fst st (n + m) = pm (n + m)) by (apply IH2; lia). rewrite E.
    split.
    + intros c Hc. destruct (Nat.eq_dec c (n + m)) as [->|Hne].
      * rewrite !upd_eq. split; auto. f_equal. apply countp_ext. intros x Hx. apply in_seq in Hx.
        pose proof (Hpm (n + m)). rewrite upd_neq by lia. apply IH1. lia.
      * rewrite !upd_neq by lia. apply IH1. lia.
    + intros c Hc. rewrite !upd_neq by lia. apply IH2. lia.
Qed.

(** New cluster ids. *)
Section NewId.
  Variables (n : nat) (k : nat -> bool).
  Hypothesis Hn : k n = true.
  Definition new_id (c : nat) : nat := c - countp (fun x => negb (k x)) (seq n (c - n)).

  Lemma countp_neg (l : list nat) : countp k l + countp (fun x => negb (k x)) l = length l.
  Proof. induction l as [|a l IH]; simpl; auto. destruct (k a); simpl; lia. Qed.
  Lemma new_id_eq c : n <= c -> new_id c = n + countp k (seq n (c - n)).
  Proof.
    intro H. unfold new_id. pose proof (countp_neg (seq n (c - n))) as E. rewrite seq_length in E. lia.
  Qed.
  Lemma new_id_ge c : n <= c -> n <= new_id c.
  Proof. intro H. rewrite new_id_eq by auto. lia. Qed.
  Lemma new_id_root : new_id n = n.
  Proof. rewrite new_id_eq by lia. rewrite Nat.sub_diag. simpl. lia. Qed.
  Lemma new_id_lt c d : n <= c -> c < d -> k c = true -> new_id c < new_id d.
  Proof.
    intros Hc Hd Hk. rewrite !new_id_eq by lia. replace (d - n) with ((c - n) + S (d - c - 1)) by lia.
    rewrite seq_app, countp_app. cbn [seq countp]. replace (n + (c - n)) with c by lia. rewrite Hk. simpl. lia.
  Qed.
  Lemma new_id_inj c d : n <= c -> n <= d -> k c = true -> k d = true -> new_id c = new_id d -> c = d.
  Proof.
    intros Hc Hd Kc Kd E. destruct (Nat.lt_trichotomy c d) as [H|[H|H]]; auto;
      [pose proof (new_id_lt c d Hc H Kc)|pose proof (new_id_lt d c Hd H Kd)]; lia.
  Qed.
  Lemma new_id_seq m : map new_id (filter k (seq (n + 1) m)) = seq (n + 1) (length (filter k (seq (n + 1) m))).
  Proof.
    induction m as [|m IH]; auto. rewrite seq_S, filter_app, map_app, app_length, IH. cbn [filter].
    destruct (k (n + 1 + m)) eqn:E; [|cbn [map length]; now rewrite app_nil_r, Nat.add_0_r].
    cbn [map length]. rewrite (seq_app _ 1). cbn [seq]. do 2 f_equal.
    rewrite new_id_eq by lia. replace (n + 1 + m - n) with (S m) by lia. cbn [seq countp]. rewrite Hn.
    rewrite countp_filter. replace (S n) with (n + 1) by lia. lia.
  Qed.
  Lemma new_id_all c : n <= c -> (forall x, n <= x < c -> k x = true) -> new_id c = c.
  Proof.
    intros Hc Hk. unfold new_id. replace (countp (fun x => negb (k x)) (seq n (c - n))) with 0; [lia|].
    symmetry. apply countp_zero. intros x Hx. apply in_seq in Hx. now rewrite Hk by lia.
  Qed.
End NewId.

Section Top.
  Context {V : WOrd} {Sz : SOrd}.
  Variables (persists : V -> V -> bool) (garbage : nat -> V) (n : nat) (wt : nat -> Sz) (mcs : Sz) (T : list (crow V Sz)).
  Hypothesis HT : condensed n wt mcs T.
  Hypothesis HO : splits_once n T.
  Hypothesis Hone : slt sone mcs = true.
  Hypothesis Hz : sle (s := Sz) szero sone = true.
  Hypothesis Hne : cluster_rows n T <> [].
  Hypothesis Hmono : forall b b' d d', wle b b' = true -> wle d' d = true -> persists b d = true -> persists b' d' = true.
  Notation CT := (cluster_rows n T).
  Notation ch := (children_of CT).
  Notation top := (top_id n T).
  Notation sb := (sub ch top).
  Notation up := (ct_up n wt mcs T HT).
  Notation bound := (ct_bound n wt mcs T HT).
  Notation cone := (ct_one n wt mcs T HT).
  Variable PL : list (crow V Sz * crow V Sz).
  Hypothesis HPL : CT = two PL.
  Notation PI := (pl_in n wt mcs T HT PL HPL).

  Definition births0 : nat -> V := fold_left (fun births (r : crow V Sz) => upd births (c_parent r) (c_lam r)) T garbage.
  Definition s0 : sstate (V := V) :=
    {| leaf_indicator := fun c => negb (existsb (fun r => c_parent r =? c) CT);
       max_births := births0; parent_map := fun c => c; lambda_map := [] |}.
  Definition sf : sstate (V := V) := simplify_pairs persists (rev CT) s0.

  Lemma s0_inv : sinv persists PL births0 [] s0.
  Proof.
    constructor; cbn [s0 leaf_indicator max_births parent_map lambda_map].
    - intro c. apply wle_refl.
    - intros p [].
    - auto.
    - intros p [].
    - auto.
    - intros c Hc. split.
      + intro H. apply negb_false_iff, existsb_exists in H as (r & Hr & Ep). apply Nat.eqb_eq in Ep.
        assert (Hi : In (c_child r) (ch c)) by (apply (ch_in n T); eauto).
        apply (ch_pl n wt mcs T HT PL HPL) in Hi as (p & Hp & Epp & _). destruct (Hc p Hp Epp).
      + intro H. inversion H; contradiction.
    - intros p Hp _. apply negb_false_iff, existsb_exists. destruct (PI p Hp) as (_ & _ & _ & _ & _ & Hs & _).
      exists (snd p). split; auto. apply Nat.eqb_refl.
    - intros c v. cbn. split; [discriminate|]. intros (p & [] & _).
  Qed.
  Lemma sf_inv : sinv persists PL births0 PL sf.
  Proof.
    unfold sf. rewrite HPL. rewrite simplify_fold.
    apply (sinv_fold persists n wt mcs T HT HO Hmono PL HPL births0 s0 s0_inv PL []). reflexivity.
  Qed.
  Notation INV := sf_inv.
  Notation pm := (parent_map sf).

  Lemma pm_pair p : In p PL -> (stays persists sf p = true /\ pm (pa p) = pa p /\ pm (pb p) = pb p) \/
    (stays persists sf p = false /\ pm (pa p) = pp p /\ pm (pb p) = pp p).
  Proof.
    intro Hp. pose proof (i_pm _ _ _ _ _ INV p Hp) as H. destruct (stays persists sf p); auto.
  Qed.
  Lemma pm_out c : ~ (n < c < top) -> pm c = c.
  Proof.
    intro Hc. apply (i_id _ _ _ _ _ INV). intros p Hp. pose proof (PI p Hp). lia.
  Qed.
  Lemma pm_le c : n <= c -> n <= pm c <= c.
  Proof.
    intro Hc. destruct (le_lt_dec top c) as [H|H]; [rewrite pm_out; lia|].
    destruct (Nat.eq_dec c n) as [->|Hn]; [rewrite pm_out; lia|].
    destruct (pl_of n wt mcs T HT PL HPL c) as (p & Hp & E); [lia|].
    pose proof (PI p Hp). destruct (pm_pair p Hp) as [(_ & E1 & E2)|(_ & E1 & E2)]; destruct E as [->| ->]; lia.
  Qed.
  Lemma pm_up c : pm c <> c -> exists p, In p PL /\ stays persists sf p = false /\ (c = pa p \/ c = pb p) /\ pm c = pp p /\ In c (ch (pp p)).
  Proof.
    intro Hm. assert (Hc : n < c < top).
    { destruct (le_lt_dec top c); [exfalso; apply Hm; apply pm_out; lia|].
      destruct (le_lt_dec c n); [exfalso; apply Hm; apply pm_out; lia|]. lia. }
    destruct (pl_of n wt mcs T HT PL HPL c Hc) as (p & Hp & E). exists p. split; auto.
    assert (Hch : In c (ch (pp p))) by (apply (ch_pl n wt mcs T HT PL HPL); eauto).
    destruct (pm_pair p Hp) as [(_ & E1 & E2)|(Est & E1 & E2)]; destruct E as [->| ->]; try congruence; auto.
  Qed.

  Notation ids := (seq n (top - n)).
  Definition rep : nat -> nat := propagate ids pm.
  Lemma rep_eq c : n <= c < top -> rep c = if pm c =? c then c else rep (pm c).
  Proof. intro Hc. apply (propagate_ok n pm pm_le (top - n)). lia. Qed.
  Lemma rep_fix c : n <= c < top -> pm c = c -> rep c = c.
  Proof. intros Hc E. rewrite rep_eq by auto. rewrite E, Nat.eqb_refl. auto. Qed.
  Lemma rep_step c : n <= c < top -> pm c <> c -> rep c = rep (pm c).
  Proof. intros Hc E. rewrite rep_eq at 1 by auto. now apply Nat.eqb_neq in E as ->. Qed.
  Lemma rep_ok c : n <= c < top -> n <= rep c <= c /\ pm (rep c) = rep c /\ In c (sb (rep c)).
  Proof.
    induction c as [c IH] using lt_wf_ind. intro Hc. destruct (Nat.eq_dec (pm c) c) as [E|E].
    - rewrite rep_fix by auto. split; [lia|]. split; auto. apply (sub_self ch top up bound).
    - rewrite rep_step by auto. pose proof (pm_le c (proj1 Hc)).
      destruct (pm_up c E) as (p & Hp & _ & _ & Epm & Hch). destruct (IH (pm c)) as (H1 & H2 & H3); [lia|lia|].
      split; [lia|]. split; auto. eapply (sub_trans ch top up bound); [exact H3|]. rewrite Epm.
      apply (sub_child ch top up bound _ _ Hch), (sub_self ch top up bound).
  Qed.
  Lemma rep_le c : n <= c -> n <= rep c <= c.
  Proof.
    intro Hc. destruct (le_lt_dec top c) as [H|H]; [|apply rep_ok; lia].
    assert (E : rep c = pm c) by (apply (propagate_ok n pm pm_le (top - n)); lia). rewrite E, pm_out; lia.
  Qed.
  Lemma rep_kept c : n <= c < top -> (rep c = c <-> pm c = c).
  Proof.
    intro Hc. split; [|now apply rep_fix]. intro E. rewrite <- E. now apply rep_ok.
  Qed.

  Definition kp (c : nat) : bool := rep c =? c.
  Notation nid := (new_id n kp).
  Lemma kp_iff c : n <= c < top -> (kp c = true <-> pm c = c).
  Proof. intro Hc. unfold kp. rewrite Nat.eqb_eq. now apply rep_kept. Qed.
  Lemma top_gt : n < top.
  Proof. unfold top_id. lia. Qed.
  Lemma kp_root : kp n = true.
  Proof. pose proof top_gt. apply kp_iff; [lia|]. apply pm_out; lia. Qed.
  Lemma kp_rep c : n <= c < top -> kp (rep c) = true.
  Proof. intro Hc. destruct (rep_ok c Hc) as (H1 & H2 & _). apply kp_iff; auto. lia. Qed.
  Lemma kp_pair p : In p PL -> kp (pa p) = kp (pb p) /\ kp (pa p) = stays persists sf p.
  Proof.
    intro Hp. pose proof (PI p Hp).
    assert (Ha := kp_iff (pa p)). assert (Hb := kp_iff (pb p)).
    destruct (pm_pair p Hp) as [(-> & E1 & E2)|(-> & E1 & E2)].
    - rewrite (proj2 (Ha ltac:(lia)) E1), (proj2 (Hb ltac:(lia)) E2). auto.
    - assert (Hna : kp (pa p) = false) by (apply not_true_is_false; intro K; apply Ha in K; lia).
      assert (Hnb : kp (pb p) = false) by (apply not_true_is_false; intro K; apply Hb in K; lia).
      rewrite Hna, Hnb. auto.
  Qed.

  Definition new_row (r : crow V Sz) : crow V Sz :=
    {| c_parent := nid (rep (c_parent r));
       c_child := if n <=? c_child r then nid (rep (c_child r)) else c_child r;
       c_lam := dict_get_or (lambda_map sf) (c_parent r) (c_lam r);
       c_size := c_size r |}.
  Definition keep_row (r : crow V Sz) : bool := (c_child r <? n) || kp (c_child r).
  Definition T' : list (crow V Sz) := map new_row (filter keep_row T).

  Lemma in_range r : In r T -> n <= c_parent r < top /\ (c_child r < n \/ n < c_child r < top).
  Proof.
    intro Hr. split; [now apply (parent_ge n wt mcs T HT)|]. destruct (le_lt_dec n (c_child r)); auto.
    right. apply (ct_child_in n wt mcs T HT). now apply (in_ct n T).
  Qed.

  Lemma last_child : exists q l, rev CT = q :: l /\ c_child q + 1 = top.
  Proof.
    destruct (rev CT) as [|q l] eqn:E.
    - exfalso. apply Hne. rewrite <- (rev_involutive CT), E. reflexivity.
    - exists q, l. split; auto. assert (Hi : CT = rev l ++ [q]) by (rewrite <- (rev_involutive CT), E; reflexivity).
      assert (Hnth : nth_error CT (length l) = Some q).
      { rewrite Hi, nth_error_app2; rewrite rev_length; [|lia]. now rewrite Nat.sub_diag. }
      apply (ct_nth n wt mcs T HT) in Hnth. unfold top_id. rewrite Hi, app_length, rev_length. simpl. lia.
  Qed.

  Lemma simplify_ok : simplify_hierarchy persists garbage T = Ok T'.
  Proof.
    unfold simplify_hierarchy. rewrite (mask_ok n wt mcs T HT Hone).
    destruct T as [|f l] eqn:ET; [exfalso; apply Hne; reflexivity|]. rewrite <- ET in *.
    rewrite (first_parent n wt mcs T HT f l ET).
    destruct last_child as (q & l' & Erev & Eq). rewrite Erev. rewrite Eq. rewrite <- Erev.
    fold births0 s0 sf. fold rep.
    destruct (renumber_ok n rep rep_le (top - n)) as [R1 R2]. fold (renumber n ids rep) in R1, R2.
    destruct (renumber n ids rep) as [pm2 skp] eqn:Eren. cbn [fst snd] in R1, R2. f_equal.
    unfold T'.
    assert (H : forall L, incl L T -> flat_map (simplify_row n (lambda_map sf) pm2 skp) L = map new_row (filter keep_row L)).
    { induction L as [|r L IH]; intro HL; auto. cbn [flat_map filter].
      rewrite IH by (intros x Hx; apply HL; simpl; auto). assert (Hr : In r T) by (apply HL; simpl; auto).
      destruct (in_range r Hr) as [Hp Hc]. pose proof top_gt.
      assert (Epar : pm2 (c_parent r) = nid (rep (c_parent r))) by (apply R1; lia).
      unfold simplify_row, keep_row, new_row at 2.
      destruct Hc as [Hc|Hc].
      - rewrite Nat.max_r by lia. destruct (R1 n ltac:(lia)) as [_ ->]. fold (kp n). rewrite kp_root. cbn [negb].
        rewrite (proj2 (Nat.ltb_lt _ _) Hc). cbn [orb map app]. f_equal. unfold new_row.
        rewrite Epar. rewrite (proj2 (Nat.leb_gt _ _) Hc). reflexivity.
      - rewrite Nat.max_l by lia. destruct (R1 (c_child r) ltac:(lia)) as [Ec ->]. fold (kp (c_child r)).
        rewrite (proj2 (Nat.ltb_ge _ _)) by lia. cbn [orb]. destruct (kp (c_child r)) eqn:Ek; cbn [negb map app]; auto.
        f_equal. unfold new_row. rewrite Epar, (proj2 (Nat.leb_le _ _)) by lia. rewrite Ec. reflexivity. }
    apply H. apply incl_refl.
  Qed.

  (** ** The new tree *)
  Lemma nid_inj c d : n <= c < top -> n <= d < top -> nid (rep c) = nid (rep d) -> rep c = rep d.
  Proof.
    intros Hc Hd E. apply (new_id_inj n kp) in E; auto; try (now apply kp_rep); now apply rep_ok.
  Qed.
  Lemma keep_child r : In r T -> keep_row r = true -> (c_child r < n /\ c_child (new_row r) = c_child r) \/
    (n < c_child r < top /\ kp (c_child r) = true /\ rep (c_child r) = c_child r /\ c_child (new_row r) = nid (c_child r) /\ n < c_child (new_row r)).
  Proof.
    intros Hr Hk. destruct (in_range r Hr) as [Hp [Hc|Hc]].
    - left. split; auto. unfold new_row. cbn. now rewrite (proj2 (Nat.leb_gt _ _) Hc).
    - right. split; auto. unfold keep_row in Hk. rewrite (proj2 (Nat.ltb_ge _ _)) in Hk by lia. cbn [orb] in Hk. split; auto.
      assert (Er : rep (c_child r) = c_child r) by (apply Nat.eqb_eq; exact Hk). split; auto.
      assert (Ec : c_child (new_row r) = nid (c_child r)) by (unfold new_row; cbn; rewrite (proj2 (Nat.leb_le _ _)) by lia; now rewrite Er).
      split; auto. rewrite Ec, <- (new_id_root n kp) at 1. apply (new_id_lt n kp); auto; [lia|apply kp_root].
  Qed.
  Lemma in_T' r' : In r' T' <-> exists r, In r T /\ keep_row r = true /\ r' = new_row r.
  Proof.
    unfold T'. rewrite in_map_iff. split; [intros (r & <- & H); apply filter_In in H; exists r; tauto|].
    intros (r & H1 & H2 & ->). exists r. split; auto. apply filter_In; auto.
  Qed.

  Lemma filter_map_comm {A B} (f : A -> B) (g : B -> bool) (h : A -> bool) (k : A -> bool) l :
    (forall x, In x l -> k x = true -> g (f x) = h x) ->
    filter g (map f (filter k l)) = map f (filter (fun x => k x && h x) l).
  Proof.
    induction l as [|a l IH]; intro H; auto. cbn [filter]. destruct (k a) eqn:Ek; cbn [map filter andb].
    - rewrite (H a) by (simpl; auto). destruct (h a); cbn [map]; rewrite IH by (intros; apply H; simpl; auto); auto.
    - apply IH. intros; apply H; simpl; auto.
  Qed.

  Lemma samples' : sample_rows n T' = map new_row (sample_rows n T).
  Proof.
    unfold sample_rows, T'. rewrite (filter_map_comm new_row _ (fun r => c_child r <? n)).
    - f_equal. apply filter_ext. intro r. unfold keep_row. destruct (c_child r <? n); auto. now rewrite andb_false_r.
    - intros r Hr Hk. destruct (keep_child r Hr Hk) as [[H1 ->]|(H1 & _ & _ & _ & H2)]; auto.
      rewrite (proj2 (Nat.ltb_ge _ _)), (proj2 (Nat.ltb_ge _ _)) by lia. reflexivity.
  Qed.
  Lemma filter_filter {A} (f g : A -> bool) l : filter f (filter g l) = filter (fun x => g x && f x) l.
  Proof. induction l as [|a l IH]; auto. cbn. destruct (g a); cbn; [destruct (f a)|]; rewrite IH; auto. Qed.
  Lemma clusters' : cluster_rows n T' = map new_row (filter (fun r => kp (c_child r)) CT).
  Proof.
    unfold cluster_rows at 1, T'. rewrite (filter_map_comm new_row _ (fun r => n <=? c_child r)).
    - f_equal. unfold cluster_rows. rewrite filter_filter. apply filter_ext. intro r. unfold keep_row.
      destruct (Nat.ltb_spec (c_child r) n) as [H|H]; destruct (Nat.leb_spec n (c_child r)) as [H'|H']; try lia; simpl; auto.
      now rewrite andb_true_r.
    - intros r Hr Hk. destruct (keep_child r Hr Hk) as [[H1 ->]|(H1 & _ & _ & _ & H2)]; auto.
      rewrite (proj2 (Nat.leb_le _ _)), (proj2 (Nat.leb_le _ _)) by lia. reflexivity.
  Qed.
  Definition PL' : list (crow V Sz * crow V Sz) :=
    map (fun p => (new_row (fst p), new_row (snd p))) (filter (fun p => kp (pa p)) PL).
  Lemma clusters_two : cluster_rows n T' = two PL'.
  Proof.
    rewrite clusters', HPL, two_filter, two_map; [reflexivity|]. intros p Hp. apply (kp_pair p Hp).
  Qed.

  Lemma ids' : map c_child (cluster_rows n T') = seq (n + 1) (length (cluster_rows n T')).
  Proof.
    assert (E : map c_child (cluster_rows n T') = map nid (filter kp (map c_child CT))).
    { rewrite clusters', map_map.
      assert (H : forall L, incl L CT -> map (fun r => c_child (new_row r)) (filter (fun r => kp (c_child r)) L) = map nid (filter kp (map c_child L))).
      { induction L as [|r L IH]; intro HL; auto. cbn [filter map].
        assert (Hr : In r CT) by (apply HL; simpl; auto).
        destruct (kp (c_child r)) eqn:Ek; cbn [map]; rewrite IH by (intros x Hx; apply HL; simpl; auto); auto. f_equal.
        pose proof (ct_child_in n wt mcs T HT r Hr). destruct (keep_child r (ct_in n T r Hr)) as [[Hc _]|(_ & _ & _ & Ec & _)]; auto; [|lia].
        unfold keep_row. rewrite Ek. apply orb_true_r. }
      apply H. apply incl_refl. }
    assert (El : length (cluster_rows n T') = length (filter kp (map c_child CT))).
    { rewrite <- (map_length c_child), E, map_length. reflexivity. }
    rewrite E, El, (P_CTree.ids n wt mcs T HT). apply (new_id_seq n kp kp_root).
  Qed.

  (** A cluster appears before everything below it. *)
  Lemma anc_before : forall p T1 r T2 P, T = T1 ++ r :: T2 -> c_parent r = p -> In p (sb P) -> n < P ->
    exists q, In q T1 /\ c_child q = P.
  Proof.
    induction p as [p IH] using lt_wf_ind. intros T1 r T2 P ET Ep Hi HP.
    destruct (ct_order _ _ _ _ HT T1 r T2 ET) as [E|(Hlt & q & Hq & Eq)].
    - apply (sub_ge ch top up bound) in Hi. lia.
    - destruct (Nat.eq_dec p P) as [->|Hne']; [exists q; split; auto; congruence|].
      apply in_split in Hq as (l1 & l2 & ->).
      assert (ET' : T = l1 ++ q :: (l2 ++ r :: T2)) by (rewrite ET, <- app_assoc; reflexivity).
      assert (HqT : In q T) by (rewrite ET'; apply in_elt).
      assert (HqC : In q CT) by (apply (in_ct n T); auto; lia).
      pose proof (parent_lt_child n wt mcs T HT q HqC).
      assert (Hch : In p (ch (c_parent q))) by (apply (ch_in n T); exists q; split; auto; split; auto; congruence).
      destruct (sub_up ch top up bound P p Hi Hne') as (p' & Hp' & HpP). rewrite (cone _ _ _ Hp' Hch) in HpP.
      destruct (IH (c_parent q)) with (T1 := l1) (r := q) (T2 := l2 ++ r :: T2) (P := P) as (q' & Hq' & Eq'); auto; [lia|].
      exists q'. split; auto. apply in_app_iff. auto.
  Qed.

  Lemma new_parent r : c_parent (new_row r) = nid (rep (c_parent r)).
  Proof. reflexivity. Qed.

  Lemma order' T1' r' T2' : T' = T1' ++ r' :: T2' ->
    c_parent r' = n \/ (n < c_parent r' /\ exists q, In q T1' /\ c_child q = c_parent r').
  Proof.
    intro E. unfold T' in E. apply map_filter_split in E as (T1 & r & T2 & ET & Hk & <- & -> & ->).
    assert (Hr : In r T) by (rewrite ET; apply in_elt). destruct (in_range r Hr) as [Hp _].
    destruct (rep_ok _ Hp) as (H1 & H2 & H3). rewrite new_parent.
    destruct (Nat.eq_dec (rep (c_parent r)) n) as [->|Hn]; [left; apply (new_id_root n kp)|]. right.
    split; [rewrite <- (new_id_root n kp) at 1; apply (new_id_lt n kp); [lia|lia|apply kp_root]|].
    destruct (anc_before _ T1 r T2 (rep (c_parent r)) ET eq_refl H3) as (q & Hq & Eq); [lia|].
    assert (HqT : In q T) by (rewrite ET; apply in_app_iff; auto).
    assert (Kq : keep_row q = true) by (unfold keep_row; rewrite Eq, kp_rep by auto; apply orb_true_r).
    exists (new_row q). split; [apply in_map, filter_In; auto|].
    destruct (keep_child q HqT Kq) as [[Hc _]|(_ & _ & _ & -> & _)]; [lia|]. now rewrite Eq.
  Qed.

  (** Samples below. *)
  Lemma below_to c x : below n T c x -> below n T' (nid (rep c)) x.
  Proof.
    induction 1 as [r x Hr Ec Hx|r x Hr Hc Hb IH].
    - assert (Hk : keep_row r = true) by (unfold keep_row; rewrite Ec, (proj2 (Nat.ltb_lt _ _) Hx); auto).
      rewrite <- new_parent. apply below_here; auto; [apply in_T'; eauto|].
      destruct (keep_child r Hr Hk) as [[_ ->]|]; auto. lia.
    - destruct (in_range r Hr) as [Hp [|Hcr]]; [lia|].
      destruct (kp (c_child r)) eqn:Ek.
      + assert (Hk : keep_row r = true) by (unfold keep_row; rewrite Ek; apply orb_true_r).
        destruct (keep_child r Hr Hk) as [[]|(_ & _ & Er & Enew & Hn)]; [lia|].
        rewrite <- new_parent. apply below_deep; [apply in_T'; eauto|lia|]. rewrite Enew, <- Er. auto.
      + assert (Hm : pm (c_child r) <> c_child r) by (intro E; apply kp_iff in E; [congruence|lia]).
        rewrite rep_step in IH by (auto; lia). destruct (pm_up _ Hm) as (p & Hp' & _ & _ & E & Hch).
        assert (Hch' : In (c_child r) (ch (c_parent r))) by (apply (ch_in n T); exists r; split; auto; apply (in_ct n T); auto).
        rewrite E, (cone _ _ _ Hch Hch') in IH. auto.
  Qed.
  Lemma below_from c' x : below n T' c' x -> forall c, n <= c < top -> kp c = true -> c' = nid c -> below n T c x.
  Proof.
    assert (Hpar : forall r c, In r T -> n <= c < top -> kp c = true -> c_parent (new_row r) = nid c -> In (c_parent r) (sb c)).
    { intros r c Hr Hc Kc E. destruct (in_range r Hr) as [Hp _]. rewrite new_parent in E.
      destruct (rep_ok _ Hp) as (H1 & H2 & H3).
      apply (new_id_inj n kp) in E; auto; try lia; [congruence|now apply kp_rep]. }
    induction 1 as [r' x Hr' Ec Hx|r' x Hr' Hc' Hb IH]; intros c Hc Kc E; apply in_T' in Hr' as (r & Hr & Hk & ->).
    - apply (below_sub n wt mcs T HT). exists r. split; auto. specialize (Hpar r c Hr Hc Kc E).
      destruct (keep_child r Hr Hk) as [[H1 H2]|(_ & _ & _ & _ & H)]; [|lia]. split; [congruence|auto].
    - destruct (keep_child r Hr Hk) as [[H1 H2]|(Hcr & Kcr & _ & Enew & _)]; [rewrite H2 in Hc'; lia|].
      assert (Hb' : below n T (c_child r) x) by (apply IH; auto; lia).
      apply (below_up n wt mcs T HT c (c_child r)); auto.
      eapply (sub_trans ch top up bound); [apply (Hpar r c Hr Hc Kc E)|].
      assert (Hch' : In (c_child r) (ch (c_parent r))) by (apply (ch_in n T); exists r; split; auto; apply (in_ct n T); auto; lia).
      apply (sub_child ch top up bound _ _ Hch'), (sub_self ch top up bound).
  Qed.
  Lemma below_iff c x : n <= c < top -> kp c = true -> (below n T' (nid c) x <-> below n T c x).
  Proof.
    intros Hc Kc. split; [intro H; now apply (below_from _ _ H)|]. intro H. apply below_to in H.
    unfold kp in Kc. apply Nat.eqb_eq in Kc. now rewrite Kc in H.
  Qed.

  (** Densities. *)
  Lemma lam_chain c r : In r CT -> c_child r = c -> forall d q, In d (sb c) -> In q T -> c_parent q = d -> wle (c_lam r) (c_lam q) = true.
  Proof.
    intros Hr Ec d. induction d as [d IH] using lt_wf_ind. intros q Hd Hq Eq.
    pose proof (ct_child_in n wt mcs T HT r Hr) as Hcr.
    destruct (Nat.eq_dec d c) as [->|Hne'].
    - apply (ct_lambda _ _ _ _ HT r q); auto; [now apply (ct_in n T)|lia|congruence].
    - destruct (sub_up ch top up bound c d Hd Hne') as (p & Hp & Hpc).
      apply (ch_in n T) in Hp as (o & Ho & Eop & Eoc). pose proof (parent_lt_child n wt mcs T HT o Ho).
      pose proof (ct_child_in n wt mcs T HT o Ho).
      eapply wle_trans; [apply (IH p ltac:(lia) o Hpc (ct_in n T o Ho) Eop)|].
      apply (ct_lambda _ _ _ _ HT o q); auto; [now apply (ct_in n T)|lia|congruence].
  Qed.

  Lemma new_lam r : In r T -> c_lam (new_row r) = c_lam r \/
    exists o, In o CT /\ c_child o = c_parent r /\ pm (c_parent r) <> c_parent r /\ c_lam (new_row r) = c_lam o.
  Proof.
    intro Hr. unfold new_row. cbn [c_lam]. unfold dict_get_or.
    destruct (dict_get (lambda_map sf) (c_parent r)) as [v|] eqn:E; auto. right.
    apply (i_lam _ _ _ _ _ INV) in E as (p & Hp & Hst & Ec & -> & _).
    destruct (PI p Hp) as (Eb & E1 & E2 & Hlt & Hf & Hsn & Htop).
    destruct (pm_pair p Hp) as [(Hst' & _)|(_ & M1 & M2)]; [congruence|].
    destruct (other_cases sf p) as [[Eo _]|[Eo _]]; rewrite Eo in Ec; rewrite Ec.
    - exists (fst p). split; auto. split; auto. split; [lia|]. auto.
    - exists (snd p). split; auto. split; auto. split; [lia|]. auto.
  Qed.

  Lemma lambda' r q : In r T' -> In q T' -> n <= c_child r -> c_parent q = c_child r -> wle (c_lam r) (c_lam q) = true.
  Proof.
    intros Hr Hq Hc E. apply in_T' in Hr as (r0 & Hr & Kr & ->). apply in_T' in Hq as (q0 & Hq & Kq & ->).
    destruct (keep_child r0 Hr Kr) as [[H1 H2]|(Hcr & Kcr & _ & Enew & _)]; [rewrite H2 in Hc; lia|].
    assert (HrC : In r0 CT) by (apply (in_ct n T); auto; lia).
    destruct (in_range q0 Hq) as [Hpq _]. rewrite new_parent, Enew in E.
    destruct (rep_ok _ Hpq) as (R1 & R2 & R3).
    apply (new_id_inj n kp) in E; auto; try lia; [|now apply kp_rep]. rewrite E in R3.
    assert (L1 : wle (c_lam (new_row r0)) (c_lam r0) = true).
    { destruct (new_lam r0 Hr) as [-> |(o & Ho & Eo & _ & ->)]; [apply wle_refl|].
      pose proof (ct_child_in n wt mcs T HT o Ho). apply (ct_lambda _ _ _ _ HT o r0); auto; [now apply (ct_in n T)|lia]. }
    eapply wle_trans; [exact L1|].
    destruct (new_lam q0 Hq) as [-> |(o & Ho & Eo & Hm & ->)].
    - now apply (lam_chain (c_child r0) r0 HrC eq_refl (c_parent q0)).
    - assert (Hnec : c_parent q0 <> c_child r0) by (intro Ee; rewrite Ee in Hm; apply Hm; apply kp_iff; auto; lia).
      destruct (sub_up ch top up bound _ _ R3 Hnec) as (p & Hp & Hpc).
      apply (lam_chain (c_child r0) r0 HrC eq_refl p); auto; [now apply (ct_in n T)|].
      apply (cone _ _ (c_parent q0)); auto. apply (ch_in n T). exists o. auto.
  Qed.

  Theorem condensed' : condensed n wt mcs T'.
  Proof.
    constructor.
    - rewrite samples', map_map.
      assert (E : map (fun r => c_child (new_row r)) (sample_rows n T) = map c_child (sample_rows n T)).
      { apply map_ext_in. intros r Hr. apply filter_In in Hr as [_ Hc]. apply Nat.ltb_lt in Hc.
        unfold new_row. cbn. now rewrite (proj2 (Nat.leb_gt _ _) Hc). }
      rewrite E. apply (ct_samples _ _ _ _ HT).
    - exists (length PL'). rewrite ids', clusters_two, two_length. reflexivity.
    - intros j r q Hr Hq. rewrite clusters_two, two_nth0 in Hr. rewrite clusters_two, two_nth1 in Hq.
      destruct (nth_error PL' j) as [p'|] eqn:Ep; [|discriminate]. injection Hr as <-. injection Hq as <-.
      apply nth_error_In in Ep. unfold PL' in Ep. apply in_map_iff in Ep as (p & <- & Hp). apply filter_In in Hp as [Hp _].
      destruct (PI p Hp) as (_ & E1 & E2 & _). unfold new_row. cbn. unfold pp in E1. unfold pd in E2. rewrite E1, E2. auto.
    - exact order'.
    - exact lambda'.
    - intros r' Hr' Hc. apply in_T' in Hr' as (r & Hr & Hk & ->).
      destruct (keep_child r Hr Hk) as [[H1 H2]|(Hcr & Kcr & _ & Enew & _)]; [rewrite H2 in Hc; lia|].
      destruct (ct_sizes _ _ _ _ HT r Hr) as (Hm & xs & Hnd & Hxs & Es); [lia|].
      split; auto. exists xs. split; auto. split; auto. intro x. rewrite Hxs, Enew. symmetry. apply below_iff; auto. lia.
    - intros r' Hr' Hc. apply in_T' in Hr' as (r & Hr & Hk & ->).
      destruct (keep_child r Hr Hk) as [[H1 H2]|(_ & _ & _ & _ & H)]; [|lia]. now apply (ct_sample_size _ _ _ _ HT r Hr).
  Qed.
End Top.
