(** The label vector. *)
From Coq Require Import List Arith Lia Bool ZArith Permutation Sorted.
From Verif Require Import Prelude Order Graph UF Size M_DisjointSet P_DisjointSet M_Kruskal P_Sort M_Linkage P_Cut
  M_Condense S_Condense M_Select S_Select P_CTree P_Below P_Eom M_Labels S_Labels P_Labels.
Import ListNotations.
Local Open Scope nat_scope.

(** ** Positions *)
Lemma countp_perm {A} (p : A -> bool) l l' : Permutation l l' -> countp p l = countp p l'.
Proof. induction 1; simpl; lia. Qed.

Lemma position_sorted (l : list nat) : nsorted (fun c => c) l -> NoDup l ->
  forall i t, nth_error l i = Some t -> position l t = i.
Proof.
  unfold position. induction 1 as [|a l Hs IH Hf]; intros HN i t E.
  - now destruct i.
  - inversion_clear HN as [|? ? Hn HN']. destruct i as [|i]; cbn [nth_error] in E.
    + injection E as <-. cbn [countp]. rewrite Nat.ltb_irrefl. cbn [Nat.add].
      clear - Hf. induction Hf as [|b l Hb Hf IH]; cbn [countp]; auto.
      destruct (Nat.ltb_spec b a); [lia|]. auto.
    + cbn [countp]. rewrite (IH HN' i t E).
      rewrite Forall_forall in Hf. assert (Hi : In t l) by (eapply nth_error_In; eauto).
      specialize (Hf _ Hi). destruct (Nat.ltb_spec a t) as [|H]; [lia|].
      exfalso. apply Hn. replace a with t by lia. auto.
Qed.

Lemma position_nsort S t : position S t = position (nsort (fun c => c) S) t.
Proof. apply countp_perm, nsort_perm. Qed.

Lemma position_nth (S : list nat) t : NoDup S -> In t S -> nth_error (nsort (fun c => c) S) (position S t) = Some t.
Proof.
  intros HN Ht. assert (Hi : In t (nsort (fun c => c) S)) by now apply nsort_in.
  apply In_nth_error in Hi as (i & E). rewrite position_nsort.
  rewrite (position_sorted _ (nsort_sorted _ _) (nsort_NoDup _ _ HN) i t E). auto.
Qed.

Lemma position_inj (S : list nat) s t : NoDup S -> In s S -> In t S -> position S s = position S t -> s = t.
Proof.
  intros HN Hs Ht E. pose proof (position_nth S s HN Hs) as H1. pose proof (position_nth S t HN Ht) as H2.
  rewrite E in H1. congruence.
Qed.

Lemma position_lt (S : list nat) t : NoDup S -> In t S -> position S t < length S.
Proof.
  intros HN Ht. rewrite <- (nsort_length (fun c => c) S). apply nth_error_Some. rewrite position_nth; auto. discriminate.
Qed.

Lemma map_fold l : forall k d i t, NoDup l -> nth_error l i = Some t ->
  dict_get (fold_left (fun d ic => dict_set d (snd ic) (fst ic)) (combine (seq k (length l)) l) d) t = Ok (k + i).
Proof.
  assert (Hk : forall l k d t, ~ In t l ->
    dict_get (fold_left (fun d ic => dict_set d (snd ic) (fst ic)) (combine (seq k (length l)) l) d) t = dict_get d t).
  { clear. induction l as [|a l IH]; intros k d t Ht; simpl; auto. rewrite IH by (intro; apply Ht; simpl; auto).
    rewrite dict_get_set. destruct (Nat.eqb_spec t a) as [->|]; auto. exfalso. apply Ht. simpl; auto. }
  induction l as [|a l IH]; intros k d i t HN E; [now destruct i|].
  inversion_clear HN as [|? ? Hn HN']. destruct i as [|i]; cbn [nth_error] in E.
  - injection E as <-. simpl. rewrite Hk by auto. rewrite dict_get_set, Nat.eqb_refl. f_equal. lia.
  - simpl. rewrite (IH (S k) _ i t HN' E). f_equal. lia.
Qed.

Lemma cluster_label_map_ok (S : list nat) t : NoDup S -> In t S -> dict_get (cluster_label_map S) t = Ok (position S t).
Proof.
  intros HN Ht. unfold cluster_label_map. rewrite <- (nsort_length (fun c => c) S).
  rewrite (map_fold _ 0 [] (position S t)); auto.
  - now apply nsort_NoDup.
  - now apply position_nth.
Qed.

(** ** Maxima *)
Section Max.
  Context {V : WOrd}.
  Lemma vmax_le (x y z : V) : wle (vmax x y) z = true <-> wle x z = true /\ wle y z = true.
  Proof.
    unfold vmax. destruct (wlt x y) eqn:E.
    - split; [intro H; split; auto|tauto]. apply (wle_trans V _ y); auto. now apply wlt_le.
    - apply wlt_false in E. split; [intro H; split; auto|tauto]. apply (wle_trans V _ x); auto.
  Qed.
  Lemma fold_vmax_le l : forall (x z : V), wle (fold_left vmax l x) z = true <-> wle x z = true /\ forall y, In y l -> wle y z = true.
  Proof.
    induction l as [|a l IH]; intros x z; simpl.
    - split; [intro; split; auto; tauto|tauto].
    - rewrite IH, vmax_le. split.
      + intros [[H1 H2] H3]. split; auto. intros y [<-|Hy]; auto.
      + intros [H1 H2]. split; auto.
  Qed.
  Lemma fold_vmax_in l : forall (x : V), In (fold_left vmax l x) (x :: l).
  Proof.
    induction l as [|a l IH]; intro x; simpl; auto. destruct (IH (vmax x a)) as [H|H]; [|simpl; auto].
    unfold vmax in H at 1. destruct (wlt x a); rewrite <- H; auto.
  Qed.
End Max.

Section Tree.
  Context {V : WOrd} {Sz : SOrd} (LA : LamArith V).
  Variables (n : nat) (T : list (crow V Sz)) (S : list nat).
  Hypothesis HT : ordered_tree n T.
  Hypothesis Hn : 0 < n.
  Hypothesis HC : forall s, In s S -> is_cluster n T s.
  Hypothesis HN : NoDup S.
  Notation row_zero r := (veq (c_lam r) (la_zero LA)).

  Lemma S_ge s : In s S -> n <= s.
  Proof. intro H. destruct (HC _ H) as [->|[? _]]; auto. Qed.

  Lemma T_ne : T <> [].
  Proof. destruct (ordered_sample_row n T HT 0 Hn) as (r & Hr & _). intros ->. destruct Hr. Qed.

  Lemma first_row : exists r l, T = r :: l /\ c_parent r = n.
  Proof.
    case_eq T; [intro E; now destruct T_ne|]. intros r l E. exists r, l. split; auto.
    destruct (ot_order _ _ HT [] r l E) as [H|(_ & q & [] & _)]. auto.
  Qed.

  Lemma T_min : array_min (map c_parent T) = Ok n.
  Proof.
    apply array_min_ok.
    - destruct first_row as (r & l & -> & H). left. auto.
    - intros y Hy. apply in_map_iff in Hy as (r & <- & Hr). now apply (ordered_parent_ge n T HT).
  Qed.

  Lemma max_some (f : crow V Sz -> nat) : exists m, array_max (map f T) = Ok m /\ forall r, In r T -> f r <= m.
  Proof.
    destruct first_row as (r & l & -> & _).
    exists (fold_left Nat.max (map f l) (f r)). split; auto.
    destruct (fold_max_spec (map f l) (f r)) as (_ & H2 & H3).
    intros q [<-|Hq]; auto. apply H3. now apply in_map.
  Qed.

  Lemma lambda_of_ok r : In r T -> lambda_of T (c_child r) = Ok (c_lam r).
  Proof.
    intro Hr. unfold lambda_of.
    assert (E : filter (fun q => c_child q =? c_child r) T = [r]).
    { pose proof (children_NoDup n T HT) as HND. revert HND Hr. generalize T as l. clear.
      induction l as [|a l IH]; simpl; intros HND Hr; [tauto|]. inversion_clear HND as [|? ? Ha Hl].
      destruct Hr as [->|Hr].
      - rewrite Nat.eqb_refl. f_equal. clear - Ha. induction l as [|b l IH]; simpl in *; auto.
        destruct (Nat.eqb_spec (c_child b) (c_child r)); [exfalso; auto|]. apply IH. tauto.
      - destruct (Nat.eqb_spec (c_child a) (c_child r)) as [E|_]; [|auto].
        exfalso. apply Ha. rewrite E. now apply in_map. }
    now rewrite E.
  Qed.

  Lemma max_leaving_ok : exists m, max_leaving_lambda T n = Ok m /\
    forall z, wle m z = true <-> forall r, In r T -> c_parent r = n -> wle (c_lam r) z = true.
  Proof.
    unfold max_leaving_lambda. destruct (filter (fun r => c_parent r =? n) T) as [|a l] eqn:E.
    - exfalso. destruct first_row as (r & l & ET & H). rewrite ET in E. simpl in E. rewrite H, Nat.eqb_refl in E. discriminate.
    - simpl. eexists. split; [reflexivity|]. intro z. rewrite fold_vmax_le. split.
      + intros [H1 H2] r Hr Hp. assert (Hi : In r (a :: l)) by (rewrite <- E; apply filter_In; split; auto; now apply Nat.eqb_eq).
        destruct Hi as [->|Hi]; auto. apply H2. now apply in_map.
      + intro H. assert (Hi : forall r, In r (a :: l) -> wle (c_lam r) z = true).
        { intros r Hr. rewrite <- E in Hr. apply filter_In in Hr as [Hr Hp]. apply Nat.eqb_eq in Hp. auto. }
        split; [apply Hi; simpl; auto|]. intros y Hy. apply in_map_iff in Hy as (r & <- & Hr). apply Hi. simpl; auto.
  Qed.

  Lemma zero_at (r : crow V Sz) : row_zero r = true <-> at_zero (la_zero LA) r.
  Proof. unfold veq, at_zero. apply andb_true_iff. Qed.
  Lemma zero_nat (r : crow V Sz) : row_zero r = false <-> ~ at_zero (la_zero LA) r.
  Proof. rewrite <- zero_at. destruct (row_zero r); split; congruence. Qed.

  Lemma nodup_id : nodup Nat.eq_dec S = S.
  Proof. apply nodup_fixed_point; auto. Qed.

  Lemma label_of_ok eps r c : In r T -> c_child r < n -> (length S = 1 -> S = [n]) ->
    (if row_zero r then c = c_child r else home n S T (c_child r) c) ->
    exists l, label_of T S eps n (c_child r) c = Ok l /\ right_label (la_zero LA) n T S eps r l.
  Proof.
    intros Hr Hx H1 Hc. unfold label_of. destruct (row_zero r) eqn:Ez.
    - subst c. rewrite (proj2 (Nat.ltb_lt _ _) Hx). exists (-1)%Z. split; auto. apply zero_at in Ez. split; [auto|tauto].
    - assert (Hrange := home_range n T S _ _ Hc). apply zero_nat in Ez.
      assert (Hcn : n <= c) by (destruct Hrange as [->|H]; auto; now apply S_ge).
      rewrite (proj2 (Nat.ltb_ge _ _) Hcn). rewrite nodup_id.
      destruct (Nat.eqb_spec c n) as [->|Hne].
      + destruct (Nat.eqb_spec (length S) 1) as [HL|HL].
        * specialize (H1 HL). destruct max_leaving_ok as (m & -> & Hm). cbn [bind]. rewrite lambda_of_ok by auto. cbn [bind].
          assert (Hg : dict_get (cluster_label_map S) n = Ok 0).
          { rewrite cluster_label_map_ok; auto; rewrite H1; simpl; auto. unfold position. simpl. now rewrite Nat.ltb_irrefl. }
          rewrite Hg. cbn [bind].
          assert (Hfin : forall b, (b = true <-> dense_enough n T eps r) ->
            exists l, (if b then Ok (Z.of_nat 0) else Ok (-1)%Z) = Ok l /\ right_label (la_zero LA) n T S eps r l).
          { intros b Hb. exists (if b then 0%Z else (-1)%Z). split; [now destruct b|]. split; [tauto|].
            intros _. exists n. split; auto. split; [tauto|]. split; [tauto|]. intros _ _.
            destruct b; split; intro H; auto; exfalso; [tauto|]. apply Hb in H. discriminate. }
          destruct eps as [e|]; apply Hfin; simpl; [tauto|]. apply Hm.
        * exists (-1)%Z. split; auto. split; [tauto|]. intros _. exists n. split; auto. split; [tauto|].
          split; auto. intros _ ->. exfalso. apply HL. auto.
      + destruct Hrange as [H|Hin]; [contradiction|]. rewrite cluster_label_map_ok by auto. cbn [bind].
        eexists. split; [reflexivity|]. split; [tauto|]. intros _. exists c. split; auto. split; auto. tauto.
  Qed.

  (** The loop over the samples, with their nearest selected ancestors. *)
  Lemma labels_loop eps : S <> [] -> exists reps, length reps = n /\
    (forall r, In r T -> c_child r < n ->
      if row_zero r then nth (c_child r) reps 0 = c_child r else home n S T (c_child r) (nth (c_child r) reps 0)) /\
    get_cluster_label_vector LA T S eps n = map_res (fun xc => label_of T S eps n (fst xc) (snd xc)) (combine (seq 0 n) reps).
  Proof.
    intros HSne. unfold get_cluster_label_vector.
    destruct (max_some c_parent) as (mp & Emp & Hmp). destruct (max_some c_child) as (mc & Emc & Hmc).
    pose proof T_min as Emin. pose proof T_ne as HTne.
    set (N := Nat.max (mp + 1) (mc + 1)) in *.
    assert (HnN : n < N).
    { destruct first_row as (r & l & E & H). assert (Hr : In r T) by (rewrite E; simpl; auto).
      specialize (Hmp r Hr). unfold N. lia. }
    assert (HrN : forall r, In r T -> c_parent r < N /\ c_child r < N).
    { intros r Hr. specialize (Hmp r Hr). specialize (Hmc r Hr). unfold N. lia. }
    destruct (label_unions_ok LA n T S HT S_ge N HrN T [] (ds_rank_create N) eq_refl (linv_init LA n T S N HnN))
      as (d & Ed & HI).
    destruct (cut_roots_ok N (seq 0 n) d (li_ds _ _ _ _ _ _ _ HI)) as (reps & Er & HF).
    { intros x Hx. apply in_seq in Hx. lia. }
    assert (Hlen : length reps = n) by (apply Forall2_len in HF; rewrite seq_length in HF; auto).
    exists reps. split; auto. split.
    - intros r Hr Hx. pose proof (Forall2_nth_def _ _ _ 0 0 (c_child r) HF) as K. rewrite seq_length, seq_nth in K by auto.
      specialize (K Hx). simpl in K. pose proof (li_sample _ _ _ _ _ _ _ HI r Hr Hx) as Hs.
      rewrite (proj2 (Nat.ltb_lt _ _) Hx) in Hs. cbn [andb] in Hs. destruct (row_zero r).
      + eapply Root_fix; eauto.
      + destruct Hs as (t & Ht & HR). rewrite (Root_det _ _ _ _ K HR). apply home_up; auto; [|lia].
        intro Hi. apply S_ge in Hi. lia.
    - replace (match T with [] => Ok (repeat (-1)%Z n) | _ :: _ => _ end) with
        (let* root_cluster := array_min (map c_parent T) in
        let* mp := array_max (map c_parent T) in
        let* mc := array_max (map c_child T) in
        let* d := fold_res (label_union LA S n) T (ds_rank_create (Nat.max (mp + 1) (mc + 1))) in
        if n <? root_cluster then Err IndexError
        else
          let* reps := cut_roots d (seq 0 root_cluster) in
          let* labels := map_res (fun xc => label_of T S eps root_cluster (fst xc) (snd xc))
                                 (combine (seq 0 root_cluster) reps) in
          Ok (labels ++ repeat (-1)%Z (n - root_cluster)))
        by (revert HTne HSne; clear; destruct T, S; congruence).
      rewrite Emin. cbn [bind]. rewrite Emp. cbn [bind]. rewrite Emc. cbn [bind]. fold N. rewrite Ed. cbn [bind].
      rewrite Nat.ltb_irrefl. rewrite Er. cbn [bind].
      destruct (map_res _ (combine (seq 0 n) reps)) as [ls|]; cbn [bind]; auto. rewrite Nat.sub_diag, app_nil_r. auto.
  Qed.

  (** If every sample can be labelled, the labels are right. *)
  Lemma labels_each eps : S <> [] ->
    (forall r c, In r T -> c_child r < n -> (if row_zero r then c = c_child r else home n S T (c_child r) c) ->
      exists l, label_of T S eps n (c_child r) c = Ok l /\ right_label (la_zero LA) n T S eps r l) ->
    exists ls, get_cluster_label_vector LA T S eps n = Ok ls /\ length ls = n /\
      forall r, In r T -> c_child r < n -> right_label (la_zero LA) n T S eps r (nth (c_child r) ls 0%Z).
  Proof.
    intros HSne Hall. destruct (labels_loop eps HSne) as (reps & Hlen & Hrep & ->).
    destruct (map_res_ok (fun xc => label_of T S eps n (fst xc) (snd xc)) (combine (seq 0 n) reps)) as (ls & El & HFl).
    { intros [x c] Hxc. cbn [fst snd]. apply In_nth_error in Hxc as (i & Ei).
      assert (Hi : i < n).
      { assert (H : nth_error (combine (seq 0 n) reps) i <> None) by congruence. apply nth_error_Some in H.
        rewrite combine_length, seq_length in H. lia. }
      apply nth_error_nth with (d := (0, 0)) in Ei. rewrite combine_nth in Ei by now rewrite seq_length.
      rewrite seq_nth in Ei by auto. injection Ei as <- <-. cbn [Nat.add].
      destruct (ordered_sample_row n T HT i Hi) as (r & Hr & <-).
      destruct (Hall r (nth (c_child r) reps 0) Hr Hi (Hrep r Hr Hi)) as (l & E & _). eauto. }
    assert (Hll : length ls = n).
    { apply Forall2_len in HFl. rewrite combine_length, seq_length in HFl. lia. }
    exists ls. split; auto. split; auto. intros r Hr Hx.
    pose proof (Forall2_nth_def _ _ _ (0, 0) 0%Z (c_child r) HFl) as K.
    rewrite combine_length, seq_length, Hlen, Nat.min_id in K. specialize (K Hx).
    rewrite combine_nth, seq_nth in K by (rewrite ?seq_length; auto). cbn [fst snd Nat.add] in K.
    destruct (Hall r (nth (c_child r) reps 0) Hr Hx (Hrep r Hr Hx)) as (l & E & HR).
    rewrite E in K. injection K as <-. auto.
  Qed.

  Lemma labels_ok eps : S <> [] -> (length S = 1 -> S = [n]) ->
    exists ls, get_cluster_label_vector LA T S eps n = Ok ls /\ length ls = n /\
      forall r, In r T -> c_child r < n -> right_label (la_zero LA) n T S eps r (nth (c_child r) ls 0%Z).
  Proof. intros HSne H1. apply labels_each; auto. intros r c Hr Hx Hc. apply label_of_ok; auto. Qed.

  (** One selected cluster that is not the root: the label of a sample that counts
      to the root is looked up in vain, unless the sample is not dense enough. *)
  Section Alone.
    Variables (c0 : nat) (eps : option V).
    Hypothesis HS : S = [c0].
    Hypothesis Hc0 : c0 <> n.

    Lemma label_of_alone r c : In r T -> c_child r < n ->
      (if row_zero r then c = c_child r else home n S T (c_child r) c) ->
      (exists l, label_of T S eps n (c_child r) c = Ok l /\ right_label (la_zero LA) n T S eps r l /\
        ~ (~ at_zero (la_zero LA) r /\ home n S T (c_child r) n /\ dense_enough n T eps r)) \/
      (label_of T S eps n (c_child r) c = Err KeyError /\
        ~ at_zero (la_zero LA) r /\ home n S T (c_child r) n /\ dense_enough n T eps r).
    Proof.
      intros Hr Hx Hc. unfold label_of. destruct (row_zero r) eqn:Ez.
      - subst c. rewrite (proj2 (Nat.ltb_lt _ _) Hx). left. exists (-1)%Z. split; auto. apply zero_at in Ez. split; [split; [auto|tauto]|tauto].
      - assert (Hrange := home_range n T S _ _ Hc). apply zero_nat in Ez.
        assert (Hcn : n <= c) by (destruct Hrange as [->|H]; auto; now apply S_ge).
        rewrite (proj2 (Nat.ltb_ge _ _) Hcn). rewrite nodup_id.
        destruct (Nat.eqb_spec c n) as [->|Hne].
        + assert (HL1 : (length S =? 1) = true) by (rewrite HS; reflexivity). rewrite HL1.
          destruct max_leaving_ok as (m & -> & Hm). cbn [bind]. rewrite lambda_of_ok by auto. cbn [bind].
          assert (Hg : dict_get (cluster_label_map S) n = Err KeyError).
          { rewrite HS. unfold cluster_label_map. cbn. destruct (Nat.eqb_spec n c0); [congruence|]. destruct (Nat.eqb_spec c0 n); [congruence|]. reflexivity. }
          rewrite Hg. cbn [bind].
          assert (Hfin : forall b, (b = true <-> dense_enough n T eps r) ->
            (exists l, (if b then Err KeyError else Ok (-1)%Z) = Ok l /\ right_label (la_zero LA) n T S eps r l /\
              ~ (~ at_zero (la_zero LA) r /\ home n S T (c_child r) n /\ dense_enough n T eps r)) \/
            ((if b then Err KeyError else Ok (-1)%Z) = Err KeyError /\ ~ at_zero (la_zero LA) r /\ home n S T (c_child r) n /\ dense_enough n T eps r)).
          { intros b Hb. destruct b; [right; tauto|left]. exists (-1)%Z. split; auto. split.
            - split; [tauto|]. intros _. exists n. split; auto. split; [tauto|]. split; auto.
              intros _ E. exfalso. apply Hc0. rewrite HS in E. congruence.
            - intros (_ & _ & K). apply Hb in K. discriminate. }
          destruct eps as [e|]; [apply (Hfin (wle e (c_lam r))); simpl; tauto|]. apply (Hfin (wle m (c_lam r))). apply Hm.
        + destruct Hrange as [H|Hin]; [contradiction|]. rewrite cluster_label_map_ok by auto. cbn [bind]. left.
          eexists. split; [reflexivity|]. split.
          * split; [tauto|]. intros _. exists c. split; auto. split; auto. tauto.
          * intros (_ & Hh & _). apply Hne. exact (home_det n T S HT S_ge _ _ Hc _ Hh).
    Qed.

    Lemma labels_alone_fail r : In r T -> c_child r < n -> ~ at_zero (la_zero LA) r -> home n S T (c_child r) n ->
      dense_enough n T eps r -> get_cluster_label_vector LA T S eps n = Err KeyError.
    Proof.
      intros Hr Hx Hz Hh Hd. assert (HSne : S <> []) by (rewrite HS; discriminate).
      destruct (labels_loop eps HSne) as (reps & Hlen & Hrep & ->).
      assert (Hin : In (c_child r, nth (c_child r) reps 0) (combine (seq 0 n) reps)).
      { assert (E : nth (c_child r) (combine (seq 0 n) reps) (0, 0) = (c_child r, nth (c_child r) reps 0)).
        { rewrite combine_nth by (now rewrite seq_length). rewrite seq_nth by auto. reflexivity. }
        rewrite <- E. apply nth_In. rewrite combine_length, seq_length. lia. }
      assert (Hcase : forall xc, In xc (combine (seq 0 n) reps) ->
        (exists l, label_of T S eps n (fst xc) (snd xc) = Ok l) \/ label_of T S eps n (fst xc) (snd xc) = Err KeyError).
      { intros [x c] Hxc. cbn [fst snd]. apply In_nth_error in Hxc as (i & Ei).
        assert (Hi : i < n).
        { assert (H : nth_error (combine (seq 0 n) reps) i <> None) by congruence. apply nth_error_Some in H.
          rewrite combine_length, seq_length in H. lia. }
        apply nth_error_nth with (d := (0, 0)) in Ei. rewrite combine_nth in Ei by now rewrite seq_length.
        rewrite seq_nth in Ei by auto. injection Ei as <- <-. cbn [Nat.add].
        destruct (ordered_sample_row n T HT i Hi) as (q & Hq & <-).
        destruct (label_of_alone q (nth (c_child q) reps 0) Hq Hi (Hrep q Hq Hi)) as [(l & E & _)|(E & _)]; eauto. }
      assert (Hbad : label_of T S eps n (c_child r) (nth (c_child r) reps 0) = Err KeyError).
      { destruct (label_of_alone r (nth (c_child r) reps 0) Hr Hx (Hrep r Hr Hx)) as [(l & _ & _ & K)|(E & _)]; auto. exfalso. tauto. }
      clear - Hin Hcase Hbad. revert Hin Hcase. generalize (combine (seq 0 n) reps) as l.
      induction l as [|a l IH]; intros Hin Hcase; [destruct Hin|]. cbn [map_res].
      destruct (Hcase a (or_introl eq_refl)) as [(v & E)|E]; [|now rewrite E].
      rewrite E. cbn [bind]. destruct Hin as [->|Hin]; [cbn [fst snd] in E; congruence|].
      rewrite IH; auto. intros xc Hxc. apply Hcase. now right.
    Qed.

    Lemma labels_alone_ok : (forall r, In r T -> c_child r < n -> ~ at_zero (la_zero LA) r -> home n S T (c_child r) n -> ~ dense_enough n T eps r) ->
      exists ls, get_cluster_label_vector LA T S eps n = Ok ls /\ length ls = n /\
        forall r, In r T -> c_child r < n -> right_label (la_zero LA) n T S eps r (nth (c_child r) ls 0%Z).
    Proof.
      intro Hno. apply labels_each; [rewrite HS; discriminate|]. intros r c Hr Hx Hc.
      destruct (label_of_alone r c Hr Hx Hc) as [(l & E & HR & _)|(_ & K1 & K2 & K3)]; eauto. exfalso. eapply Hno; eauto.
    Qed.
  End Alone.

  Lemma labels_nothing eps : get_cluster_label_vector LA T [] eps n = Ok (repeat (-1)%Z n).
  Proof. unfold get_cluster_label_vector. case T; reflexivity. Qed.

  (** Homes and the samples below. *)
  Lemma home_below v t : home n S T v t -> forall x, below n T v x -> n <= v -> below n T t x.
  Proof.
    induction 1 as [|v Hv|r t Hr Hns Hnn Hh IH]; intros x Hb Hge; auto.
    apply IH; [|now apply (ordered_parent_ge n T HT)]. eapply below_deep; eauto.
  Qed.

  Lemma home_sample_below x t : x < n -> home n S T x t -> below n T t x.
  Proof.
    intros Hx Hh. inversion Hh as [E|v Hv E|r t0 Hr Hns Hnn Hh' E]; subst; try lia.
    - apply S_ge in Hv. lia.
    - apply (home_below _ _ Hh'); [|now apply (ordered_parent_ge n T HT)]. eapply below_here; eauto.
  Qed.

  Lemma below_home v x : below n T v x -> (forall d, descends n T v d -> ~ In d S) -> forall t, home n S T v t -> home n S T x t.
  Proof.
    induction 1 as [r x Hr E Hx|r x Hr Hge Hb IH]; intros Hd t Ht.
    - subst x. apply home_up; auto; [|lia]. intro Hi. apply S_ge in Hi. lia.
    - apply IH.
      + intros d H. apply Hd. eapply desc_trans; eauto. now constructor.
      + apply home_up; auto.
        * apply Hd. now constructor.
        * intro E. apply (ot_root _ _ HT). rewrite <- E. now apply in_map.
  Qed.

  Lemma disjoint_home x s : disjoint_clusters n T S -> In s S -> below n T s x -> home n S T x s.
  Proof.
    intros HD Hs Hb. apply (below_home _ _ Hb); [|now apply home_here]. intros d Hd Hi. now apply (HD s d).
  Qed.
End Tree.
