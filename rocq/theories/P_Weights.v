(** Core distances with sample weights. *)
From Coq Require Import List Arith Lia Bool Permutation Sorted.
From Verif Require Import Prelude Order Size M_TreeQuery S_SpaceTree M_Weights S_Weights.
Import ListNotations.

Section Scan.
  Context {W : WOrd} {Sz : SOrd}.
  Variables (ws : list Sz) (m : Sz).
  Notation wt := (fun q => nth q ws szero).
  Hypothesis Hnn : forall q, sle szero (wt q) = true.

  Lemma sle_add_r (x y : Sz) : sle szero y = true -> sle x (sadd x y) = true.
  Proof. intro H. rewrite sadd_comm. rewrite <- (sadd_0 _ x) at 1. now apply sadd_mono. Qed.

  Lemma ssum_nonneg l : sle szero (ssum (map wt l)) = true.
  Proof. induction l as [|q l IH]; simpl; [apply sle_refl|]. eapply sle_trans; [exact IH|]. rewrite sadd_comm. apply sle_add_r. apply Hnn. Qed.

  Lemma ssum_filter p l : sle (ssum (map wt (filter p l))) (ssum (map wt l)) = true.
  Proof.
    induction l as [|q l IH]; simpl; [apply sle_refl|]. destruct (p q); simpl.
    - rewrite !(sadd_comm _ (wt q)). now apply sadd_mono.
    - eapply sle_trans; [exact IH|]. rewrite sadd_comm. apply sle_add_r. apply Hnn.
  Qed.

  Lemma filter_every {A} (p : A -> bool) l : (forall y, In y l -> p y = true) -> filter p l = l.
  Proof. induction l as [|y l IH]; intro H; [reflexivity|]. simpl. rewrite H by (simpl; auto). f_equal. apply IH. intros; apply H; simpl; auto. Qed.

  (** The scan stops at the first neighbour that makes the weight. *)
  Lemma scan_split (f : nat -> W) : forall near total d,
    slt total m = true -> sle m (sadd total (ssum (map wt near))) = true ->
    exists l1 q l2, near = l1 ++ q :: l2 /\ slt (sadd total (ssum (map wt l1))) m = true /\
      sle m (sadd total (ssum (map wt (l1 ++ [q])))) = true /\
      forall pad, weighted_scan ws m total d (map (fun q => (f q, Some q)) near ++ pad) = f q.
  Proof.
    induction near as [|q near IH]; intros total d Ht Hm.
    - cbn in Hm. rewrite sadd_0_r in Hm. apply slt_true in Ht. congruence.
    - destruct (sle m (sadd total (wt q))) eqn:E.
      + exists [], q, near. split; [reflexivity|]. cbn [map ssum fold_right]. rewrite !sadd_0_r. split; [auto|]. split.
        * cbn. now rewrite sadd_0_r.
        * intro pad. cbn [map app weighted_scan]. rewrite Ht. cbn [neighbor_weight].
          destruct near as [|q' near]; cbn [map app].
          -- destruct pad as [|[d' o] pad]; [reflexivity|]. cbn [weighted_scan]. rewrite (proj2 (slt_false _ _) E). reflexivity.
          -- cbn [weighted_scan]. now rewrite (proj2 (slt_false _ _) E).
      + assert (Ht' : slt (sadd total (wt q)) m = true) by now apply slt_true.
        destruct (IH (sadd total (wt q)) (f q) Ht') as (l1 & q' & l2 & -> & A & B & C).
        { cbn [map ssum fold_right] in Hm. now rewrite sadd_assoc in Hm. }
        exists (q :: l1), q', l2. split; [reflexivity|]. cbn [map app ssum fold_right]. unfold ssum in A, B. rewrite <- sadd_assoc in A, B.
        split; [auto|]. split; [auto|]. intro pad. cbn [map app weighted_scan]. rewrite Ht. apply C.
  Qed.

  (** A neighbour list that is heavy enough gives the core distance. *)
  Lemma scan_core out (d : nat -> W) n k row x :
    (forall a b, wle a b = true -> wle (out a) (out b) = true) ->
    nearest out d n k row -> slt szero m = true -> sle m (listed_weight ws row) = true ->
    weighted_core n ws (fun q => out (d q)) m (weighted_scan ws m szero x row).
  Proof.
    intros Mono (near & far & -> & HL & HP & HS & HF) Hm Hw.
    assert (HLW : listed_weight ws (map (fun q => (out (d q), Some q)) near ++ repeat (out winf, None) (k - n)) = ssum (map wt near)).
    { unfold listed_weight. rewrite flat_map_app. set (g := fun x : W * option nat => match snd x with Some q => [wt q] | None => [] end).
      assert (G1 : forall j, flat_map g (repeat (out winf, None) j) = []) by (induction j; simpl; auto).
      assert (G2 : forall l, flat_map g (map (fun q => (out (d q), Some q)) l) = map wt l) by (induction l; simpl; congruence).
      now rewrite G1, G2, app_nil_r. }
    rewrite HLW in Hw.
    destruct (scan_split (fun q => out (d q)) near szero x Hm) as (l1 & q & l2 & E & A & B & C); [now rewrite sadd_0|].
    rewrite C. rewrite !sadd_0 in A, B. clear C.
    assert (Hq : In q near) by (rewrite E; apply in_app_iff; simpl; auto).
    assert (Hqn : q < n) by (assert (In q (seq 0 n)) by (eapply Permutation_in; [exact HP|apply in_app_iff; auto]); apply in_seq in H; lia).
    assert (S1 : forall y, In y l1 -> wle (out (d y)) (out (d q)) = true).
    { intros y Hy. rewrite E in HS. clear - HS Hy. induction l1 as [|z l1 IH]; [destruct Hy|]. cbn [app] in HS. apply StronglySorted_inv in HS as [HS F].
      destruct Hy as [->|Hy]; [|auto]. rewrite Forall_forall in F. apply F. apply in_app_iff. simpl. auto. }
    assert (S2 : forall y, In y l2 -> wle (out (d q)) (out (d y)) = true).
    { intros y Hy. rewrite E in HS. clear - HS Hy. induction l1 as [|z l1 IH]; cbn [app] in HS; apply StronglySorted_inv in HS as [HS F]; [|auto].
      rewrite Forall_forall in F. auto. }
    assert (Perm : forall p : nat -> bool, ssum (map wt (filter p (seq 0 n))) = ssum (map wt (filter p (near ++ far)))).
    { intro p. apply ssum_perm, Permutation_map, Prelude.filter_perm. now apply Permutation_sym. }
    split; [exists q; auto|]. split.
    - unfold weight_where. rewrite Perm, filter_app, map_app, ssum_app.
      eapply sle_trans; [exact B|]. eapply sle_trans; [|apply sle_add_r, ssum_nonneg].
      rewrite E. replace (l1 ++ q :: l2) with ((l1 ++ [q]) ++ l2) by now rewrite <- app_assoc. rewrite filter_app, (map_app _ (filter _ (l1 ++ [q]))), ssum_app.
      eapply sle_trans; [|apply sle_add_r, ssum_nonneg].
      assert (Fa : filter (fun y => wle (out (d y)) (out (d q))) (l1 ++ [q]) = l1 ++ [q]).
      { apply filter_every. intros y Hy. apply in_app_iff in Hy as [Hy|[<-|[]]]; [auto|apply wle_refl]. }
      rewrite Fa. apply sle_refl.
    - unfold weight_where. rewrite Perm. apply slt_true. apply slt_true in A. destruct (sle m (ssum (map wt (filter (fun y => wlt (out (d y)) (out (d q))) (near ++ far))))) eqn:K; auto.
      exfalso. assert (sle m (ssum (map wt l1)) = true); [|congruence]. eapply sle_trans; [exact K|].
      assert (Fz : forall l, (forall y, In y l -> wle (out (d q)) (out (d y)) = true) -> filter (fun y => wlt (out (d y)) (out (d q))) l = []).
      { clear. induction l as [|y l IH]; intro H; [reflexivity|]. simpl. rewrite (proj2 (wlt_false _ _)) by (apply H; simpl; auto). apply IH. intros; apply H; simpl; auto. }
      rewrite E, <- app_assoc, filter_app. cbn [app filter]. rewrite wlt_irrefl, filter_app.
      rewrite (Fz l2 S2), (Fz far) by (intros y Hy; apply Mono, HF; auto). rewrite !app_nil_r. apply ssum_filter.
  Qed.
End Scan.
