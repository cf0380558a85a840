(** Propagation of labels by majority votes. *)
From Coq Require Import List Arith Lia Bool ZArith Permutation Sorted Relations.
From Verif Require Import Prelude Order Graph M_Linkage M_Select M_Precomputed S_CoreGraph M_LayerTree S_LayerTree P_LayerTree M_Estimator P_Estimator
  M_SubClusters S_SubClusters P_SubClusters.
Import ListNotations.
Local Open Scope nat_scope.

Lemma dict_set_spec {A} (d : list (nat * A)) k v : NoDup (map fst d) ->
  NoDup (map fst (dict_set d k v)) /\ forall k' v', In (k', v') (dict_set d k v) <-> (k' = k /\ v' = v) \/ (k' <> k /\ In (k', v') d).
Proof.
  induction d as [|[k0 v0] d IH]; cbn [dict_set map fst]; intro HN.
  - cbn. split; [constructor; [auto|constructor]|]. intros k' v'. split; [intros [E|[]]; injection E as <- <-; auto|intros [[-> ->]|[_ []]]; auto].
  - apply NoDup_cons_iff in HN as [H0 HN]. destruct (IH HN) as [IH1 IH2]. destruct (Nat.eqb_spec k k0) as [->|Hk].
    + cbn [map fst]. split; [constructor; auto|]. intros k' v'. cbn [In]. split.
      * intros [E|H]; [injection E as <- <-; auto|]. right. split; auto. intros ->. apply H0. apply in_map_iff. exists (k0, v'). auto.
      * intros [[-> ->]|[Hne [E|H]]]; auto. injection E as E1 E2. congruence.
    + cbn [map fst]. split.
      * constructor; auto. intro H. apply in_map_iff in H as ([k' v'] & E & H). cbn in E. subst k'. apply IH2 in H as [[E _]|[_ H]]; [congruence|].
        apply H0. apply in_map_iff. exists (k0, v'). auto.
      * intros k' v'. cbn [In]. rewrite IH2. split.
        -- intros [E|[H|[H1 H2]]]; auto. injection E as <- <-. right. split; [congruence|auto].
        -- intros [H|[H1 [H2|H2]]]; auto.
Qed.

Section Votes.
  Context {W N : WOrd} (inv : W -> res N) (nadd : N -> N -> N) (nzero : N).

  (** ** The dictionaries of votes *)
  Section Dictionary.
    Variables (a : nat -> Z) (v : nat -> nat -> N).

    Definition right_votes (E : list (edge W)) (votes : nat -> list (nat * N)) : Prop :=
      forall x, a x = (-1)%Z -> NoDup (map fst (votes x)) /\
        forall y t, In (y, t) (votes x) <-> adjacent E x y /\ t = v x y.

    Lemma adjacent_cons (E : list (edge W)) e x y : adjacent (e :: E) x y <-> (esrc e = x /\ edst e = y) \/ (esrc e = y /\ edst e = x) \/ adjacent E x y.
    Proof.
      unfold adjacent. destruct e as [[s d] w0]. unfold esrc, edst. cbn. split.
      - intros (w & [[E1|H]|[E1|H]]); [injection E1 as -> -> ->; auto|right; right; exists w; auto|injection E1 as -> -> ->; auto|right; right; exists w; auto].
      - intros [[-> ->]|[[-> ->]|(w & H)]]; [exists w0; auto|exists w0; auto|exists w; tauto].
    Qed.

    Lemma update_one E votes x y (cond : bool) : right_votes E votes -> (cond = true <-> a x = (-1)%Z) ->
      let votes' := if cond then upd votes x (dict_set (votes x) y (v x y)) else votes in
      forall z, a z = (-1)%Z -> NoDup (map fst (votes' z)) /\
        forall y' t, In (y', t) (votes' z) <-> ((z = x /\ y' = y) \/ adjacent E z y') /\ t = v z y'.
    Proof.
      intros H Hc votes' z Hz. destruct (H z Hz) as [HN HI]. destruct cond.
      - unfold votes'. destruct (Nat.eq_dec z x) as [->|Hne].
        + rewrite upd_eq. destruct (dict_set_spec (votes x) y (v x y) HN) as [D1 D2]. split; auto. intros y' t. rewrite D2, HI. split.
          * intros [[-> ->]|[Hne [Ha ->]]]; auto.
          * intros [[[_ ->]|Ha] ->]; auto. destruct (Nat.eq_dec y' y) as [->|Hne]; auto.
        + rewrite upd_neq by auto. split; auto. intros y' t. rewrite HI. split; [tauto|]. intros [[[E1 _]|Ha] ->]; [congruence|auto].
      - unfold votes'. split; auto. intros y' t. rewrite HI. split; [tauto|]. intros [[[-> _]|Ha] ->]; [|auto]. exfalso. apply Hc in Hz. discriminate.
    Qed.

    Lemma note_votes_ok idx row : forall E votes, right_votes E votes ->
      (forall y w, In (y, w) row -> inv w = Ok (v idx y) /\ inv w = Ok (v y idx)) ->
      exists votes', note_votes inv a idx row votes = Ok votes' /\ right_votes (rev (map (fun cw => (idx, fst cw, snd cw)) row) ++ E) votes'.
    Proof.
      induction row as [|[y w] row IH]; intros E votes HR Hv; cbn [note_votes].
      - exists votes. auto.
      - destruct (Hv y w (or_introl eq_refl)) as [V1 V2]. rewrite V1.
        assert (E1 : (if (a y =? -1)%Z then let* x := Ok (v idx y) in Ok (upd votes y (dict_set (votes y) idx x)) else Ok votes)
                     = Ok (if (a y =? -1)%Z then upd votes y (dict_set (votes y) idx (v y idx)) else votes)).
        { rewrite V1 in V2. injection V2 as ->. destruct (a y =? -1)%Z; reflexivity. }
        rewrite E1. cbn [bind]. set (v1 := if (a y =? -1)%Z then upd votes y (dict_set (votes y) idx (v y idx)) else votes).
        assert (E2 : (if (a idx =? -1)%Z then Ok (upd v1 idx (dict_set (v1 idx) y (v idx y))) else Ok v1)
                     = Ok (if (a idx =? -1)%Z then upd v1 idx (dict_set (v1 idx) y (v idx y)) else v1)) by (destruct (a idx =? -1)%Z; reflexivity).
        rewrite E2. cbn [bind]. set (v2 := if (a idx =? -1)%Z then upd v1 idx (dict_set (v1 idx) y (v idx y)) else v1).
        assert (H2 : right_votes ((idx, y, w) :: E) v2).
        { intros z Hz.
          pose proof (update_one E votes y idx (a y =? -1)%Z HR (Z.eqb_eq _ _)) as U1. cbn zeta in U1. fold v1 in U1.
          destruct (U1 z Hz) as [N1 I1]. destruct (a idx =? -1)%Z eqn:Ei; unfold v2.
          - destruct (Nat.eq_dec z idx) as [->|Hne].
            + rewrite upd_eq. destruct (dict_set_spec (v1 idx) y (v idx y) N1) as [D1 D2]. split; auto. intros y' t. rewrite D2, I1, adjacent_cons. unfold esrc, edst. cbn. split.
              * intros [[-> ->]|[Hne [[[-> ->]|Ha] ->]]]; auto.
              * intros [[[_ ->]|[[-> ->]|Ha]] ->]; auto. destruct (Nat.eq_dec y' y) as [->|Hne]; auto.
            + rewrite upd_neq by auto. split; auto. intros y' t. rewrite I1, adjacent_cons. unfold esrc, edst. cbn. split.
              * intros [[[-> ->]|Ha] ->]; auto.
              * intros [[[E0 _]|[[-> ->]|Ha]] ->]; [congruence|auto|auto].
          - split; auto. intros y' t. rewrite I1, adjacent_cons. unfold esrc, edst. cbn. split.
            + intros [[[-> ->]|Ha] ->]; auto.
            + intros [[[-> _]|[[-> ->]|Ha]] ->]; auto. apply Z.eqb_neq in Ei. congruence. }
        destruct (IH _ v2 H2 (fun y' w' H => Hv y' w' (or_intror H))) as (votes' & E' & HR'). exists votes'. split; auto.
        cbn [map rev fst snd]. rewrite <- app_assoc. exact HR'.
    Qed.

    Lemma right_votes_same E E' votes : (forall e, In e E <-> In e E') -> right_votes E votes -> right_votes E' votes.
    Proof.
      intros H HR x Hx. destruct (HR x Hx) as [HN HI]. split; auto. intros y t. rewrite HI. unfold adjacent.
      split; intros [(w & Hw) ->]; split; auto; exists w; rewrite ?H in *; auto.
    Qed.

    Lemma undirected_ok (g : csr W) : votes_are inv (csr_entries g) v ->
      exists votes, undirected inv g a = Ok votes /\ right_votes (csr_entries g) votes.
    Proof.
      intro Hv. unfold undirected.
      assert (G : forall rows E votes, right_votes E votes -> (forall i y w, In i rows -> In (y, w) (csr_row g i) -> inv w = Ok (v i y) /\ inv w = Ok (v y i)) ->
                exists votes', fold_res (fun idx votes => note_votes inv a idx (csr_row g idx) votes) rows votes = Ok votes' /\
                  right_votes (flat_map (fun i => map (fun cw => (i, fst cw, snd cw)) (csr_row g i)) rows ++ E) votes').
      { induction rows as [|i rows IH]; intros E votes HR Hr; cbn [fold_res].
        - exists votes. auto.
        - destruct (note_votes_ok i (csr_row g i) E votes HR (fun y w H => Hr i y w (or_introl eq_refl) H)) as (v1 & E1 & R1). rewrite E1. cbn [bind].
          destruct (IH _ v1 R1 (fun j y w Hj H => Hr j y w (or_intror Hj) H)) as (v2 & E2 & R2). exists v2. split; auto.
          eapply right_votes_same; [|exact R2]. intro e. cbn [flat_map]. rewrite !in_app_iff, <- in_rev. tauto. }
      destruct (G (seq 0 (csr_n g)) [] (fun _ => [])) as (votes & E & HR).
      - intros x _. split; [constructor|]. intros y t. split; [intros []|]. intros [(w & [[]|[]]) _].
      - intros i y w Hi H. apply Hv. unfold csr_entries. apply in_flat_map. exists i. split; auto. apply in_map_iff. exists (y, w). auto.
      - exists votes. split; auto. rewrite app_nil_r in HR. exact HR.
    Qed.
  End Dictionary.

  (** ** Counting *)
  Lemma add_vote_spec c l w : NoDup (map fst c) ->
    NoDup (map fst (add_vote nadd nzero c l w)) /\
    (forall l' t', In (l', t') (add_vote nadd nzero c l w) <->
       (l' <> l /\ In (l', t') c) \/ (l' = l /\ ((exists t, In (l, t) c /\ t' = nadd t w) \/ (~ In l (map fst c) /\ t' = nadd nzero w)))).
  Proof.
    induction c as [|[l0 x0] c IH]; cbn [add_vote map fst]; intro HN.
    - cbn. split; [constructor; [auto|constructor]|]. intros l' t'. split.
      + intros [E|[]]. injection E as <- <-. right. split; auto.
      + intros [[_ []]|[-> [(t & [] & _)|[_ ->]]]]. auto.
    - apply NoDup_cons_iff in HN as [H0 HN]. destruct (IH HN) as [IH1 IH2]. destruct (Z.eqb_spec l0 l) as [->|Hne]; cbn [map fst].
      + split; [constructor; auto|]. intros l' t'. cbn [In]. split.
        * intros [E|H]; [injection E as <- <-; right; split; auto; left; exists x0; auto|]. left. split; auto. intros ->. apply H0. apply in_map_iff. exists (l, t'). auto.
        * intros [[Hne [E|H]]|[-> [(t & [E|H] & ->)|[H _]]]]; auto.
          -- injection E as E _. congruence.
          -- injection E as ->. auto.
          -- exfalso. apply H0. apply in_map_iff. exists (l, t). auto.
          -- exfalso. apply H. now left.
      + split.
        * constructor; auto. intro H. apply in_map_iff in H as ([l' t'] & E & H). cbn in E. subst l'. apply IH2 in H as [[_ H]|[E _]]; [|congruence].
          apply H0. apply in_map_iff. exists (l0, t'). auto.
        * intros l' t'. cbn [In]. rewrite IH2. split.
          -- intros [E|[[H1 H2]|[-> [(t & H & ->)|[H ->]]]]]; auto.
             ++ injection E as <- <-. auto.
             ++ right. split; auto. left. exists t. auto.
             ++ right. split; auto. right. split; auto. intros [E|H']; auto.
          -- intros [[H1 [E|H2]]|[-> [(t & [E|H] & ->)|[H ->]]]]; auto.
             ++ injection E as E _. congruence.
             ++ right. right. split; auto. left. exists t. auto.
             ++ right. right. split; auto. right. split; auto.
  Qed.

  Definition tally (cur : nat -> Z) (l : Z) (vs : list (nat * N)) : N :=
    fold_left (fun s u => nadd s (snd u)) (filter (fun u => (cur (fst u) =? l)%Z) vs) nzero.

  Lemma count_votes_spec cur vs :
    NoDup (map fst (count_votes nadd nzero cur vs)) /\
    (forall l t, In (l, t) (count_votes nadd nzero cur vs) <-> l <> (-1)%Z /\ (exists u, In u vs /\ cur (fst u) = l) /\ t = tally cur l vs).
  Proof.
    induction vs as [|u vs IH] using rev_ind.
    - cbn. split; [constructor|]. intros l t. split; [intros []|intros (_ & (u & [] & _) & _)].
    - unfold count_votes in *. rewrite fold_left_app. cbn [fold_left]. set (c := fold_left _ vs []) in *. destruct IH as [IH1 IH2].
      assert (Ht : forall l, tally cur l (vs ++ [u]) = if (cur (fst u) =? l)%Z then nadd (tally cur l vs) (snd u) else tally cur l vs).
      { intro l. unfold tally. rewrite filter_app, fold_left_app. cbn [filter]. destruct (cur (fst u) =? l)%Z; reflexivity. }
      assert (Hex : forall l, (exists u', In u' (vs ++ [u]) /\ cur (fst u') = l) <-> (exists u', In u' vs /\ cur (fst u') = l) \/ cur (fst u) = l).
      { intro l. split.
        - intros (u' & H & E). apply in_app_iff in H as [H|[<-|[]]]; eauto.
        - intros [(u' & H & E)|E]; [exists u'; rewrite in_app_iff; auto|exists u; rewrite in_app_iff; cbn; auto]. }
      destruct (Z.eqb_spec (cur (fst u)) (-1)) as [E|Hne].
      + split; auto. intros l t. rewrite IH2, Hex, Ht. destruct (Z.eqb_spec (cur (fst u)) l) as [E'|Hl].
        * split; [intros (H & _); congruence|intros (H & _); congruence].
        * tauto.
      + destruct (add_vote_spec c (cur (fst u)) (snd u) IH1) as [A1 A2]. split; auto. intros l t. rewrite A2, Hex, Ht. split.
        * intros [[H1 H2]|[-> [(t0 & H & ->)|[H ->]]]].
          -- apply IH2 in H2 as (H2 & H3 & ->). split; auto. split; auto. destruct (Z.eqb_spec (cur (fst u)) l); congruence.
          -- apply IH2 in H as (H2 & H3 & ->). split; auto. split; auto. rewrite Z.eqb_refl. reflexivity.
          -- split; auto. split; auto. rewrite Z.eqb_refl. f_equal. unfold tally.
             assert (Ef : filter (fun u0 => (cur (fst u0) =? cur (fst u))%Z) vs = []).
             { destruct (filter _ vs) as [|u0 l0] eqn:Ef; auto. exfalso. assert (Hu0 : In u0 (u0 :: l0)) by now left. rewrite <- Ef in Hu0. apply filter_In in Hu0 as [Hu0 E0]. apply Z.eqb_eq in E0.
               apply H. apply in_map_iff. exists (cur (fst u), tally cur (cur (fst u)) vs). split; auto. apply IH2. split; auto. split; eauto. }
             rewrite Ef. reflexivity.
        * intros (H1 & H2 & Et). destruct (Z.eqb_spec (cur (fst u)) l) as [<-|Hl].
          -- right. split; auto. destruct (in_dec Z.eq_dec (cur (fst u)) (map fst c)) as [Hin|Hout].
             ++ left. apply in_map_iff in Hin as ([l0 t0] & E0 & Hin). cbn in E0. subst l0. exists t0. split; auto. apply IH2 in Hin as (_ & _ & ->). exact Et.
             ++ right. split; auto. rewrite Et. f_equal. unfold tally.
                assert (Ef : filter (fun u0 => (cur (fst u0) =? cur (fst u))%Z) vs = []).
                { destruct (filter _ vs) as [|u0 l0] eqn:Ef; auto. exfalso. assert (Hu0 : In u0 (u0 :: l0)) by now left. rewrite <- Ef in Hu0. apply filter_In in Hu0 as [Hu0 E0]. apply Z.eqb_eq in E0.
                  apply Hout. apply in_map_iff. exists (cur (fst u), tally cur (cur (fst u)) vs). split; auto. apply IH2. split; auto. split; eauto. }
                rewrite Ef. reflexivity.
          -- left. split; auto. apply IH2. split; auto. split; auto. destruct H2 as [H2|H2]; [auto|congruence].
  Qed.

  Lemma winner_spec (c : list (Z * N)) : match winner c with
    | None => c = []
    | Some (l, t) => In (l, t) c /\ forall l' t', In (l', t') c -> wle t' t = true
    end.
  Proof.
    unfold winner.
    assert (G : forall (c seen : list (Z * N)) (best : option (Z * N)), match best with None => seen = [] | Some (l, t) => In (l, t) seen /\ forall l' t', In (l', t') seen -> wle t' t = true end ->
      match fold_left (fun best c => if beats (snd c) best then Some c else best) c best with
      | None => seen ++ c = []
      | Some (l, t) => In (l, t) (seen ++ c) /\ forall l' t', In (l', t') (seen ++ c) -> wle t' t = true
      end).
    { clear c. induction c as [|[l t] c IH]; intros seen best H; cbn [fold_left].
      - rewrite app_nil_r. exact H.
      - replace (seen ++ (l, t) :: c) with ((seen ++ [(l, t)]) ++ c) by (rewrite <- app_assoc; reflexivity). apply IH. cbn [snd].
        destruct best as [[l0 t0]|]; cbn [beats].
        + destruct H as [H1 H2]. destruct (wlt t0 t) eqn:El.
          * split; [apply in_app_iff; right; now left|]. intros l' t' H'. apply in_app_iff in H' as [H'|[E|[]]].
            -- apply (wle_trans _ _ t0); [eauto|]. unfold wlt in El. apply negb_true_iff in El. destruct (wle_total _ t0 t); congruence.
            -- injection E as <- <-. apply wle_refl.
          * split; [apply in_app_iff; auto|]. intros l' t' H'. apply in_app_iff in H' as [H'|[E|[]]]; [eauto|]. injection E as <- <-.
            unfold wlt in El. now apply negb_false_iff in El.
        + subst seen. cbn. split; auto. intros l' t' [E|[]]. injection E as <- <-. apply wle_refl. }
    specialize (G c [] None eq_refl). cbn [app] in G. exact G.
  Qed.

  (** ** One vote *)
  Section Step.
    Variables (a : nat -> Z) (E : list (edge W)) (v : nat -> nat -> N) (votes : nat -> list (nat * N)).
    Hypothesis HV : right_votes a v E votes.

    Lemma tally_total cur x l : a x = (-1)%Z -> (exists y, adjacent E x y /\ cur y = l) -> total_for nadd nzero E v cur x l (tally cur l (votes x)).
    Proof.
      intros Hx (y0 & Hy0 & El). destruct (HV x Hx) as [HN HI].
      exists (map fst (filter (fun u => (cur (fst u) =? l)%Z) (votes x))). split.
      { clear - HN. induction (votes x) as [|u vs IH]; cbn; [constructor|]. cbn in HN. apply NoDup_cons_iff in HN as [Hu HN]. destruct (_ =? _)%Z; auto. cbn. constructor; auto.
        intro H. apply Hu. apply in_map_iff in H as (u' & E' & H). apply filter_In in H as [H _]. apply in_map_iff. eauto. }
      split.
      { intro y. rewrite in_map_iff. split.
        - intros ([y' t] & <- & H). apply filter_In in H as [H Ec]. cbn in Ec. apply Z.eqb_eq in Ec. apply HI in H as [H _]. auto.
        - intros [H Ec]. exists (y, v x y). split; auto. apply filter_In. split; [apply HI; auto|]. cbn. now apply Z.eqb_eq. }
      split.
      { intro H. apply map_eq_nil in H. assert (Hin : In (y0, v x y0) (filter (fun u => (cur (fst u) =? l)%Z) (votes x))).
        { apply filter_In. split; [apply HI; auto|]. cbn. now apply Z.eqb_eq. } rewrite H in Hin. destruct Hin. }
      unfold tally. assert (G : forall vs s, (forall u, In u vs -> snd u = v x (fst u)) ->
        fold_left (fun s u => nadd s (snd u)) vs s = fold_left (fun s y => nadd s (v x y)) (map fst vs) s).
      { induction vs as [|u vs IH]; intros s H; auto. cbn. rewrite <- (H u (or_introl eq_refl)). apply IH. intros; apply H; now right. }
      apply G. intros [y t] H. apply filter_In in H as [H _]. apply HI in H as [_ ->]. reflexivity.
    Qed.

    Lemma vote_step_spec cur x : a x = (-1)%Z ->
      (vote_step nadd nzero votes cur x = cur /\ forall y, adjacent E x y -> cur y = (-1)%Z) \/
      (exists l, vote_step nadd nzero votes cur x = upd cur x l /\ majority nadd nzero E v cur x l).
    Proof.
      intro Hx. unfold vote_step. destruct (HV x Hx) as [HN HI]. destruct (count_votes_spec cur (votes x)) as [_ HC].
      pose proof (winner_spec (count_votes nadd nzero cur (votes x))) as HW. destruct (winner _) as [[l t]|].
      - right. destruct HW as [H1 H2]. exists l. split; auto. apply HC in H1 as (Hl & ([y t'] & Hu & El) & ->). cbn in El. apply HI in Hu as [Hu _].
        split; auto. exists (tally cur l (votes x)). split; [apply tally_total; eauto|].
        intros y' Hy' Hc. exists (tally cur (cur y') (votes x)). split; [apply tally_total; eauto|]. apply (H2 (cur y')). apply HC. split; auto. split; auto.
        exists (y', v x y'). split; auto. apply HI. auto.
      - left. split; auto. intros y Hy. destruct (Z.eq_dec (cur y) (-1)) as [|Hne]; auto. exfalso.
        assert (Hin : In (cur y, tally cur (cur y) (votes x)) (count_votes nadd nzero cur (votes x))).
        { apply HC. split; auto. split; auto. exists (y, v x y). split; auto. apply HI. auto. }
        rewrite HW in Hin. destruct Hin.
    Qed.

    Lemma majority_label cur x l : majority nadd nzero E v cur x l -> l <> (-1)%Z /\ exists y, adjacent E x y /\ cur y = l.
    Proof.
      intros (Hl & total & (ys & _ & Hys & Hne & _) & _). split; auto. destruct ys as [|y ys]; [congruence|]. exists y. apply Hys. now left.
    Qed.

    Lemma total_ext cur cur' x l t : (forall y, cur y = cur' y) -> total_for nadd nzero E v cur x l t -> total_for nadd nzero E v cur' x l t.
    Proof. intros H (ys & A & B & C & D). exists ys. split; auto. split; [|auto]. intro y. rewrite B, H. reflexivity. Qed.
    Lemma majority_ext cur cur' x l : (forall y, cur y = cur' y) -> majority nadd nzero E v cur x l -> majority nadd nzero E v cur' x l.
    Proof.
      intros H (A & t & B & C). split; auto. exists t. split; [eapply total_ext; eauto|]. intros y Hy Hc. rewrite <- H in *.
      destruct (C y Hy Hc) as (t' & D & F). exists t'. split; auto. eapply total_ext; eauto.
    Qed.
    Lemma lead_ext cur b : votes_lead nadd nzero E v cur b -> forall cur', (forall y, cur y = cur' y) -> votes_lead nadd nzero E v cur' b.
    Proof.
      induction 1 as [cur b H|cur b x l H1 H2 H3 IH]; intros cur' He.
      - apply vl_done. intro x. now rewrite <- He.
      - apply (vl_step _ _ _ _ _ _ x l); [now rewrite <- He|eapply majority_ext; eauto|]. apply IH. intro y. unfold upd. now rewrite He.
    Qed.
    Lemma lead_trans cur b c : votes_lead nadd nzero E v cur b -> votes_lead nadd nzero E v b c -> votes_lead nadd nzero E v cur c.
    Proof.
      induction 1 as [cur b H|cur b x l H1 H2 H3 IH]; intro Hc.
      - eapply lead_ext; [exact Hc|]. intro y. symmetry. apply H.
      - apply (vl_step _ _ _ _ _ _ x l); auto.
    Qed.

    (** One pass. *)
    Lemma pass_ok xs : NoDup xs -> forall cur, (forall x, In x xs -> a x = (-1)%Z /\ cur x = (-1)%Z) ->
      let cur' := fold_left (vote_step nadd nzero votes) xs cur in
      votes_lead nadd nzero E v cur cur' /\
      (forall y, ~ In y xs -> cur' y = cur y) /\ (forall y, cur y <> (-1)%Z -> cur' y = cur y) /\
      (forall x y, In x xs -> adjacent E x y -> cur y <> (-1)%Z -> cur' x <> (-1)%Z).
    Proof.
      induction xs as [|x xs IH]; intros HN cur Hc cur'.
      - unfold cur'. cbn [fold_left]. split; [apply vl_done; auto|]. split; [auto|]. split; [auto|]. intros x y [].
      - apply NoDup_cons_iff in HN as [Hx HN]. unfold cur'. cbn [fold_left]. destruct (Hc x (or_introl eq_refl)) as [Ha Hcx].
        destruct (vote_step_spec cur x Ha) as [[Es Hnone]|(l & Es & Hmaj)]; rewrite Es.
        + destruct (IH HN cur (fun y Hy => Hc y (or_intror Hy))) as (H1 & H2 & H3 & H4). split; auto. split; [intros y Hy; apply H2; intro; apply Hy; now right|]. split; auto.
          intros y z [<-|Hy] Hz Hcz; [exfalso; apply Hcz; auto|eauto].
        + destruct (majority_label cur x l Hmaj) as [Hl _].
          destruct (IH HN (upd cur x l)) as (H1 & H2 & H3 & H4).
          { intros y Hy. destruct (Hc y (or_intror Hy)) as [A B]. split; auto. rewrite upd_neq; auto. congruence. }
          split; [apply (vl_step _ _ _ _ _ _ x l); auto|]. split.
          { intros y Hy. rewrite H2 by (intro; apply Hy; now right). apply upd_neq. intros ->. apply Hy. now left. }
          split.
          { intros y Hy. assert (y <> x) by congruence. rewrite H3 by (rewrite upd_neq; auto). now apply upd_neq. }
          intros y z [<-|Hy] Hz Hcz.
          * rewrite H3 by (rewrite upd_eq; auto). now rewrite upd_eq.
          * apply (H4 y z); auto. assert (z <> x) by congruence. rewrite upd_neq; auto.
    Qed.

    (** ** All passes *)
    Variable n : nat.
    Hypothesis Hrange : in_range n E.
    Definition noise (cur : nat -> Z) : list nat := filter (fun i => (cur i =? -1)%Z) (seq 0 n).

    Lemma noise_in cur x : In x (noise cur) <-> x < n /\ cur x = (-1)%Z.
    Proof. unfold noise. rewrite filter_In, in_seq, Z.eqb_eq. intuition lia. Qed.
    Lemma noise_nodup cur : NoDup (noise cur).
    Proof. apply NoDup_filter, seq_NoDup. Qed.

    Lemma crossing (cur : nat -> Z) x y : connected E x y -> cur x = (-1)%Z -> cur y <> (-1)%Z ->
      exists x' y', adjacent E x' y' /\ cur x' = (-1)%Z /\ cur y' <> (-1)%Z.
    Proof.
      intros Hc Hx Hy.
      destruct (existsb (fun e => negb (Bool.eqb (cur (esrc e) =? -1)%Z (cur (edst e) =? -1)%Z)) E) eqn:Ex.
      - apply existsb_exists in Ex as ([[s d] w] & He & Hne). unfold esrc, edst in Hne. cbn in Hne. apply negb_true_iff, eqb_false_iff in Hne.
        destruct (Z.eqb_spec (cur s) (-1)) as [E1|E1], (Z.eqb_spec (cur d) (-1)) as [E2|E2]; try congruence.
        + exists s, d. split; [exists w; auto|auto].
        + exists d, s. split; [exists w; auto|auto].
      - exfalso. assert (G : forall p q, connected E p q -> (cur p = (-1)%Z <-> cur q = (-1)%Z)).
        { apply connected_ind_equiv; try tauto. intros e He. destruct (Z.eqb_spec (cur (esrc e)) (-1)) as [E1|E1], (Z.eqb_spec (cur (edst e)) (-1)) as [E2|E2]; try tauto; exfalso.
          - assert (existsb (fun e => negb (Bool.eqb (cur (esrc e) =? -1)%Z (cur (edst e) =? -1)%Z)) E = true); [|congruence].
            apply existsb_exists. exists e. split; auto. rewrite E1, Z.eqb_refl. apply Z.eqb_neq in E2. now rewrite E2.
          - assert (existsb (fun e => negb (Bool.eqb (cur (esrc e) =? -1)%Z (cur (edst e) =? -1)%Z)) E = true); [|congruence].
            apply existsb_exists. exists e. split; auto. rewrite E2, Z.eqb_refl. apply Z.eqb_neq in E1. now rewrite E1. }
        apply Hy. apply (G x y Hc). exact Hx.
    Qed.

    Lemma adjacent_range x y : adjacent E x y -> x < n /\ y < n.
    Proof. intros (w & [H|H]); apply Hrange in H; unfold esrc, edst in H; cbn in H; tauto. Qed.

    Lemma vote_loop_ok : forall fuel cur, (forall x, cur x = (-1)%Z -> a x = (-1)%Z) -> reachable E n cur -> length (noise cur) <= fuel ->
      exists cur', vote_loop nadd nzero fuel n votes cur = Ok cur' /\ votes_lead nadd nzero E v cur cur' /\ (forall x, x < n -> cur' x <> (-1)%Z) /\
        (forall x, cur x <> (-1)%Z \/ n <= x -> cur' x = cur x).
    Proof.
      induction fuel as [|fuel IH]; intros cur Ha Hr Hf.
      - exists cur. cbn [vote_loop]. fold (noise cur). destruct (noise cur) as [|x l] eqn:En; [|cbn in Hf; lia]. split; auto. split; [apply vl_done; auto|]. split; auto.
        intros x Hx Hc. assert (In x (noise cur)) as H by (apply noise_in; auto). rewrite En in H. destruct H.
      - cbn [vote_loop]. fold (noise cur). destruct (noise cur) as [|x0 l0] eqn:En.
        + exists cur. split; auto. split; [apply vl_done; auto|]. split; auto.
          intros x Hx Hc. assert (In x (noise cur)) as H by (apply noise_in; auto). rewrite En in H. destruct H.
        + rewrite <- En. set (cur1 := fold_left (vote_step nadd nzero votes) (noise cur) cur).
          destruct (pass_ok (noise cur) (noise_nodup cur) cur) as (P1 & P2 & P3 & P4).
          { intros x Hx. apply noise_in in Hx as [_ Hx]. auto. }
          fold cur1 in P1, P2, P3, P4.
          assert (Hkeep : forall x, cur1 x = (-1)%Z -> cur x = (-1)%Z) by (intros x Hx; destruct (Z.eq_dec (cur x) (-1)) as [|Hne]; auto; rewrite (P3 x Hne) in Hx; congruence).
          assert (Hr1 : reachable E n cur1).
          { intros x Hx Hc. destruct (Hr x Hx (Hkeep x Hc)) as (y & Hy & Hxy & Hcy). exists y. split; [auto|]. split; [auto|]. rewrite P3; auto. }
          assert (Hless : length (noise cur1) <= fuel).
          { assert (Hx0 : In x0 (noise cur)) by (rewrite En; now left). apply noise_in in Hx0 as [Hx0 Hc0].
            destruct (Hr x0 Hx0 Hc0) as (y & Hy & Hxy & Hcy). destruct (crossing cur x0 y Hxy Hc0 Hcy) as (x' & y' & Hadj & Hc' & Hcy').
            destruct (adjacent_range _ _ Hadj) as [Hx' _].
            assert (Hin : In x' (noise cur)) by (apply noise_in; auto).
            pose proof (P4 x' y' Hin Hadj Hcy') as Hdone.
            apply in_split in Hin as (l1 & l2 & El). assert (Hincl : incl (noise cur1) (l1 ++ l2)).
            { intros z Hz. apply noise_in in Hz as [Hz Hcz]. assert (Hzin : In z (noise cur)) by (apply noise_in; auto). rewrite El in Hzin.
              apply in_app_iff in Hzin as [H|[H|H]]; [apply in_app_iff; auto|congruence|apply in_app_iff; auto]. }
            pose proof (NoDup_incl_length (noise_nodup cur1) Hincl) as Hlen. rewrite En in El. rewrite app_length in Hlen. assert (length (x0 :: l0) = length (l1 ++ x' :: l2)) as Hll by now rewrite El.
            rewrite app_length in Hll. cbn in Hll, Hf. lia. }
          destruct (IH cur1 (fun x Hx => Ha x (Hkeep x Hx)) Hr1 Hless) as (cur' & Ec & L1 & L2 & L3). exists cur'. split; auto. split; [eapply lead_trans; eauto|]. split; auto.
          intros x Hx. assert (E1 : cur1 x = cur x). { destruct Hx as [Hx|Hx]; auto. apply P2. intro H. apply noise_in in H. lia. }
          rewrite L3, E1; auto. rewrite E1. exact Hx.
    Qed.

    (** No labelled sample in reach: the loop never ends. *)
    Lemma vote_loop_forever x : x < n -> forall fuel cur, (forall y, cur y = (-1)%Z -> a y = (-1)%Z) ->
      (forall y, connected E x y -> cur y = (-1)%Z) -> vote_loop nadd nzero fuel n votes cur = Err OutOfFuel.
    Proof.
      intros Hx. assert (G : forall xs, NoDup xs -> forall cur, (forall z, In z xs -> a z = (-1)%Z /\ cur z = (-1)%Z) -> (forall y, connected E x y -> cur y = (-1)%Z) ->
        forall y, connected E x y -> fold_left (vote_step nadd nzero votes) xs cur y = (-1)%Z).
      { induction xs as [|z xs IH]; intros HN cur Hc Hall y Hy; cbn [fold_left]; auto. apply NoDup_cons_iff in HN as [Hz HN]. destruct (Hc z (or_introl eq_refl)) as [Haz Hcz].
        assert (Hstep : forall y, connected E x y -> vote_step nadd nzero votes cur z y = (-1)%Z).
        { intros y' Hy'. destruct (vote_step_spec cur z Haz) as [[-> _]|(l & -> & Hmaj)]; auto. destruct (Nat.eq_dec y' z) as [->|Hne]; [|rewrite upd_neq; auto].
          exfalso. destruct (majority_label cur z l Hmaj) as [Hl (q & Hq & Eq)]. apply Hl. rewrite <- Eq. apply Hall. eapply connected_trans; [exact Hy'|].
          destruct Hq as (w & [H|H]); [apply (connected_edge E (z, q, w)); auto|apply connected_sym; apply (connected_edge E (q, z, w)); auto]. }
        apply IH; auto. intros z' Hz'. destruct (Hc z' (or_intror Hz')) as [A B]. split; auto.
        destruct (vote_step_spec cur z Haz) as [[-> _]|(l & -> & _)]; auto. rewrite upd_neq; auto. congruence. }
      induction fuel as [|fuel IH]; intros cur Ha Hall; cbn [vote_loop]; fold (noise cur).
      - destruct (noise cur) as [|x0 l0] eqn:En; auto. assert (In x (noise cur)) as H by (apply noise_in; split; auto; apply Hall, connected_refl). rewrite En in H. destruct H.
      - destruct (noise cur) as [|x0 l0] eqn:En; [assert (In x (noise cur)) as H by (apply noise_in; split; auto; apply Hall, connected_refl); rewrite En in H; destruct H|].
        rewrite <- En. apply IH.
        + intros y Hy. destruct (pass_ok (noise cur) (noise_nodup cur) cur) as (_ & P2 & P3 & _); [intros z Hz; apply noise_in in Hz as [_ Hz]; auto|]. cbn zeta in P3.
          destruct (Z.eq_dec (cur y) (-1)) as [|Hne]; auto. rewrite (P3 y Hne) in Hy. congruence.
        + apply G; auto; [apply noise_nodup|]. intros z Hz. apply noise_in in Hz as [_ Hz]. auto.
    Qed.
  End Step.
End Votes.
