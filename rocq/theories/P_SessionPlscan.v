(** PLSCAN objects over time. *)
From Coq Require Import List Arith Lia Bool ZArith Permutation.
From Verif Require Import Prelude Order Size M_Linkage M_Layers M_LayerTree M_SessionPlscan S_SessionPlscan.
Import ListNotations.
Local Open Scope nat_scope.

(** ** The tree over the layers never fails *)
Lemma cumsum_len l : forall a, length (cumsum a l) = length l.
Proof. induction l as [|x l IH]; intro a; cbn; auto. Qed.
Lemma split_len {B} (arr : list B) idx : forall s, length (split_at arr s idx) = length idx + 1.
Proof. induction idx as [|i idx IH]; intro s; cbn; auto. Qed.
Lemma removelast_len {B} (l : list B) : length (removelast l) = length l - 1.
Proof. induction l as [|x [|y l] IH]; auto. cbn [removelast length] in *. rewrite IH. lia. Qed.

Lemma zmax_fold l : forall x, (x <= fold_left Z.max l x)%Z /\ forall z, In z l -> (z <= fold_left Z.max l x)%Z.
Proof.
  induction l as [|y l IH]; intro x; cbn; [split; [lia|tauto]|]. destruct (IH (Z.max x y)) as [H1 H2]. split; [lia|]. intros z [<-|Hz]; [lia|auto].
Qed.

Lemma unique_nodup l : NoDup (unique_Z l) /\ forall z, In z (unique_Z l) <-> In z l.
Proof.
  unfold unique_Z. assert (HP : Permutation (isort (W := ZInf) (fun z => Some z) (nodup Z.eq_dec l)) (nodup Z.eq_dec l)) by (symmetry; apply isort_perm).
  split.
  - eapply Permutation_NoDup; [symmetry; exact HP|apply NoDup_nodup].
  - intro z. split; intro H.
    + apply (Permutation_in _ HP) in H. now apply nodup_In in H.
    + apply (Permutation_in _ (Permutation_sym HP)). now apply nodup_In.
Qed.

Lemma unique_few l top : (forall z, In z l -> (-1 <= z <= top)%Z) -> length (unique_Z l) <= Z.to_nat (top + 2).
Proof.
  intro H. destruct (unique_nodup l) as [HN HI].
  assert (Hincl : incl (map (fun z => Z.to_nat (z + 1)) (unique_Z l)) (seq 0 (Z.to_nat (top + 2)))).
  { intros k Hk. apply in_map_iff in Hk as (z & <- & Hz). apply HI, H in Hz. apply in_seq. lia. }
  apply NoDup_incl_length in Hincl.
  - now rewrite map_length, seq_length in Hincl.
  - assert (HB : forall z, In z (unique_Z l) -> (-1 <= z)%Z) by (intros z Hz; apply HI, H in Hz; lia). clear - HN HB.
    induction (unique_Z l) as [|z u IH]; cbn; [constructor|]. inversion_clear HN as [|? ? H1 H2]. constructor; [|apply IH; auto; intros; apply HB; now right].
    intro Hk. apply in_map_iff in Hk as (z' & Ez & Hz'). apply H1. replace z with z'; auto. pose proof (HB z (or_introl eq_refl)). pose proof (HB z' (or_intror Hz')). lia.
Qed.

Lemma groups_enough argsort upper lower : upper <> [] -> (forall z, In z upper -> (-1 <= z)%Z) ->
  exists groups, cluster_groups argsort upper lower = Ok groups /\ length (unique_Z upper) <= length groups.
Proof.
  intros Hne HB. unfold cluster_groups, bincount.
  destruct (existsb (fun z => (z <? 0)%Z) (map (fun l => (l + 1)%Z) upper)) eqn:EX.
  { exfalso. apply existsb_exists in EX as (z & Hz & Hl). apply in_map_iff in Hz as (z' & <- & Hz'). apply HB in Hz'. apply Z.ltb_lt in Hl. lia. }
  destruct (map (fun l => (l + 1)%Z) upper) as [|x l] eqn:EM; [destruct upper; [congruence|discriminate]|]. cbn [zmax bind].
  set (top := fold_left Z.max l x). destruct (zmax_fold l x) as [H1 H2]. fold top in H1, H2.
  eexists. split; [reflexivity|].
  assert (HT : forall z, In z upper -> (-1 <= z <= top - 1)%Z).
  { intros z Hz. specialize (HB z Hz). assert (Hin : In (z + 1)%Z (x :: l)) by (rewrite <- EM; now apply (in_map (fun l => (l + 1)%Z))).
    destruct Hin as [Hin|Hin]; [subst x; lia|apply H2 in Hin; lia]. }
  assert (Htop : (0 <= top)%Z) by (destruct upper as [|u us]; [congruence|]; specialize (HT u (or_introl eq_refl)); lia).
  pose proof (unique_few upper _ HT) as HU.
  set (groups := split_at _ _ _).
  assert (HG : length groups = Z.to_nat top + 1).
  { unfold groups. rewrite split_len, removelast_len, cumsum_len, map_length, seq_length. lia. }
  destruct (length (unique_Z upper) <? length groups) eqn:EL.
  - apply Nat.ltb_lt in EL. destruct groups as [|g gs]; cbn in *; lia.
  - apply Nat.ltb_ge in EL. lia.
Qed.

Lemma visit_groups_ok up low groups : forall labels i st, i + length labels <= length groups -> exists st', visit_groups up low groups i labels st = Ok st'.
Proof.
  induction labels as [|l ls IH]; intros i st H; cbn [visit_groups]; [eauto|]. cbn [length] in H.
  destruct (0 <=? l)%Z; cbn [bind].
  - destruct (nth_error groups i) as [g|] eqn:E; cbn [bind]; [apply IH; lia|]. apply nth_error_None in E. lia.
  - apply IH. lia.
Qed.

Lemma layer_tree_never_fails argsort labels N : labels <> [] -> 0 < N ->
  (forall l, In l labels -> length l = N) -> (forall l, In l labels -> forall z, In z l -> (-1 <= z)%Z) ->
  exists d, build_layer_cluster_tree argsort labels = Ok d.
Proof.
  intros Hne HN Hlen HB. unfold build_layer_cluster_tree. destruct labels as [|l0 ls] eqn:EL; [congruence|]. rewrite <- EL in *. clear Hne.
  assert (HF : forallb (fun l' => length l' =? length l0) ls = true).
  { apply forallb_forall. intros l' Hl'. apply Nat.eqb_eq. rewrite !Hlen; auto; subst labels; [now left|now right]. }
  rewrite HF. clear EL HF l0 ls.
  assert (HV : forall pairs st, (forall p, In p pairs -> fst p < length labels) -> exists st', visit_all argsort labels pairs st = Ok st').
  { induction pairs as [|[u l] pairs IH]; intros st Hp; cbn [visit_all]; [eauto|]. unfold visit_layers.
    assert (Hu : u < length labels) by (apply (Hp (u, l)); now left).
    pose proof (nth_In labels [] Hu) as Hin.
    destruct (groups_enough argsort (nth u labels []) (nth l labels [])) as (g & E & Hg).
    { intro Ee. apply Hlen in Hin. rewrite Ee in Hin. cbn in Hin. lia. }
    { intros z Hz. eapply HB; eauto. }
    rewrite E. cbn [bind]. destruct (visit_groups_ok u l g (unique_Z (nth u labels [])) 0 st ltac:(lia)) as (st' & E').
    rewrite E'. cbn [bind]. apply IH. intros p Hin'. apply Hp. now right. }
  unfold build_cluster_tree. destruct (HV (layer_pairs (length labels)) ([], fun _ => [(-1)%Z])) as (st & E).
  { intros [u l] H. unfold layer_pairs in H. apply in_flat_map in H as (u' & Hu' & H). apply in_map_iff in H as (l' & El & _). injection El as <- <-. apply in_seq in Hu'. cbn. lia. }
  rewrite E. cbn [bind].
  assert (HO : forall is, (forall i, In i is -> i < length labels) -> exists rest, map_res (orphans (length labels) labels (snd st)) is = Ok rest).
  { induction is as [|i is IH]; intro Hi; cbn [map_res]; [eauto|]. unfold orphans at 1. pose proof (nth_In labels [] (Hi i (or_introl eq_refl))) as Hin.
    pose proof (Hlen _ Hin) as Hl. destruct (nth i labels []) as [|x l]; [cbn in Hl; lia|]. cbn [zmax bind].
    destruct IH as (rest & ->); [intros; apply Hi; now right|]. cbn [bind]. eauto. }
  destruct (HO (rev (seq 0 (length labels)))) as (rest & E').
  { intros i Hi. apply in_rev, in_seq in Hi. lia. }
  rewrite E'. cbn [bind]. eauto.
Qed.

(** ** The layer reported *)
Lemma argmax_from_ok {P : WOrd} (l : list P) : forall best pos i, pos < i -> argmax_from best pos i l < i + length l.
Proof.
  induction l as [|x l IH]; intros best pos i H; cbn [argmax_from length]; [lia|].
  destruct (wlt best x); [specialize (IH x i (S i))|specialize (IH best pos (S i))]; lia.
Qed.

Lemma reported_is {V P : WOrd} argsort (ys : list (layer V P)) d : ys <> [] -> build_layer_cluster_tree argsort (map y_labels ys) = Ok d ->
  exists y, reported_layer ys = Ok y /\ plscan_result argsort ys = Ok (d, y) /\ In y ys.
Proof.
  intros Hne E. unfold reported_layer, plscan_result. rewrite E. cbn [bind]. destruct ys as [|y [|y2 ys]]; [congruence| |].
  - exists y. cbn. auto.
  - cbn [map argmax bind]. pose proof (argmax_from_ok (y_persistence y2 :: map y_persistence ys) (y_persistence y) 0 1 ltac:(lia)) as H.
    set (k := argmax_from _ _ _ _) in *. cbn [length] in H. rewrite map_length in H.
    destruct (nth_error (y :: y2 :: ys) k) as [z|] eqn:Ek; [|apply nth_error_None in Ek; cbn [length] in Ek; lia].
    exists z. split; [reflexivity|]. split; [|eapply nth_error_In; eauto]. now rewrite (nth_error_nth _ _ y Ek).
Qed.

(** ** Histories *)
Section History.
  Context {A : Type} {V P : WOrd} {E I : Type}.
  Variables (precomputed : A -> bool) (check_data check_weights : A -> I -> res unit) (run : A -> I -> res (list (layer V P) * E)) (argsort : list Z -> list nat).
  Variable samples : I -> nat.
  Hypothesis HR : proper_layers run samples.
  Notation pobject := (pobject A V P E I).
  Notation pfit_predict := (pfit_predict precomputed check_data check_weights run argsort).
  Notation pfit := (pfit precomputed check_data check_weights run argsort).
  Notation pperform := (pperform precomputed check_data check_weights run argsort).
  Notation pplay := (pplay precomputed check_data check_weights run argsort).
  Notation poutcome := (poutcome check_data check_weights run argsort).

  Lemma run_complete a x ys e : run a x = Ok (ys, e) -> exists d y, build_layer_cluster_tree argsort (map y_labels ys) = Ok d /\ reported_layer ys = Ok y /\ plscan_result argsort ys = Ok (d, y) /\ In y ys.
  Proof.
    intro H. destruct (HR _ _ _ _ H) as (Hne & HN & Hy).
    destruct (layer_tree_never_fails argsort (map y_labels ys) (samples x)) as (d & Ed); auto.
    - intro Em. apply map_eq_nil in Em. auto.
    - intros l Hl. apply in_map_iff in Hl as (y & <- & Hin). now apply Hy.
    - intros l Hl z Hz. apply in_map_iff in Hl as (y & <- & Hin). eapply (proj2 (Hy y Hin)); eauto.
    - destruct (reported_is argsort ys d Hne Ed) as (y & H1 & H2 & H3). exists d, y. auto.
  Qed.

  (** A fit succeeds as that of a new object, or fails and keeps the results. *)
  Lemma pfit_refines (o : pobject) x :
    match poutcome (po_params o) x with
    | Ok g => snd (pfit_predict o x) = Ok (y_labels (g_best g)) /\ In (g_best g) (g_layers g) /\ shows (fst (pfit_predict o x)) g /\
              po_params (fst (pfit_predict o x)) = po_params o /\
              po_raw_data (fst (pfit_predict o x)) = Some (if precomputed (po_params o) then None else Some x)
    | Err e => snd (pfit_predict o x) = Err e /\ same_results (fst (pfit_predict o x)) o /\ po_params (fst (pfit_predict o x)) = po_params o
    end.
  Proof.
    unfold S_SessionPlscan.poutcome, M_SessionPlscan.pfit_predict, take_data.
    assert (Hs : forall q : pobject, same_results q q) by (intro q; repeat split).
    destruct (check_data (po_params o) x) as [[]|e]; cbn [bind]; [|cbn; auto].
    destruct (precomputed (po_params o)) eqn:EP; (destruct (check_weights (po_params o) x) as [[]|e] eqn:EW; cbn [bind]; [|solve [cbn; unfold same_results; cbn; auto 8]]);
      cbn [po_params set_raw_data];
      (destruct (run (po_params o) x) as [[ys ex]|er] eqn:ER; cbn [bind]; [|solve [cbn; unfold same_results; cbn; auto 8]]);
      (destruct (run_complete _ _ _ _ ER) as (d & y & E1 & E2 & E3 & E4); cbn [fst]; rewrite E1, E2, E3; cbn; repeat split; auto).
  Qed.

  Lemma pfit_same (o : pobject) x : fst (pfit o x) = fst (pfit_predict o x) /\ snd (pfit o x) = match snd (pfit_predict o x) with Ok _ => None | Err e => Some e end.
  Proof. unfold M_SessionPlscan.pfit. destruct (pfit_predict o x). auto. Qed.

  Lemma perform_fits (o : pobject) c x : fits c x -> pperform o c = fst (pfit_predict o x).
  Proof. intros [->| ->]; cbn; auto. apply pfit_same. Qed.

  Lemma pparams_fits (c : pcall A I) x a h : fits c x -> pparams_after a (c :: h) = pparams_after a h.
  Proof. intros [->| ->]; reflexivity. Qed.

  Lemma call_cases (c : pcall A I) : (exists a, c = PSetParams a) \/ exists x, fits c x.
  Proof. destruct c as [a|x|x]; [left; eauto|right|right]; exists x; unfold fits; auto. Qed.

  Lemma kept (o : pobject) x : po_params (fst (pfit_predict o x)) = po_params o.
  Proof. pose proof (pfit_refines o x) as H. destruct (poutcome (po_params o) x); apply H. Qed.

  Lemma pparams_perform (o : pobject) c : po_params (pperform o c) = pparams_after (po_params o) [c].
  Proof. destruct (call_cases c) as [(a & ->)|(x & Hc)]; [reflexivity|]. rewrite (perform_fits _ _ _ Hc), (pparams_fits _ _ _ _ Hc), kept. reflexivity. Qed.

  Lemma pparams_cons a c (h : list (pcall A I)) : pparams_after a (c :: h) = pparams_after (pparams_after a [c]) h.
  Proof. now destruct c. Qed.

  Lemma pparams_play h : forall o : pobject, po_params (pplay o h) = pparams_after (po_params o) h.
  Proof.
    induction h as [|c h IH]; intro o; [reflexivity|]. change (po_params (pplay (pperform o c) h) = pparams_after (po_params o) (c :: h)).
    rewrite IH, pparams_perform, <- pparams_cons. reflexivity.
  Qed.

  Lemma same_trans (a b c : pobject) : same_results a b -> same_results b c -> same_results a c.
  Proof. unfold same_results. intuition congruence. Qed.

  Lemma pnever_tail a c h : pnever check_data check_weights run argsort a (c :: h) -> pnever check_data check_weights run argsort (pparams_after a [c]) h.
  Proof. intros H h3 c' x' h4 -> Hc. destruct (H (c :: h3) c' x' h4 eq_refl Hc) as (e & He). exists e. now rewrite pparams_cons in He. Qed.

  Lemma pnever_keeps h : forall o : pobject, pnever check_data check_weights run argsort (po_params o) h -> same_results (pplay o h) o.
  Proof.
    induction h as [|c h IH]; intros o HN; [repeat split|]. change (same_results (pplay (pperform o c) h) o).
    eapply same_trans; [apply IH; rewrite pparams_perform; now apply pnever_tail|].
    destruct (call_cases c) as [(a & ->)|(x & Hc)]; [repeat split|]. rewrite (perform_fits _ _ _ Hc).
    destruct (HN [] c x h eq_refl Hc) as (e & He). cbn in He. pose proof (pfit_refines o x) as H. rewrite He in H. apply H.
  Qed.

  Lemma psplit h : forall a, pnever check_data check_weights run argsort a h \/ exists b x g, plast_success check_data check_weights run argsort a h b x g.
  Proof.
    induction h as [|c h IH]; intro a.
    - left. intros h3 c' x' h4 H. now destruct h3.
    - destruct (IH (pparams_after a [c])) as [HN|(b & x & g & h1 & c1 & h2 & -> & Hc & Hb & Ho & HF)].
      + destruct (call_cases c) as [(q & ->)|(x & Hc)].
        * left. intros [|c0 h3] c' x' h4 H Hc'; injection H as <- ->; [destruct Hc' as [H|H]; discriminate|]. exact (HN _ _ _ _ eq_refl Hc').
        * assert (Ep : pparams_after a [c] = a) by (rewrite (pparams_fits _ _ _ _ Hc); reflexivity). rewrite Ep in HN.
          destruct (poutcome a x) as [g|e] eqn:Eo.
          -- right. exists a, x, g, [], c, h. split; auto.
          -- left. intros [|c0 h3] c' x' h4 H Hc'; injection H as <- ->.
             ++ assert (x' = x) as -> by (destruct Hc as [->| ->], Hc' as [H|H]; congruence). exists e. exact Eo.
             ++ destruct (HN _ _ _ _ eq_refl Hc') as (e' & He). exists e'. now rewrite (pparams_fits _ _ _ _ Hc).
      + right. exists b, x, g, (c :: h1), c1, h2. split; [reflexivity|]. rewrite pparams_cons. auto.
  Qed.

  Lemma pafter a h : let o := pplay (pnew a) h in
    po_params o = pparams_after a h /\
    (forall b x g, plast_success check_data check_weights run argsort a h b x g -> shows o g) /\
    (pnever check_data check_weights run argsort a h -> shows_nothing o) /\
    (pnever check_data check_weights run argsort a h \/ exists b x g, plast_success check_data check_weights run argsort a h b x g).
  Proof.
    intro o. split; [apply pparams_play|]. split; [|split; [|apply psplit]].
    - intros b x g (h1 & c & h2 & -> & Hc & -> & Ho & HF). unfold o, M_SessionPlscan.pplay. rewrite fold_left_app. cbn [fold_left].
      change (shows (pplay (pperform (pplay (pnew a) h1) c) h2) g). set (q := pplay (pnew a) h1).
      assert (Hq : po_params q = pparams_after a h1) by (unfold q; now rewrite pparams_play).
      pose proof (pfit_refines q x) as H. rewrite Hq, Ho in H. destruct H as (_ & _ & Hsh & Hp & _). rewrite (perform_fits _ _ _ Hc).
      destruct (pnever_keeps h2 (fst (pfit_predict q x))) as (K1 & K2 & K3 & K4).
      { rewrite Hp. exact HF. }
      destruct Hsh as (S1 & S2 & S3 & S4). unfold shows. now rewrite K1, K2, K3, K4.
    - intro HN. destruct (pnever_keeps h (pnew a) HN) as (K1 & K2 & K3 & K4). unfold shows_nothing, o. now rewrite K1, K2, K3, K4.
  Qed.

  Lemma pforgets a h c x g : fits c x -> poutcome (pparams_after a h) x = Ok g -> pplay (pnew a) (h ++ [c]) = pplay (pnew (pparams_after a h)) [c].
  Proof.
    intros Hc Ho. unfold M_SessionPlscan.pplay at 1. rewrite fold_left_app. cbn [fold_left]. change (pperform (pplay (pnew a) h) c = pperform (pnew (pparams_after a h)) c).
    rewrite !(perform_fits _ _ _ Hc).
    assert (G : forall o : pobject, po_params o = pparams_after a h -> fst (pfit_predict o x) =
      {| po_params := pparams_after a h; po_raw_data := Some (if precomputed (pparams_after a h) then None else Some x); po_layers := Some (g_layers g, g_extra g); po_tree := Some (g_tree g);
         po_labels := Some (y_labels (g_best g)); po_strengths := Some (y_strengths (g_best g)) |}).
    { intros o Hp. pose proof (pfit_refines o x) as H. rewrite Hp, Ho in H. destruct H as (_ & _ & (S1 & S2 & S3 & S4) & H5 & H6).
      destruct (fst (pfit_predict o x)) as [p0 r0 l0 t0 a0 s0]. cbn in *. congruence. }
    rewrite !G; auto. rewrite pparams_play. reflexivity.
  Qed.

  Lemma pfindings a x g : poutcome a x = Ok g ->
    In (g_best g) (g_layers g) /\ length (y_labels (g_best g)) = samples x /\ (forall y, In y (g_layers g) -> length (y_labels y) = samples x).
  Proof.
    unfold S_SessionPlscan.poutcome. destruct (check_data a x) as [[]|]; cbn [bind]; [|discriminate]. destruct (check_weights a x) as [[]|]; cbn [bind]; [|discriminate].
    destruct (run a x) as [[ys e]|] eqn:ER; cbn [bind fst snd]; [|discriminate]. destruct (run_complete _ _ _ _ ER) as (d & y & _ & _ & E3 & E4). rewrite E3. cbn [bind fst snd].
    intros [= <-]. cbn [g_best g_layers]. destruct (HR _ _ _ _ ER) as (_ & _ & Hy). split; auto. split; [apply Hy; auto|intros; apply Hy; auto].
  Qed.
End History.
