(** Comparing fits of related data. *)
From Coq Require Import List Arith Lia Bool Permutation ZArith QArith Qcanon.
From Verif Require Import Prelude Order Graph Size Num M_Linkage S_Linkage M_Condense S_Condense M_Select M_Labels M_Pipeline S_Pipeline
  P_UniqueTree M_Estimator S_Estimator P_Estimator P_EstimatorEx P_PipelineEx S_Dbscan P_Dbscan S_Level P_LevelTop S_Join P_JoinTop S_Vary.
Import ListNotations.
Local Open Scope nat_scope.

Section Related.
  Context {W : WOrd}.
  Variables (D D' : nat -> nat -> W) (n n' ms ms' : nat) (g : nat -> nat) (eps eps' : W).
  Hypothesis Hg : forall i, i < n -> g i < n'.
  Hypothesis Inj : forall i j, i < n -> j < n -> g i = g j -> i = j.
  Hypothesis Hms : ms' <= ms.
  Hypothesis HD : forall i j, i < n -> j < n -> wlt (D i j) eps = true -> wlt (D' (g i) (g j)) eps' = true.

  Lemma core_moves i : i < n -> core_sample D n ms eps i -> core_sample D' n' ms' eps' (g i).
  Proof.
    intros Hi [H|(near & N & L & U)]; [left; lia|]. right. exists (firstn ms' (map g near)).
    assert (Nm : NoDup (map g near)) by (apply NoDup_map_in; auto; intros x y Hx Hy; apply Inj; now apply U).
    split; [|split].
    - rewrite <- (firstn_skipn ms' (map g near)) in Nm. apply NoDup_app_iff in Nm. tauto.
    - rewrite firstn_length, map_length. lia.
    - intros j Hj. assert (Hin : In j (map g near)) by (rewrite <- (firstn_skipn ms' (map g near)); apply in_or_app; auto).
      apply in_map_iff in Hin as (k & <- & Hk). destruct (U k Hk) as (K1 & K2 & K3). split; auto.
  Qed.
  Lemma dc_moves x y : x < n -> density_connected D n ms eps x y -> density_connected D' n' ms' eps' (g x) (g y).
  Proof. intros Hx K. induction K as [|y z K IH Hy Hz Cy Cz L]; [constructor|]. eapply dc_next; eauto using core_moves. Qed.
  Lemma gathered_moves k k' x : x < n -> k' <= k -> gathered D n ms k eps x -> gathered D' n' ms' k' eps' (g x).
  Proof.
    intros Hx Hk (xs & N & L & U). exists (firstn k' (map g xs)).
    assert (Nm : NoDup (map g xs)) by (apply NoDup_map_in; auto; intros a b Ha Hb; apply Inj; now apply U).
    split; [|split].
    - rewrite <- (firstn_skipn k' (map g xs)) in Nm. apply NoDup_app_iff in Nm. tauto.
    - rewrite firstn_length, map_length. lia.
    - intros y Hy. assert (Hin : In y (map g xs)) by (rewrite <- (firstn_skipn k' (map g xs)); apply in_or_app; auto).
      apply in_map_iff in Hin as (z & <- & Hz). destruct (U z Hz). split; auto. now apply dc_moves.
  Qed.
End Related.

Section Joins.
  Context {W : WOrd}.
  Variables (D D' : nat -> nat -> W) (n n' ms ms' k k' : nat) (g : nat -> nat) (x : nat) (d d' : W).
  Hypothesis Hg : forall i, i < n -> g i < n'.
  Hypothesis Inj : forall i j, i < n -> j < n -> g i = g j -> i = j.
  Hypothesis Hms : ms' <= ms.
  Hypothesis Hk : k' <= k.
  Hypothesis Hx : x < n.
  Hypothesis J : joins_at D n ms k x d.
  Hypothesis J' : joins_at D' n' ms' k' (g x) d'.

  Lemma joins_nearer : (forall i j, i < n -> j < n -> wle (D' (g i) (g j)) (D i j) = true) -> wle d' d = true.
  Proof.
    intro HD. apply wlt_false. destruct (wlt d d') eqn:E; auto. apply (J d') in E.
    apply (gathered_moves D D' n n' ms ms' g d' d' Hg Inj Hms ltac:(intros i j Hi Hj Hw; eapply wle_lt_trans; eauto) k k' x Hx Hk) in E.
    apply (J' d') in E. apply wlt_nle in E. now rewrite wle_refl in E.
  Qed.
  Lemma joins_near f : (forall a b, wlt a b = true -> wlt (f a) (f b) = true) -> (forall i j, i < n -> j < n -> wle (D' (g i) (g j)) (f (D i j)) = true) ->
    forall eps, wlt d eps = true -> wlt d' (f eps) = true.
  Proof.
    intros Hf HD eps E. apply (J eps) in E.
    apply (gathered_moves D D' n n' ms ms' g eps (f eps) Hg Inj Hms ltac:(intros i j Hi Hj Hw; eapply wle_lt_trans; eauto) k k' x Hx Hk) in E.
    now apply (J' (f eps)).
  Qed.
End Joins.

(** Exact numbers. *)
Lemma qlt_iff (a b : Qc) : wlt (W := QInf) (Some a) (Some b) = true <-> (a < b)%Qc.
Proof. unfold wlt. cbn [wle QInf qinf_le]. rewrite negb_true_iff. apply Qcleb_gt. Qed.
Lemma Qcplus_lt_r (x y z : Qc) : (x < y)%Qc -> (x + z < y + z)%Qc.
Proof.
  intro H. apply Qcnot_le_lt. intro K. apply (Qclt_not_le _ _ H). apply (Qcplus_le_compat _ _ (- z) (- z)) in K; [|apply Qcle_refl].
  replace (y + z + - z)%Qc with y in K by ring. now replace (x + z + - z)%Qc with x in K by ring.
Qed.
Lemma later_mono delta (a b : QInf) : wlt a b = true -> wlt (later delta a) (later delta b) = true.
Proof.
  destruct a as [a|], b as [b|]; cbn [later]; intro H; try exact H.
  - apply qlt_iff in H. apply qlt_iff. now apply Qcplus_lt_r.
Qed.
Lemma later_close delta (d d' : QInf) : (forall eps, wlt d eps = true -> wlt d' (later delta eps) = true) -> wle d' (later delta d) = true.
Proof.
  intro H. apply wlt_false. destruct (wlt (later delta d) d') eqn:E; auto. destruct d as [x|]; cbn [later] in E; [|unfold wlt in E; now rewrite winf_top in E].
  destruct d' as [y|].
  - apply qlt_iff in E. specialize (H (Some (y - delta)%Qc)). cbn [later] in H. replace (y - delta + delta)%Qc with y in H by ring.
    assert (K : wlt (W := QInf) (Some x) (Some (y - delta)%Qc) = true).
    { apply qlt_iff. apply (Qcplus_lt_r _ _ (- delta)%Qc) in E. replace (x + delta + - delta)%Qc with x in E by ring. exact E. }
    apply H in K. apply wlt_nle in K. now rewrite wle_refl in K.
  - specialize (H (Some (x + 1)%Qc)). assert (K : wlt (W := QInf) (Some x) (Some (x + 1)%Qc) = true).
    { apply qlt_iff. rewrite <- (Qcplus_0_r x) at 1. rewrite !(Qcplus_comm x). apply Qcplus_lt_r. reflexivity. }
    apply H in K. discriminate K.
Qed.

Section Two.
  Context {W V : WOrd} {Row Row' : Type}.
  Variables (lam : W -> V) (LA : LamArith V) (zero : W)
    (dist : Row -> Row -> W) (finite : Row -> bool) (X : list Row) (ms : nat) (st : settings V NatSize) (r : fitted W V NatSize)
    (dist' : Row' -> Row' -> W) (finite' : Row' -> bool) (X' : list Row') (ms' : nat) (st' : settings V NatSize) (r' : fitted W V NatSize) (g : nat -> nat).
  Hypothesis HF : fits lam LA zero dist finite ms X st r.
  Hypothesis HF' : fits lam LA zero dist' finite' ms' X' st' r'.
  Hypothesis Hg : placed (length X) (length X') g.
  Hypothesis Hms : ms' <= ms.
  Notation D := (row_distance finite dist X).
  Notation D' := (row_distance finite' dist' X').

  Lemma cuts_grow : (forall i j, i < length X -> j < length X -> wle (D' (g i) (g j)) (D i j) = true) ->
    forall eps eps' labels labels', wle eps eps' = true -> dbscan_clustering r eps ms = Ok labels -> dbscan_clustering r' eps' ms' = Ok labels' ->
    forall p q, p < length X -> q < length X -> (0 <= nth p labels (-2))%Z -> nth p labels (-2)%Z = nth q labels (-2)%Z ->
    (0 <= nth (g p) labels' (-2))%Z /\ nth (g p) labels' (-2)%Z = nth (g q) labels' (-2)%Z.
  Proof.
    intros HD eps eps' labels labels' He EL EL' p q Hp Hq Lp Epq. destruct Hg as [G1 G2].
    destruct HF as (ga & sl & A & bp & Hset & HK & Sym & Self & Least & Hn & E). destruct HF' as (ga' & sl' & A' & bp' & Hset' & HK' & Sym' & Self' & Least' & Hn' & E').
    destruct (fit_cut W V Row lam LA ga zero dist ms finite sl X A bp st r eps Hset HK Sym Self Least Hn E) as (l & El & DS).
    destruct (fit_cut W V Row' lam LA ga' zero dist' ms' finite' sl' X' A' bp' st' r' eps' Hset' HK' Sym' Self' Least' Hn' E') as (l' & El' & DS').
    assert (l = labels) by congruence. subst l. assert (l' = labels') by congruence. subst l'.
    assert (HDe : forall i j, i < length X -> j < length X -> wlt (D i j) eps = true -> wlt (D' (g i) (g j)) eps' = true).
    { intros i j Hi Hj Hw. eapply wle_lt_trans; [apply HD; auto|]. eapply wlt_le_trans; eauto. }
    assert (K : density_connected D (length X) ms eps p q) by (apply (ds_same _ _ _ _ _ DS); auto).
    assert (L' : (0 <= nth (g p) labels' (-2))%Z).
    { destruct (ds_size _ _ _ _ _ DS p Hp) as (xs & N & U & S1 & S2). destruct (ds_size _ _ _ _ _ DS' (g p) (G1 p Hp)) as (ys & N' & U' & S1' & S2'). apply S2'.
      assert (Hl : ms <= length xs) by (destruct (le_lt_dec ms (length xs)); auto; lia). rewrite Hms, Hl, <- (map_length g xs). apply NoDup_incl_length.
      - apply NoDup_map_in; auto. intros x y Hx Hy. apply G2; now apply U.
      - intros z Hz. apply in_map_iff in Hz as (y & <- & Hy). apply U in Hy as [Hy Ky]. apply U'. split; auto.
        eapply (dc_moves D D' (length X) (length X') ms ms' g eps eps'); eauto. }
    split; auto. apply (ds_same _ _ _ _ _ DS'); auto. eapply (dc_moves D D' (length X) (length X') ms ms' g eps eps'); eauto.
  Qed.

  Hypothesis Hm : min_cluster_size st <= length (filter finite X).
  Hypothesis Hm' : min_cluster_size st' <= length (filter finite' X').
  Hypothesis Hk : min_cluster_size st' <= min_cluster_size st.
  Hypothesis Hper : cluster_selection_persistence st = None.
  Hypothesis Hper' : cluster_selection_persistence st' = None.
  Variables (p : nat) (a : Row) (a' : Row').
  Hypothesis Ha : nth_error X p = Some a.
  Hypothesis Fa : finite a = true.
  Hypothesis Ha' : nth_error X' (g p) = Some a'.
  Hypothesis Fa' : finite' a' = true.
  Variables (u v : crow V NatSize).
  Hypothesis Hu : In u (f_condensed r).
  Hypothesis Eu : c_child u = p.
  Hypothesis Hv : In v (f_condensed r').
  Hypothesis Ev : c_child v = g p.

  Lemma both : exists d d', joins_at D (length X) ms (min_cluster_size st) p d /\ joins_at D' (length X') ms' (min_cluster_size st') (g p) d' /\
    c_lam u = lam d /\ c_lam v = lam d' /\ forall x y, wle x y = true -> wle (lam y) (lam x) = true.
  Proof.
    destruct HF as (ga & sl & A & bp & Hset & HK & Sym & Self & Least & Hn & E). destruct HF' as (ga' & sl' & A' & bp' & Hset' & HK' & Sym' & Self' & Least' & Hn' & E').
    destruct (fit_density lam LA ga zero dist ms finite sl X A bp st r Hset HK Sym Self Least Hn Hm Hper E p a Ha Fa) as (d & Jd & _ & Ed).
    destruct (fit_density lam LA ga' zero dist' ms' finite' sl' X' A' bp' st' r' Hset' HK' Sym' Self' Least' Hn' Hm' Hper' E' (g p) a' Ha' Fa') as (d' & Jd' & _ & Ed').
    exists d, d'. split; auto. split; auto. split; auto. split; auto. apply (so_antitone _ _ _ _ _ HK).
  Qed.

  Lemma here : p < length X.
  Proof. apply nth_error_Some. rewrite Ha. discriminate. Qed.

  Theorem densities_rise : (forall i j, i < length X -> j < length X -> wle (D' (g i) (g j)) (D i j) = true) -> wle (c_lam u) (c_lam v) = true.
  Proof.
    intro HD. destruct both as (d & d' & J & J' & -> & -> & HL). destruct Hg as [G1 G2]. apply HL.
    eapply (joins_nearer D D' (length X) (length X') ms ms'); eauto. apply here.
  Qed.
  Theorem densities_near f : (forall x y, wlt x y = true -> wlt (f x) (f y) = true) ->
    (forall i j, i < length X -> j < length X -> wle (D' (g i) (g j)) (f (D i j)) = true) ->
    exists d d', c_lam u = lam d /\ c_lam v = lam d' /\ forall eps, wlt d eps = true -> wlt d' (f eps) = true.
  Proof.
    intros Hf HD. destruct both as (d & d' & J & J' & Ed & Ed' & HL). destruct Hg as [G1 G2]. exists d, d'. split; auto. split; auto.
    eapply (joins_near D D' (length X) (length X') ms ms'); eauto. apply here.
  Qed.
End Two.

(** Data whose distances differ by at most [delta]. *)
Theorem exact_near {V : WOrd} {Row Row' : Type} (lam : QInf -> V) (LA : LamArith V) (zero : QInf)
    (dist : Row -> Row -> QInf) finite X ms (st : settings V NatSize) r (dist' : Row' -> Row' -> QInf) finite' X' r' delta :
  fits lam LA zero dist finite ms X st r -> fits lam LA zero dist' finite' ms X' st r' -> length X = length X' ->
  min_cluster_size st <= length (filter finite X) -> min_cluster_size st <= length (filter finite' X') -> cluster_selection_persistence st = None ->
  (forall i j, i < length X -> j < length X ->
     wle (row_distance finite' dist' X' i j) (later delta (row_distance finite dist X i j)) = true /\
     wle (row_distance finite dist X i j) (later delta (row_distance finite' dist' X' i j)) = true) ->
  forall p a a', nth_error X p = Some a -> finite a = true -> nth_error X' p = Some a' -> finite' a' = true ->
  forall u v, In u (f_condensed r) -> c_child u = p -> In v (f_condensed r') -> c_child v = p ->
  exists d d', c_lam u = lam d /\ c_lam v = lam d' /\ wle d' (later delta d) = true /\ wle d (later delta d') = true.
Proof.
  intros HF HF' HL Hm Hm' Hp HD p a a' Ha Fa Ha' Fa' u v Hu Eu Hv Ev.
  assert (G : placed (length X) (length X') (fun i => i)) by (split; intros; auto; lia).
  assert (G' : placed (length X') (length X) (fun i => i)) by (split; intros; auto; lia).
  destruct (both lam LA zero dist finite X ms st r dist' finite' X' ms st r' (fun i => i) HF HF' Hm Hm' Hp Hp p a a' Ha Fa Ha' Fa' u v Hu Eu Hv Ev)
    as (d & d' & J & J' & Ed & Ed' & _).
  assert (Hpx : p < length X) by (apply nth_error_Some; rewrite Ha; discriminate).
  exists d, d'. split; auto. split; auto. split; apply later_close.
  - destruct G as [G1 G2]. eapply (joins_near _ _ (length X) (length X') ms ms _ _ (fun i => i) p d d' G1 G2 (le_n _) (le_n _) Hpx J J' (later delta) (later_mono delta)). intros i j Hi Hj. now apply HD.
  - destruct G' as [G1 G2]. eapply (joins_near _ _ (length X') (length X) ms ms _ _ (fun i => i) p d' d G1 G2 (le_n _) (le_n _) ltac:(lia) J' J (later delta) (later_mono delta)).
    intros i j Hi Hj. rewrite <- HL in Hi, Hj. now apply HD.
Qed.
