(** Renaming the clusters of a condensed tree: selection, labels and strengths. *)
From Coq Require Import List Arith Lia Bool ZArith Permutation QArith Qcanon.
From Verif Require Import Prelude Order Size Num M_Linkage S_Linkage M_Condense S_Condense P_CTree P_Below M_Select S_Select P_BCScore P_BCSame
  M_Labels S_Labels P_Labels P_LabelsTop P_LabelsProps S_Unique P_UniqueTree.
Import ListNotations.
Local Open Scope nat_scope.

Lemma ren_ren {V Sz} f g (r : crow V Sz) : ren g (ren f r) = ren (fun x => g (f x)) r.
Proof. reflexivity. Qed.

Lemma renamed_trans {V Sz} n f g (T1 T2 T3 : list (crow V Sz)) : renamed n f T1 T2 -> renamed n g T2 T3 -> renamed n (fun x => g (f x)) T1 T3.
Proof.
  intros [A1 A2 A3 A4 A5] [B1 B2 B3 B4 B5]. constructor.
  - now rewrite A1.
  - intros x Hx. auto.
  - intros c Hc. auto.
  - intros a b Ha Hb E. apply A4; auto. apply B4; auto.
    + destruct Ha; auto.
    + destruct Hb; auto.
  - eapply Permutation_trans; [|exact B5]. eapply Permutation_trans; [|apply Permutation_map, A5]. rewrite map_map. apply Permutation_refl.
Qed.

Section Rename.
  Context {V : WOrd} {Sz : SOrd}.
  Variables (n : nat) (wt wt' : nat -> Sz) (mcs : Sz) (T T' : list (crow V Sz)) (f : nat -> nat).
  Hypothesis HT : condensed n wt mcs T.
  Hypothesis HT' : condensed n wt' mcs T'.
  Hypothesis HR : renamed n f T T'.
  Notation named := (fun a => a < n \/ is_cluster n T a).

  Lemma to_row r : In r T -> In (ren f r) T'.
  Proof. intro H. eapply Permutation_in; [apply (rn_rows _ _ _ _ HR)|]. now apply in_map. Qed.
  Lemma from_row r' : In r' T' -> exists r, In r T /\ ren f r = r'.
  Proof. intro H. eapply Permutation_in in H; [|apply Permutation_sym, (rn_rows _ _ _ _ HR)]. apply in_map_iff in H as (r & E & Hr). eauto. Qed.
  Lemma names r : In r T -> named (c_child r) /\ is_cluster n T (c_parent r).
  Proof. intro H. now apply (row_names n wt mcs T HT). Qed.
  Lemma cluster_ge c : is_cluster n T c -> n <= c.
  Proof. intro H. apply (is_cluster_iff n wt mcs T HT) in H. lia. Qed.
  Lemma cluster_ge' c : is_cluster n T' c -> n <= c.
  Proof. intro H. apply (is_cluster_iff n wt' mcs T' HT') in H. lia. Qed.
  Lemma f_sample a : named a -> (f a < n <-> a < n).
  Proof.
    intros [H|H]; split; intro K; auto; try (now apply (rn_samples _ _ _ _ HR)).
    exfalso. apply (rn_clusters _ _ _ _ HR) in H. apply cluster_ge' in H. lia.
  Qed.
  Lemma f_out a : named a -> f a < n -> a < n.
  Proof. intros Ha. now apply f_sample. Qed.
  Lemma f_in a : a < n -> f a < n.
  Proof. apply (rn_samples _ _ _ _ HR). Qed.
  Lemma f_eq a b : named a -> named b -> (f a = f b <-> a = b).
  Proof. intros Ha Hb. split; [now apply (rn_inj _ _ _ _ HR)|congruence]. Qed.
  Lemma f_inj a b : named a -> named b -> f a = f b -> a = b.
  Proof. apply (rn_inj _ _ _ _ HR). Qed.
  Lemma root_named : named n.
  Proof. right. now left. Qed.
  Lemma f_root a : named a -> (f a = n <-> a = n).
  Proof. intro Ha. rewrite <- (rn_root _ _ _ _ HR) at 1. apply f_eq; auto. apply root_named. Qed.
  Lemma onto c' : is_cluster n T' c' -> exists c, is_cluster n T c /\ f c = c'.
  Proof.
    intros [->|(Hc & r' & Hr' & <-)]; [exists n; split; [now left|apply (rn_root _ _ _ _ HR)]|].
    destruct (from_row r' Hr') as (r & Hr & <-). cbn in *. destruct (names r Hr) as [Hnm _]. exists (c_child r). split; auto.
    destruct Hnm as [H|]; auto. apply (rn_samples _ _ _ _ HR) in H. lia.
  Qed.

  Lemma to_descends a b : descends n T a b -> descends n T' (f a) (f b).
  Proof.
    induction 1 as [r Hr Hge|a b c _ IH1 _ IH2]; [|eapply desc_trans; eauto].
    apply (desc_child n T' (ren f r)); [now apply to_row|]. cbn. destruct (names r Hr) as [Hnm _]. destruct (Nat.lt_ge_cases (f (c_child r)) n) as [K|]; auto.
    apply f_out in K; auto. lia.
  Qed.
  Lemma descends_clusters a b : descends n T' a b -> is_cluster n T' a /\ is_cluster n T' b.
  Proof.
    induction 1 as [r Hr Hge|a b c _ [I1 I2] _ [J1 J2]]; auto. split; [|right; eauto]. apply (is_cluster_iff n wt' mcs T' HT'). now apply (parent_ge n wt' mcs T' HT').
  Qed.
  Lemma from_descends a' b' : descends n T' a' b' -> forall a b, is_cluster n T a -> is_cluster n T b -> f a = a' -> f b = b' -> descends n T a b.
  Proof.
    induction 1 as [r' Hr' Hge|a' b' c' H1 IH1 H2 IH2]; intros a b Ha Hb Ea Eb.
    - destruct (from_row r' Hr') as (r & Hr & <-). cbn in *. destruct (names r Hr) as [Hc Hp]. apply f_inj in Ea; auto. apply f_inj in Eb; auto. subst a b.
      constructor; auto. now apply cluster_ge.
    - destruct (descends_clusters _ _ H1) as [_ Hb']. destruct (onto b' Hb') as (d & Hd & Ed). eapply desc_trans; eauto.
  Qed.
  Lemma descends_iff a b : is_cluster n T a -> is_cluster n T b -> (descends n T' (f a) (f b) <-> descends n T a b).
  Proof. intros Ha Hb. split; [|apply to_descends]. intro H. eapply from_descends; eauto. Qed.
  Lemma leaf_iff c : is_cluster n T c -> (leaf_cluster n T' (f c) <-> leaf_cluster n T c).
  Proof.
    intro Hc. split; intros [H1 H2]; split; auto.
    - intros r Hr Hge E. subst c. apply (H2 (ren f r)); [now apply to_row| |reflexivity]. cbn. destruct (names r Hr) as [Hnm _].
      destruct (Nat.lt_ge_cases (f (c_child r)) n) as [K|]; auto. apply f_out in K; auto. lia.
    - now apply (rn_clusters _ _ _ _ HR).
    - intros r' Hr' Hge E. destruct (from_row r' Hr') as (r & Hr & <-). cbn in *. destruct (names r Hr) as [Hnm Hp]. apply f_inj in E; auto. subst c.
      apply (H2 r Hr); auto. destruct (Nat.lt_ge_cases (c_child r) n) as [K|]; auto. apply f_in in K. lia.
  Qed.
  Lemma no_clusters : cluster_rows n T = [] <-> cluster_rows n T' = [].
  Proof.
    assert (K : forall X : list (crow V Sz), cluster_rows n X = [] <-> forall r, In r X -> c_child r < n).
    { intro X. unfold cluster_rows. split.
      - intros E r Hr. destruct (Nat.lt_ge_cases (c_child r) n) as [|Hge]; auto. exfalso.
        assert (H : In r (filter (fun r => n <=? c_child r) X)) by (apply filter_In; split; auto; now apply Nat.leb_le). rewrite E in H. destruct H.
      - intro H. destruct (filter _ X) as [|r l] eqn:E; auto. assert (Hr : In r (filter (fun r => n <=? c_child r) X)) by (rewrite E; now left).
        apply filter_In in Hr as [Hr Hc]. apply Nat.leb_le in Hc. specialize (H r Hr). lia. }
    rewrite !K. split; intros H r Hr.
    - destruct (from_row r Hr) as (q & Hq & <-). cbn. apply (rn_samples _ _ _ _ HR). auto.
    - destruct (names r Hr) as [Hnm _]. apply f_out; auto. apply (H (ren f r)). now apply to_row.
  Qed.
  Lemma admissible_iff single c : is_cluster n T c -> (admissible n T' None single (f c) <-> admissible n T None single c).
  Proof.
    intro Hc. unfold admissible. rewrite (f_root c (or_intror Hc)). pose proof (rn_clusters _ _ _ _ HR c Hc). split; intros (H1 & H2 & _); repeat (split; auto); intros; discriminate.
  Qed.
  Lemma preimages Y' : (forall c, In c Y' -> is_cluster n T' c) -> exists Y, map f Y = Y' /\ forall c, In c Y -> is_cluster n T c.
  Proof.
    induction Y' as [|c' Y' IH]; intro H; [exists []; split; [reflexivity|intros c []]|]. destruct IH as (Y & E & HY); [intros c Hc; apply H; now right|].
    destruct (onto c' (H c' (or_introl eq_refl))) as (c & Hc & Ec). exists (c :: Y). split; [cbn; congruence|]. intros d [<-|Hd]; auto.
  Qed.
  Lemma map_nodup Y : (forall c, In c Y -> named c) -> NoDup Y -> NoDup (map f Y).
  Proof. intros H HN. apply NoDup_map_in; auto. intros x y Hx Hy. apply f_inj; auto. Qed.
  Lemma disjoint_iff Y : (forall c, In c Y -> is_cluster n T c) -> (disjoint_clusters n T' (map f Y) <-> disjoint_clusters n T Y).
  Proof.
    intro H. split; intros HD.
    - intros c d Hc Hd K. apply (HD (f c) (f d)); try now apply in_map. now apply to_descends.
    - intros c' d' Hc Hd K. apply in_map_iff in Hc as (c & <- & Hc). apply in_map_iff in Hd as (d & <- & Hd). apply (HD c d); auto. apply descends_iff in K; auto.
  Qed.

  (** ** Labels *)
  Variables (S S' : list nat).
  Hypothesis HS : forall s, In s S -> is_cluster n T s.
  Hypothesis HSN : NoDup S.
  Hypothesis HSN' : NoDup S'.
  Hypothesis HSS : forall c', In c' S' <-> exists c, In c S /\ f c = c'.

  Lemma sel_iff a : named a -> (In (f a) S' <-> In a S).
  Proof.
    intro Ha. rewrite HSS. split; [|eauto]. intros (c & Hc & E). apply f_inj in E; auto. now subst.
  Qed.
  Lemma to_home v t : home n S T v t -> named v -> named t /\ home n S' T' (f v) (f t).
  Proof.
    induction 1 as [|v Hv|r t Hr Hns Hne H IH]; intro Hn.
    - split; auto. rewrite (rn_root _ _ _ _ HR). constructor.
    - split; auto. constructor. now apply sel_iff.
    - destruct (names r Hr) as [Hc Hp]. destruct (IH (or_intror Hp)) as [Ht IH']. split; auto.
      apply (home_up n S' T' (ren f r)); [now apply to_row| | |exact IH']; cbn.
      + rewrite sel_iff; auto.
      + rewrite f_root; auto.
  Qed.
  Lemma only_root : S = [n] <-> S' = [n].
  Proof.
    assert (K : forall X : list nat, NoDup X -> (X = [n] <-> forall c, In c X <-> c = n)).
    { intros X HX. split; [intros -> c; cbn; intuition|]. intro H. destruct X as [|a X]; [exfalso; now apply (proj2 (H n))|].
      assert (a = n) by (apply H; now left). subst a. destruct X as [|b X]; auto. exfalso. assert (b = n) by (apply H; right; now left). subst b.
      inversion HX as [|? ? Hn _]. apply Hn. now left. }
    rewrite !K by auto. split; intros H c.
    - rewrite HSS. split.
      + intros (d & Hd & <-). apply H in Hd. subst d. apply (rn_root _ _ _ _ HR).
      + intros ->. exists n. split; [now apply H|apply (rn_root _ _ _ _ HR)].
    - split.
      + intro Hc. assert (K2 : In (f c) S') by (apply sel_iff; auto; right; auto). apply H in K2. apply (proj1 (f_root c (or_intror (HS c Hc)))) in K2. auto.
      + intros ->. apply (sel_iff n root_named). rewrite (rn_root _ _ _ _ HR). now apply H.
  Qed.

  Variable zero : V.
  (** Which cluster a sample gets. *)
  Definition gets (T : list (crow V Sz)) (S : list nat) (r : crow V Sz) (o : option nat) : Prop :=
    match o with
    | Some t => ~ at_zero zero r /\ home n S T (c_child r) t /\ (t <> n \/ (S = [n] /\ dense_enough n T None r))
    | None => at_zero zero r \/ (~ at_zero zero r /\ home n S T (c_child r) n /\ (S <> [n] \/ ~ dense_enough n T None r))
    end.
  Definition number (S : list nat) (o : option nat) : Z := match o with Some t => Z.of_nat (position S t) | None => (-1)%Z end.

  Lemma dense_dec X r : dense_enough (V := V) (Sz := Sz) n X None r \/ ~ dense_enough n X None r.
  Proof.
    destruct (forallb (fun q => negb (c_parent q =? n) || wle (c_lam q) (c_lam r)) X) eqn:E.
    - left. intros q Hq Ep. rewrite forallb_forall in E. specialize (E q Hq). rewrite Ep, Nat.eqb_refl in E. exact E.
    - right. intro H. assert (K : forallb (fun q => negb (c_parent q =? n) || wle (c_lam q) (c_lam r)) X = true); [|congruence].
      apply forallb_forall. intros q Hq. destruct (Nat.eqb_spec (c_parent q) n) as [Ep|]; auto. cbn. now apply H.
  Qed.
  Lemma zero_dec (r : crow V Sz) : at_zero zero r \/ ~ at_zero zero r.
  Proof. unfold at_zero. destruct (wle (c_lam r) zero), (wle zero (c_lam r)); intuition congruence. Qed.
  Lemma label_gets X Y r l : right_label zero n X Y None r l -> exists o, gets X Y r o /\ l = number Y o.
  Proof.
    intros [H1 H2]. destruct (zero_dec r) as [Hz|Hz]; [exists None; split; [now left|auto]|]. destruct (H2 Hz) as (t & Hh & A & B & C).
    destruct (Nat.eq_dec t n) as [->|Hne]; [|exists (Some t); split; [cbn; auto|cbn; auto]].
    destruct (list_eq_dec Nat.eq_dec Y [n]) as [->|HY].
    - destruct (C eq_refl eq_refl) as [C1 C2]. destruct (dense_dec X r) as [Hd|Hd].
      + exists (Some n). split; [cbn; auto|]. rewrite (C1 Hd). unfold number, position, countp. cbn [filter]. now rewrite Nat.ltb_irrefl.
      + exists None. split; [right; auto|]. cbn. auto.
    - exists None. split; [right; auto|]. cbn. auto.
  Qed.
  Lemma dense_iff r : dense_enough n T' None (ren f r) <-> dense_enough n T None r.
  Proof.
    unfold dense_enough. cbn. split; intros H q Hq E.
    - apply (H (ren f q)); [now apply to_row|]. cbn. rewrite E. apply (rn_root _ _ _ _ HR).
    - destruct (from_row q Hq) as (q0 & Hq0 & <-). cbn in *. apply H; auto. destruct (names q0 Hq0) as [_ Hp]. apply f_root; auto.
  Qed.
  Lemma to_gets r o : In r T -> gets T S r o -> gets T' S' (ren f r) (option_map f o).
  Proof.
    intros Hr H. destruct (names r Hr) as [Hc _]. destruct o as [t|]; cbn [option_map gets] in *.
    - destruct H as (Hz & Hh & H). destruct (to_home _ _ Hh Hc) as [Ht Hh']. split; auto. split; auto. rewrite f_root by auto. rewrite <- only_root, dense_iff. auto.
    - destruct H as [Hz|(Hz & Hh & H)]; [now left|]. right. destruct (to_home _ _ Hh Hc) as [_ Hh']. rewrite (rn_root _ _ _ _ HR) in Hh'. split; auto. split; auto.
      rewrite <- only_root, dense_iff. auto.
  Qed.
  Lemma gets_det wt0 X Y r o o' : condensed n wt0 mcs X -> (forall s, In s Y -> n <= s) -> gets X Y r o -> gets X Y r o' -> o = o'.
  Proof.
    intros HX HY H H'. assert (HO := condensed_ordered _ _ _ _ HX). assert (Hdet := home_det n X Y HO HY (c_child r)).
    destruct o as [t|], o' as [t'|]; cbn in H, H'; auto.
    - f_equal. destruct H as (_ & H & _), H' as (_ & H' & _). eapply Hdet; eauto.
    - exfalso. destruct H as (Hz & Hh & H). destruct H' as [H'|(_ & Hh' & H')]; auto. assert (t = n) by (eapply Hdet; eauto). tauto.
    - exfalso. destruct H' as (Hz & Hh & H'). destruct H as [H|(_ & Hh' & H)]; auto. assert (t' = n) by (eapply Hdet; eauto). tauto.
  Qed.
  Lemma gets_in X Y r t : gets X Y r (Some t) -> In t Y.
  Proof. intros (_ & Hh & H). destruct (home_range n X Y _ _ Hh) as [->|]; auto. destruct H as [|[-> _]]; [congruence|now left]. Qed.
  Lemma number_inj Y o o' : NoDup Y -> (forall t, o = Some t -> In t Y) -> (forall t, o' = Some t -> In t Y) -> number Y o = number Y o' -> o = o'.
  Proof.
    intros HY H H' E. destruct o as [t|], o' as [t'|]; cbn in E; auto; try lia. f_equal. apply (position_inj Y); auto. lia.
  Qed.

  Variables (ls ls' : list Z) (LA : LamArith V) (ps ps' : list V).
  Hypothesis Hzero : zero = la_zero LA.
  Hypothesis HlB : forall r, In r T -> c_child r < n -> right_label zero n T S None r (nth (c_child r) ls 0%Z).
  Hypothesis HlB' : forall r, In r T' -> c_child r < n -> right_label zero n T' S' None r (nth (c_child r) ls' 0%Z).
  Hypothesis HpB : forall r, In r T -> c_child r < n -> nth (c_child r) ls 0%Z <> (-1)%Z ->
    exists c, In c S /\ nth (c_child r) ls 0%Z = Z.of_nat (position S c) /\ right_strength LA n T c r (nth (c_child r) ps zero).
  Hypothesis HpB' : forall r, In r T' -> c_child r < n -> nth (c_child r) ls' 0%Z <> (-1)%Z ->
    exists c, In c S' /\ nth (c_child r) ls' 0%Z = Z.of_nat (position S' c) /\ right_strength LA n T' c r (nth (c_child r) ps' zero).
  Hypothesis Hz : forall x, x < n -> nth x ls 0%Z = (-1)%Z -> nth x ps zero = zero.
  Hypothesis Hz' : forall x, x < n -> nth x ls' 0%Z = (-1)%Z -> nth x ps' zero = zero.
  Hypothesis Hanti : forall a b : V, wle a b = true -> wle b a = true -> a = b.

  Lemma gets_both x : x < n -> exists r o, In r T /\ c_child r = x /\ gets T S r o /\ nth x ls 0%Z = number S o /\ nth (f x) ls' 0%Z = number S' (option_map f o) /\
    (forall t, o = Some t -> In t S) .
  Proof.
    intro Hx. destruct (sample_row n wt mcs T HT x Hx) as (r & Hr & E). destruct (label_gets _ _ _ _ (HlB r Hr ltac:(lia))) as (o & Ho & El). rewrite E in El.
    exists r, o. repeat (split; auto).
    - assert (Hfx : f x < n) by now apply (rn_samples _ _ _ _ HR). assert (Hr' := to_row r Hr).
      assert (Hc' : c_child (ren f r) = f x) by (cbn; congruence).
      destruct (label_gets _ _ _ _ (HlB' _ Hr' ltac:(rewrite Hc'; auto))) as (o' & Ho' & El'). rewrite Hc' in El'. rewrite El'. f_equal.
      eapply (gets_det wt' T' S'); eauto; [|now apply to_gets]. intros s Hs. apply HSS in Hs as (c & Hc & <-). apply cluster_ge'. apply (rn_clusters _ _ _ _ HR). auto.
    - intros t ->. eapply gets_in; eauto.
  Qed.
  Lemma map_in o : (forall t, o = Some t -> In t S) -> forall t', option_map f o = Some t' -> In t' S'.
  Proof. intros H t' E. destruct o as [t|]; [|discriminate]. injection E as <-. apply HSS. exists t. split; auto. Qed.

  Lemma same_labels x : x < n -> (nth x ls 0%Z = (-1)%Z <-> nth (f x) ls' 0%Z = (-1)%Z).
  Proof.
    intro Hx. destruct (gets_both x Hx) as (r & o & _ & _ & _ & E & E' & _). rewrite E, E'. destruct o as [t|]; cbn; [|tauto]. split; lia.
  Qed.
  Lemma same_groups x y : x < n -> y < n -> (nth x ls 0%Z = nth y ls 0%Z <-> nth (f x) ls' 0%Z = nth (f y) ls' 0%Z).
  Proof.
    intros Hx Hy. destruct (gets_both x Hx) as (r & o & _ & _ & _ & E & E' & Hi). destruct (gets_both y Hy) as (q & o2 & _ & _ & _ & E2 & E2' & Hi2).
    rewrite E, E', E2, E2'. split; intro K.
    - apply number_inj in K; auto. now subst o2.
    - apply number_inj in K; auto; try now apply map_in. f_equal. destruct o as [t|], o2 as [t2|]; cbn in K; try discriminate; auto. f_equal. injection K as K.
      apply f_inj in K; auto; right; auto.
  Qed.
  Lemma strength_same c r q q' : is_cluster n T c -> right_strength LA n T c r q -> right_strength LA n T' (f c) (ren f r) q' -> q = q'.
  Proof.
    intros Hc (m & (A1 & A2 & A3) & A4 & A5 & A6) (m' & (B1 & B2 & B3) & B4 & B5 & B6).
    assert (Em : m = m').
    { apply Hanti.
      - destruct A2 as [->|(s & Hs & Hsn & Esc & ->)]; auto. apply (B3 (ren f s)); [now apply to_row|cbn; now apply (rn_samples _ _ _ _ HR)|cbn; congruence].
      - destruct B2 as [->|(s' & Hs & Hsn & Esc & ->)]; auto. destruct (from_row s' Hs) as (s & Hs0 & <-). cbn in *. destruct (names s Hs0) as [Hnm Hp].
        apply A3; auto; [now apply f_out|]. apply f_inj in Esc; auto; now right. }
    subst m'. cbn in B4, B5, B6. destruct (wle m (la_zero LA)) eqn:E0; [rewrite A4, B4; auto|]. destruct (la_finite LA (c_lam r)) eqn:E1; [|rewrite A4, B4; auto].
    destruct (wle (c_lam r) m) eqn:E2; [rewrite A5, B5; auto|]. rewrite A6, B6; auto; unfold wlt; now rewrite E2.
  Qed.
  Lemma same_strengths x : x < n -> nth x ps zero = nth (f x) ps' zero.
  Proof.
    intro Hx. assert (Hfx : f x < n) by now apply (rn_samples _ _ _ _ HR).
    destruct (gets_both x Hx) as (r & o & Hr & Er & _ & E & E' & Hi). destruct o as [t|].
    - cbn [option_map number] in E, E'. assert (Ht : In t S) by auto. assert (Hcr : c_child r < n) by lia. assert (Hc' : c_child (ren f r) = f x) by (cbn; congruence).
      destruct (HpB r Hr Hcr) as (c & Hc & Ec & Hc2); [rewrite Er; lia|].
      destruct (HpB' (ren f r) (to_row r Hr)) as (c' & Hd & Ed & Hd2); [rewrite Hc'; auto|rewrite Hc'; lia|].
      rewrite Er, E in Ec. rewrite Hc', E' in Ed. assert (c = t) by (apply (position_inj S); auto; lia). subst c.
      assert (c' = f t) by (apply (position_inj S'); auto; [apply HSS; eauto|lia]). subst c'.
      rewrite Er in Hc2. rewrite Hc' in Hd2. eapply strength_same; eauto.
    - cbn [option_map number] in E, E'. rewrite Hz, Hz'; auto.
  Qed.
End Rename.

Section Best.
  Variables (n : nat) (mcs : NatSize) (T T' : list (crow QInf NatSize)) (f : nat -> nat) (single : bool) (to_q : NatSize -> Qc).
  Hypothesis HT : condensed (Sz := NatSize) n (fun _ => 1) mcs T.
  Hypothesis HT' : condensed (Sz := NatSize) n (fun _ => 1) mcs T'.
  Hypothesis HR : renamed n f T T'.

  Notation one1 := (fun _ : nat => (1 : scar NatSize)).
  Lemma filter_map_ren (P P' : crow QInf NatSize -> bool) l : (forall r, In r l -> P' (ren f r) = P r) ->
    filter P' (map (ren f) l) = map (ren f) (filter P l).
  Proof.
    induction l as [|a l IH]; intro H; auto. cbn [map filter]. rewrite IH by (intros r Hr; apply H; now right). rewrite (H a (or_introl eq_refl)).
    now destruct (P a).
  Qed.
  Lemma part_sum (P P' : crow QInf NatSize -> bool) : (forall r, In r T -> P' (ren f r) = P r) ->
    qsum (map (fun r => lam_q r * to_q (c_size r))%Qc (filter P' T')) = qsum (map (fun r => lam_q r * to_q (c_size r))%Qc (filter P T)).
  Proof.
    intro H. rewrite (qsum_perm _ (map (fun r => lam_q r * to_q (c_size r))%Qc (filter P' (map (ren f) T)))).
    - rewrite (filter_map_ren P P') by auto. rewrite map_map. reflexivity.
    - apply Permutation_map. apply Permutation_sym. apply Prelude.filter_perm. apply (rn_rows _ _ _ _ HR).
  Qed.
  Lemma same_stability c : is_cluster n T c -> stability to_q T' (f c) = stability to_q T c.
  Proof.
    intro Hc. unfold stability, leaving, arriving. f_equal; apply part_sum; intros r Hr; cbn [ren c_parent c_child];
      destruct (names n _ mcs T HT r Hr) as [Hnm Hp]; apply Bool.eq_true_iff_eq; rewrite !Nat.eqb_eq; apply (f_eq n T T' f HR); auto.
  Qed.
  Lemma to_best R : best n T single (stability to_q T) R -> best n T' single (stability to_q T') (map f R).
  Proof.
    intros [B1 B2 B3 B4 B5 B6].
    assert (HRc : forall c, In c R -> is_cluster n T c) by (intros c Hc; now apply B2).
    assert (Hsum : forall Y, (forall c, In c Y -> is_cluster n T c) -> qsum (map (stability to_q T') (map f Y)) = qsum (map (stability to_q T) Y)).
    { intros Y HY. rewrite map_map. f_equal. apply map_ext_in. intros c Hc. apply same_stability. auto. }
    constructor.
    - apply (map_nodup n T T' f HR); auto.
    - intros c' Hc. apply in_map_iff in Hc as (c & <- & Hc). apply (admissible_iff n T T' f HR); auto.
    - apply (disjoint_iff n one1 one1 mcs T T' f HT HT' HR); auto.
    - intros Y' N' A' D'. destruct (preimages n one1 mcs T T' f HT HR Y') as (Y & <- & HY); [intros c Hc; now apply A'|].
      rewrite !Hsum by auto. apply B4.
      + now apply NoDup_map_inv in N'.
      + intros c Hc. apply (admissible_iff n T T' f HR single c); auto. apply A'. now apply in_map.
      + apply (disjoint_iff n one1 one1 mcs T T' f HT HT' HR); auto.
    - intros c' s' A Hs Hd. apply in_map_iff in Hs as (s & <- & Hs). destruct (onto n one1 mcs T T' f HT HR c') as (c & Hc & <-); [apply A|].
      destruct (B5 c s) as (D & D1 & D2 & D3); auto.
      + apply (admissible_iff n T T' f HR single c); auto.
      + apply (descends_iff n one1 one1 mcs T T' f HT HT' HR); auto.
      + assert (HDc : forall x, In x D -> is_cluster n T x) by (intros x Hx; apply HRc; now apply D2).
        exists (map f D). split; [apply (map_nodup n T T' f HR); auto; intros x Hx; right; auto|]. split.
        * intro x'. rewrite in_map_iff. split.
          -- intros (x & <- & Hx). apply D2 in Hx as [X1 X2]. split; [now apply in_map|]. apply (descends_iff n one1 one1 mcs T T' f HT HT' HR); auto.
          -- intros [X1 X2]. apply in_map_iff in X1 as (x & <- & X1). exists x. split; auto. apply D2. split; auto.
             apply (descends_iff n one1 one1 mcs T T' f HT HT' HR) in X2; auto.
        * rewrite Hsum by auto. rewrite same_stability by auto. auto.
    - intros l' Hl. destruct (onto n one1 mcs T T' f HT HR l') as (l & Hlc & <-); [apply Hl|].
      apply (leaf_iff n one1 one1 mcs T T' f HT HT' HR) in Hl; auto. destruct (B6 l Hl) as (s & Hs & [->|H]).
      + exists (f l). split; [now apply in_map|auto].
      + exists (f s). split; [now apply in_map|]. right. apply (descends_iff n one1 one1 mcs T T' f HT HT' HR); auto.
  Qed.
End Best.
