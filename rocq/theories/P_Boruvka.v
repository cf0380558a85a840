(** Boruvka phases on an abstract symmetric weighted graph: choosing a lightest
    outgoing edge for some of the components and merging along the choices, in
    any order, keeps the forest minimal, with arbitrary ties. *)
From Coq Require Import List Arith Lia Bool Permutation Relations.
From Verif Require Import Prelude Order Graph UF M_DisjointSet P_DisjointSet M_Linkage M_Select M_CoreGraph.
Import ListNotations.

Definition strip {W} (F : list (edge W)) : list (edge unit) :=
  map (fun e => (esrc e, edst e, tt)) F.

Lemma connected_strip {W} (F : list (edge W)) x y : connected (strip F) x y <-> connected F x y.
Proof.
  split; revert x y; apply connected_ind_equiv;
    eauto using connected_refl, connected_sym, connected_trans.
  - intros e He. apply in_map_iff in He as (f & <- & Hf). apply (connected_edge F f Hf).
  - intros e He. apply (connected_edge (strip F) (esrc e, edst e, tt)).
    apply in_map_iff. eauto.
Qed.

Section Phase.
  Context {W : WOrd}.
  Variable G : nat -> nat -> W -> Prop.
  Implicit Types F l : list (edge W).

  Definition at_most (t : W) F : list (edge W) := passing (fun w => wle w t) F.

  Lemma at_most_mono s t F e x y : wle s t = true ->
    connected (at_most s F) x y -> connected (at_most t (F ++ [e])) x y.
  Proof.
    intro H. apply connected_incl. intros f Hf. apply in_passing in Hf as [Hf Hw].
    apply in_passing. split; [apply in_app_iff; auto|]. eapply wle_trans; eauto.
  Qed.

  Lemma at_most_new t F e : wle (ewt e) t = true -> connected (at_most t (F ++ [e])) (esrc e) (edst e).
  Proof.
    intro H. apply connected_edge. apply in_passing. split; auto.
    apply in_app_iff. simpl. auto.
  Qed.

  Lemma connected_snoc_l F e x y : connected F x y -> connected (F ++ [e]) x y.
  Proof. intro H. apply connected_snoc. auto. Qed.

  Record phase_inv F : Prop := {
    ph_edges : forall e, In e F -> G (esrc e) (edst e) (ewt e);
    ph_acyclic : acyclic F;
    ph_inside : forall a b w, G a b w -> connected F a b -> connected (at_most w F) a b;
    ph_exits : forall a b w c d w', G a b w -> G c d w' ->
      connected F a c -> ~ connected F a b -> ~ connected F c d ->
      connected (at_most (wmax w w') F) a c
  }.

  (** [e] is no heavier than any edge leaving the component of its source. *)
  Definition lightest F (e : edge W) : Prop :=
    forall c d w, connected F (esrc e) c -> ~ connected F c d -> G c d w -> wle (ewt e) w = true.

  Record pending F l : Prop := {
    pe_edges : forall e, In e l -> G (esrc e) (edst e) (ewt e);
    pe_light : forall e, In e l -> lightest F e;
    pe_once : ForallOrdPairs (fun e f => ~ connected F (esrc e) (esrc f)) l
  }.

  Lemma phase_nil : phase_inv [].
  Proof.
    split.
    - intros e [].
    - apply acyclic_nil.
    - intros a b w _ H. apply connected_nil in H as ->. apply connected_refl.
    - intros a b w c d w' _ _ H _ _. apply connected_nil in H as ->. apply connected_refl.
  Qed.

  Lemma pending_tail F e l : pending F (e :: l) -> pending F l.
  Proof.
    intros [H1 H2 H3]. split; try (intros; (apply H1 || apply H2); right; auto).
    now inversion H3.
  Qed.

  Hypothesis Gsym : forall a b w, G a b w -> G b a w.

  Lemma phase_step F e l : phase_inv F -> pending F (e :: l) ->
    ~ connected F (esrc e) (edst e) -> phase_inv (F ++ [e]) /\ pending (F ++ [e]) l.
  Proof.
    intros [Hg Ha Hi Hj] [Pg Pl Po] Hne.
    assert (Ge : G (esrc e) (edst e) (ewt e)) by (apply Pg; left; auto).
    assert (Le : lightest F e) by (apply Pl; left; auto).
    assert (Out : forall a b, ~ connected (F ++ [e]) a b -> ~ connected F a b).
    { intros a b H K. apply H. now apply connected_snoc_l. }
    (* an edge that leaves the merged component, from the side of the source *)
    assert (Cross : forall a b w, connected F a (esrc e) -> G a b w -> ~ connected F a b ->
              wle (ewt e) w = true /\ connected (at_most w (F ++ [e])) a (esrc e)).
    { intros a b w H1 H2 H3.
      assert (Hle : wle (ewt e) w = true).
      { apply (Le a b w); auto. now apply connected_sym. }
      split; auto.
      eapply at_most_mono; [|apply (Hj a b w (esrc e) (edst e) (ewt e)); auto].
      apply wmax_lub; auto using wle_refl. }
    assert (Cross' : forall a b w, connected F a (edst e) -> G a b w -> ~ connected F a b ->
              connected (at_most (wmax w (ewt e)) (F ++ [e])) a (edst e)).
    { intros a b w H1 H2 H3.
      eapply at_most_mono; [|apply (Hj a b w (edst e) (esrc e) (ewt e)); auto].
      - apply wle_refl.
      - intro K. apply Hne. now apply connected_sym. }
    split; split.
    - intros f Hf. apply in_app_iff in Hf as [Hf|[<-|[]]]; auto.
    - now apply acyclic_snoc.
    - intros a b w HG Hc. apply connected_snoc in Hc as [Hc|[[H1 H2]|[H1 H2]]].
      + eapply at_most_mono; [apply wle_refl|]. now apply Hi.
      + assert (Nab : ~ connected F a b).
        { intro K. apply Hne. eauto using connected_trans, connected_sym. }
        destruct (Cross a b w H1 HG Nab) as [Hle C1].
        assert (C2 : connected (at_most (wmax w (ewt e)) (F ++ [e])) b (edst e)).
        { apply (Cross' b a w); auto using connected_sym. }
        assert (Hm : wle (wmax w (ewt e)) w = true) by (apply wmax_lub; auto using wle_refl).
        eapply connected_trans; [apply C1|].
        eapply connected_trans; [apply at_most_new; auto|].
        apply connected_sym. eapply connected_incl; [|apply C2].
        intros f Hf. apply in_passing in Hf as [Hf Hw]. apply in_passing. split; auto.
        eapply wle_trans; eauto.
      + assert (Nab : ~ connected F a b).
        { intro K. apply Hne. eauto using connected_trans, connected_sym. }
        assert (Nba : ~ connected F b a) by (intro K; apply Nab; now apply connected_sym).
        destruct (Cross b a w (connected_sym _ _ _ H2) (Gsym _ _ _ HG) Nba) as [Hle C1].
        pose proof (Cross' a b w H1 HG Nab) as C2.
        assert (Hm : wle (wmax w (ewt e)) w = true) by (apply wmax_lub; auto using wle_refl).
        eapply connected_trans; [|apply connected_sym, C1].
        eapply connected_trans; [|apply connected_sym, at_most_new; auto].
        eapply connected_incl; [|apply C2].
        intros f Hf. apply in_passing in Hf as [Hf Hw]. apply in_passing. split; auto.
        eapply wle_trans; eauto.
    - intros a b w c d w' HG HG' Hc Nab Ncd.
      apply Out in Nab as Nab'. apply Out in Ncd as Ncd'.
      assert (Up : forall t s x y, wle s t = true -> connected (at_most s (F ++ [e])) x y ->
                   connected (at_most t (F ++ [e])) x y).
      { intros t s x y H. apply connected_incl. intros f Hf. apply in_passing in Hf as [Hf Hw].
        apply in_passing. split; auto. eapply wle_trans; eauto. }
      apply connected_snoc in Hc as [Hc|[[H1 H2]|[H1 H2]]].
      + eapply at_most_mono; [apply wle_refl|]. now apply (Hj a b w c d w').
      + destruct (Cross a b w H1 HG Nab') as [Hle C1].
        pose proof (Cross' c d w' (connected_sym _ _ _ H2) HG' Ncd') as C2.
        eapply connected_trans; [eapply Up; [|apply C1]; apply wmax_l|].
        eapply connected_trans; [apply at_most_new; eapply wle_trans; [apply Hle|apply wmax_l]|].
        apply connected_sym. eapply Up; [|apply C2].
        apply wmax_lub; [apply wmax_r|]. eapply wle_trans; [apply Hle|apply wmax_l].
      + destruct (Cross c d w' (connected_sym _ _ _ H2) HG' Ncd') as [Hle C1].
        pose proof (Cross' a b w H1 HG Nab') as C2.
        eapply connected_trans; [|apply connected_sym; eapply Up; [|apply C1]; apply wmax_r].
        eapply connected_trans;
          [|apply connected_sym, at_most_new; eapply wle_trans; [apply Hle|apply wmax_r]].
        eapply Up; [|apply C2].
        apply wmax_lub; [apply wmax_l|]. eapply wle_trans; [apply Hle|apply wmax_r].
    - intros f Hf. apply Pg. right. auto.
    - intros f Hf c d w Hc Ncd HG. apply Out in Ncd as Ncd'.
      assert (Lf : lightest F f) by (apply Pl; right; auto).
      assert (Nef : ~ connected F (esrc e) (esrc f)).
      { inversion Po as [|? ? K1 K2]; subst. rewrite Forall_forall in K1. auto. }
      apply connected_snoc in Hc as [Hc|[[H1 H2]|[H1 H2]]].
      + apply (Lf c d w); auto.
      + exfalso. apply Nef. now apply connected_sym.
      + destruct (Cross c d w (connected_sym _ _ _ H2) HG Ncd') as [Hle _].
        eapply wle_trans; [|apply Hle].
        apply (Lf (edst e) (esrc e)); auto. intro K. apply Hne. now apply connected_sym.
    - inversion Po as [|? ? K1 K2]; subst. rewrite Forall_forall in K1.
      clear - K1 K2. induction K2 as [|f l H2 H3 IH]; constructor.
      + rewrite Forall_forall in *. intros g Hg Hc.
        apply connected_snoc in Hc as [Hc|[[P1 P2]|[P1 P2]]].
        * now apply (H2 g Hg).
        * apply (K1 f); [left; auto|]. now apply connected_sym.
        * apply (K1 g); [right; auto|]. auto.
      + apply IH. intros g Hg. apply K1. right. auto.
  Qed.

  (** ** The bookkeeping structure *)
  Variable n : nat.

  Definition tracks (d : disjoint_set) F : Prop :=
    ds_inv n d /\ rank_inv n d /\ classes n (ds_parent d) (connected F).

  Lemma tracks_same d d' F : ds_same d d' -> tracks d F -> tracks d' F.
  Proof.
    intros Hs (H1 & H2 & H3). split; [|split].
    - eapply ds_same_inv; eauto.
    - eapply rank_inv_same; eauto.
    - eapply classes_same; [|apply H3]. intro j. symmetry. apply Hs.
  Qed.

  Lemma tracks_create : tracks (ds_rank_create n) [].
  Proof.
    destruct (rank_create_inv n) as (H1 & H2 & H3). split; [|split]; auto.
    intros x y Hx Hy. rewrite (H3 x y Hx Hy). rewrite !connected_nil. tauto.
  Qed.

  Lemma tracks_find d F x : tracks d F -> x < n ->
    exists d' r, ds_find d x = Ok (d', r) /\ tracks d' F /\ connected F x r /\ r < n /\
                 ds_same d d' /\ Root (ds_parent d) x r.
  Proof.
    intros Ht Hx. destruct (ds_find_ok n d x (proj1 Ht) Hx) as (d' & r & Hf & Hs & HR & Hr).
    exists d', r. split; auto. split; [eapply tracks_same; eauto|]. split; auto.
    apply (proj2 (proj2 Ht)); auto. now apply same_root.
  Qed.

  Lemma tracks_same_root d F x y r s : tracks d F -> x < n -> y < n ->
    Root (ds_parent d) x r -> Root (ds_parent d) y s -> (connected F x y <-> r = s).
  Proof.
    intros (H1 & H2 & H3) Hx Hy HR HS. rewrite <- (H3 x y Hx Hy). now apply same_roots.
  Qed.

  Lemma tracks_union d F (e : edge W) x y : tracks d F -> x < n -> y < n ->
    esrc e < n -> edst e < n ->
    connected F x (esrc e) -> connected F y (edst e) ->
    exists d', ds_union_by_rank d x y = Ok d' /\ tracks d' (F ++ [e]).
  Proof.
    intros (H1 & H2 & H3) Hx Hy Hs Hd Cx Cy.
    assert (H3' : classes n (ds_parent d) (connected (strip F))).
    { intros u v Hu Hv. rewrite (H3 u v Hu Hv). symmetry. apply connected_strip. }
    destruct (union_by_rank_ok n (strip F) d x y H1 H3' H2 Hx Hy) as (d' & Hu & K1 & K2 & K3).
    exists d'. split; auto. split; [|split]; auto.
    intros u v Hu' Hv. rewrite (K3 u v Hu' Hv). rewrite !connected_snoc.
    rewrite !connected_strip. unfold esrc at 1 2, edst at 1 2. simpl.
    intuition eauto 7 using connected_trans, connected_sym.
  Qed.


  (** Merging along a list of edges: the recorded edges extend the forest. *)
  Lemma merge_edges_ok l : forall d F,
    tracks d F -> acyclic F -> (forall e, In e l -> esrc e < n /\ edst e < n) ->
    exists d' new, merge_edges d l = Ok (d', new) /\ tracks d' (F ++ new) /\
      incl new l /\ acyclic (F ++ new) /\
      (forall e, In e l -> connected (F ++ new) (esrc e) (edst e)).
  Proof.
    induction l as [|e l IH]; intros d F Ht Ha Hr; simpl.
    - exists d, []. rewrite app_nil_r. split; [reflexivity|]. split; [exact Ht|].
      split; [intros e []|]. split; auto. intros e [].
    - destruct (Hr e (or_introl eq_refl)) as [Hs Hd].
      destruct (tracks_find d F (esrc e) Ht Hs) as (d1 & r & Hf1 & Ht1 & Hc1 & Hr1 & Hs1 & HR1).
      destruct (tracks_find d1 F (edst e) Ht1 Hd) as (d2 & s & Hf2 & Ht2 & Hc2 & Hr2 & Hs2 & HR2).
      rewrite Hf1. simpl. rewrite Hf2. simpl.
      assert (HR1' : Root (ds_parent d1) (esrc e) r).
      { eapply Root_ext; [|apply HR1]. intro j. symmetry. apply Hs1. }
      pose proof (tracks_same_root d1 F _ _ _ _ Ht1 Hs Hd HR1' HR2) as Hiff.
      assert (Hr' : forall f, In f l -> esrc f < n /\ edst f < n) by (intros; apply Hr; right; auto).
      destruct (Nat.eqb_spec r s) as [E|E].
      + destruct (IH d2 F Ht2 Ha Hr') as (d' & new & Hm & K1 & K2 & K3 & K4).
        exists d', new. split; auto. split; auto. split; [intros f Hf; right; auto|]. split; auto.
        intros f [<-|Hf]; auto.
        apply (connected_incl F); [intros g Hg; apply in_app_iff; auto|]. now apply Hiff.
      + destruct (tracks_union d2 F e r s Ht2 Hr1 Hr2 Hs Hd) as (d3 & Hu & Ht3);
          auto using connected_sym.
        rewrite Hu. simpl.
        assert (Ha' : acyclic (F ++ [e])).
        { apply acyclic_snoc; auto. intro K. apply E. now apply Hiff. }
        destruct (IH d3 (F ++ [e]) Ht3 Ha' Hr') as (d' & new & Hm & K1 & K2 & K3 & K4).
        rewrite Hm. simpl. rewrite <- app_assoc in K1, K3, K4. simpl in K1, K3, K4.
        exists d', (e :: new). split; auto. split; auto.
        split; [intros f [<-|Hf]; [left|right]; auto|]. split; auto.
        intros f [<-|Hf]; auto.
        apply connected_edge. apply in_app_iff. right. left. auto.
  Qed.

  (** ... and if the edges are pending choices, it keeps the phase invariant. *)
  Lemma merge_edges_phase l : forall d F,
    tracks d F -> (forall e, In e l -> esrc e < n /\ edst e < n) ->
    phase_inv F -> pending F l ->
    forall d' new, merge_edges d l = Ok (d', new) -> phase_inv (F ++ new).
  Proof.
    induction l as [|e l IH]; intros d F Ht Hr Hi Hp d' new; simpl.
    - intros [= <- <-]. now rewrite app_nil_r.
    - destruct (Hr e (or_introl eq_refl)) as [Hs Hd].
      destruct (tracks_find d F (esrc e) Ht Hs) as (d1 & r & Hf1 & Ht1 & Hc1 & Hr1 & Hs1 & HR1).
      destruct (tracks_find d1 F (edst e) Ht1 Hd) as (d2 & s & Hf2 & Ht2 & Hc2 & Hr2 & Hs2 & HR2).
      rewrite Hf1. simpl. rewrite Hf2. simpl.
      assert (HR1' : Root (ds_parent d1) (esrc e) r).
      { eapply Root_ext; [|apply HR1]. intro j. symmetry. apply Hs1. }
      pose proof (tracks_same_root d1 F _ _ _ _ Ht1 Hs Hd HR1' HR2) as Hiff.
      assert (Hr' : forall f, In f l -> esrc f < n /\ edst f < n) by (intros; apply Hr; right; auto).
      destruct (Nat.eqb_spec r s) as [E|E].
      + intro Hm. eapply IH; eauto using pending_tail.
      + destruct (tracks_union d2 F e r s Ht2 Hr1 Hr2 Hs Hd) as (d3 & Hu & Ht3);
          auto using connected_sym.
        rewrite Hu. simpl. intro Hm. apply bind_ok in Hm as ([d4 new'] & Hm & [= <- <-]).
        destruct (phase_step F e l Hi Hp) as [Hi' Hp'].
        { intro K. apply E. now apply Hiff. }
        pose proof (IH d3 (F ++ [e]) Ht3 Hr' Hi' Hp' _ _ Hm) as K.
        now rewrite <- app_assoc in K.
  Qed.
End Phase.
