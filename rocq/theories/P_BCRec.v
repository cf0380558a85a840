(** The semi-supervised recursion. *)
From Coq Require Import List Arith Lia Bool Permutation.
From Verif Require Import Prelude Order Size RForest M_Linkage M_Condense M_Select M_BCubed P_Eom.
Import ListNotations.

Section Rec.
  Context {V : Type} {Sz : SOrd} (A : Arith V Sz) (B : BArith).
  Variables (ct : list (crow V Sz)) (rk : nat -> nat) (M : nat).
  Notation ch := (children_of ct).
  Hypothesis ch_up : forall v w, In w (ch v) -> rk v < rk w.
  Hypothesis ch_bound : forall v w, In w (ch v) -> rk w < M.
  Hypothesis ch_one : forall v v' w, In w (ch v) -> In w (ch v') -> v = v'.
  Hypothesis ch_nodup : forall v, NoDup (ch v).
  Notation sb := (rsub ch rk M).

  Variable stab : list (nat * num A).
  Variable bc : list (nat * bscore B).
  Variable K : list nat.           (* the keys of the dictionaries of flags *)
  Hypothesis KN : NoDup K.

  (** Nodes already unselected are unselected with everything below. *)
  Definition closed (s : flags) (v : nat) : Prop :=
    forall k, In k (sb v) -> selb (snd s) k = true -> forall j, In j (sb k) -> selb (snd s) j = true /\ selb (fst s) j = false.

  Lemma flag_get (d : list (nat * bool)) k : map fst d = K -> In k K -> dict_get d k = Ok (selb d k).
  Proof. intros E H. unfold selb. rewrite <- E in H. destruct (dict_get_in d k H) as (b & ->). auto. Qed.

  Lemma strictly_below node k : In k (sb node) -> k <> node -> exists c, In c (ch node) /\ In k (sb c).
  Proof. intros H Hne. destruct (rsub_inv ch rk M ch_up ch_bound _ _ H) as [->|H']; auto. congruence. Qed.

  Lemma below_children node k : existsb (fun c => memb (sb c) k) (ch node) = memb (sb node) k && negb (k =? node).
  Proof.
    apply eq_iff_eq_true. rewrite existsb_exists, andb_true_iff, memb_true, negb_true_iff, Nat.eqb_neq. split.
    - intros (c & Hc & Hk). apply memb_true in Hk. split.
      + eapply (rsub_child ch rk M ch_up ch_bound); eauto.
      + apply (rsub_ge ch rk M ch_up ch_bound) in Hk. pose proof (ch_up _ _ Hc). intros ->. destruct Hk as [->|]; lia.
    - intros [Hk Hne]. destruct (strictly_below _ _ Hk Hne) as (c & Hc & Hkc). exists c. split; auto. now apply memb_true.
  Qed.

  (** ** unselect_below_node_bcubed *)
  Lemma unselect_b_ok : forall fuel node (s : flags), M - rk node <= fuel -> rk node < M -> map fst (fst s) = K -> map fst (snd s) = K ->
    incl (sb node) (node :: K) -> (forall c, In c (ch node) -> closed s c) ->
    exists s' : flags, unselect_below_node_bcubed ct fuel node s = Ok s' /\ map fst (fst s') = K /\ map fst (snd s') = K /\
      (forall k, selb (fst s') k = if memb (sb node) k && negb (k =? node) then false else selb (fst s) k) /\
      (forall k, selb (snd s') k = if memb (sb node) k && negb (k =? node) then true else selb (snd s) k).
  Proof.
    induction fuel as [|f IH]; intros node s Hf HM HK1 HK2 Hin Hcl; [lia|]. cbn [unselect_below_node_bcubed].
    set (body := fun (child : nat) (s : flags) => _).
    assert (Hloop : forall cs (s : flags), incl cs (ch node) -> NoDup cs -> map fst (fst s) = K -> map fst (snd s) = K ->
      (forall c, In c cs -> closed s c) ->
      exists s' : flags, fold_res body cs s = Ok s' /\ map fst (fst s') = K /\ map fst (snd s') = K /\
        (forall k, selb (fst s') k = if existsb (fun c => memb (sb c) k) cs then false else selb (fst s) k) /\
        (forall k, selb (snd s') k = if existsb (fun c => memb (sb c) k) cs then true else selb (snd s) k)).
    { clear s HK1 HK2 Hcl. induction cs as [|c cs IHc]; intros s Hcs HN HK1 HK2 Hcl; cbn [fold_res].
      - exists s. split; auto.
      - inversion_clear HN as [|? ? Hnc HN']. assert (Hc : In c (ch node)) by (apply Hcs; simpl; auto).
        pose proof (ch_up _ _ Hc) as Hup. pose proof (ch_bound _ _ Hc).
        assert (Hself : In c (sb c)) by apply (rsub_self ch rk M ch_up ch_bound).
        assert (Hsub : incl (sb c) K).
        { intros x Hx. pose proof (rsub_child ch rk M ch_up ch_bound _ _ Hc x Hx) as Hx'.
          destruct (Hin x Hx') as [<-|]; auto. apply (rsub_ge ch rk M ch_up ch_bound) in Hx. destruct Hx as [E|]; [rewrite E in Hup|]; lia. }
        assert (Hdisj : forall c' k, In c' cs -> In k (sb c') -> ~ In k (sb c)).
        { intros c' k Hc' Hk Hk'. assert (c = c'); [|congruence].
          eapply (rsub_siblings ch rk M ch_up ch_bound ch_one node); eauto. apply Hcs. simpl; auto. }
        unfold body at 1. rewrite (flag_get _ _ HK2 (Hsub c Hself)). cbn [bind].
        destruct (selb (snd s) c) eqn:Eun; cbn [bind].
        + (* done before *)
          destruct (IHc s) as (s2 & E2 & HK1' & HK2' & Hs1 & Hs2); auto.
          { intros x Hx. apply Hcs. simpl; auto. } { intros x Hx. apply Hcl. simpl; auto. }
          exists s2. split; [exact E2|]. split; [exact HK1'|]. split; [exact HK2'|].
          assert (Hall : forall k, In k (sb c) -> selb (snd s) k = true /\ selb (fst s) k = false).
          { intros k Hk. apply (Hcl c) with (k := c); simpl; auto. }
          split; intro k; cbn [existsb].
          * rewrite Hs1. destruct (memb (sb c) k) eqn:Em; auto. apply memb_true in Em. cbn [orb].
            destruct (existsb _ cs); auto. now apply Hall.
          * rewrite Hs2. destruct (memb (sb c) k) eqn:Em; auto. apply memb_true in Em. cbn [orb].
            destruct (existsb _ cs); auto. now apply Hall.
        + destruct (IH c s ltac:(lia) ltac:(lia) HK1 HK2) as (s1 & -> & H1 & H2 & Hs1 & Hs2).
          { intros x Hx. right. now apply Hsub. }
          { intros c' Hc' k Hk. apply (Hcl c); simpl; auto. eapply (rsub_child ch rk M ch_up ch_bound); eauto. }
          cbn [bind]. set (s1' := (dict_set (fst s1) c false, dict_set (snd s1) c true) : flags).
          assert (E1 : forall k, selb (fst s1') k = if memb (sb c) k then false else selb (fst s) k).
          { intro k. unfold s1'. cbn [fst]. rewrite selb_set, Hs1. destruct (Nat.eqb_spec k c) as [->|].
            - now rewrite (proj2 (memb_true _ _) Hself). - now rewrite andb_true_r. }
          assert (E2 : forall k, selb (snd s1') k = if memb (sb c) k then true else selb (snd s) k).
          { intro k. unfold s1'. cbn [snd]. rewrite selb_set, Hs2. destruct (Nat.eqb_spec k c) as [->|].
            - now rewrite (proj2 (memb_true _ _) Hself). - now rewrite andb_true_r. }
          destruct (IHc s1') as (s2 & Ef & HK1' & HK2' & Hs1' & Hs2').
          { intros x Hx. apply Hcs. simpl; auto. } { auto. }
          { unfold s1'. cbn [fst]. rewrite dict_set_keys; auto. rewrite H1. auto. }
          { unfold s1'. cbn [snd]. rewrite dict_set_keys; auto. rewrite H2. auto. }
          { intros c' Hc' k Hk Hun j Hj. rewrite E1, E2 in *.
            assert (Hj' : In j (sb c')) by (eapply (rsub_trans ch rk M ch_up ch_bound); eauto).
            rewrite (proj2 (memb_false _ _) (Hdisj _ _ Hc' Hj')). rewrite (proj2 (memb_false _ _) (Hdisj _ _ Hc' Hk)) in Hun.
            apply (Hcl c') with (k := k); simpl; auto. }
          exists s2. split; [exact Ef|]. split; [exact HK1'|]. split; [exact HK2'|].
          split; intro k; cbn [existsb].
          * rewrite Hs1', E1. destruct (existsb _ cs); [now rewrite orb_true_r|]. rewrite orb_false_r. auto.
          * rewrite Hs2', E2. destruct (existsb _ cs); [now rewrite orb_true_r|]. rewrite orb_false_r. auto. }
    destruct (Hloop (ch node) s (incl_refl _) (ch_nodup node) HK1 HK2 Hcl) as (s' & E & H1 & H2 & Hs1 & Hs2).
    exists s'. split; [exact E|]. split; [exact H1|]. split; [exact H2|].
    split; intro k; rewrite <- below_children; auto.
  Qed.

  (** ** What the recursion achieves *)
  Definition chosen (sel : list (nat * bool)) (v : nat) : list nat := filter (selb sel) (sb v).

  Hypothesis HKs : forall k, In k K -> exists s, dict_get stab k = Ok s.
  Hypothesis HKb : forall k, In k K -> exists b, dict_get bc k = Ok b.
  Hypothesis comparable : forall x y, t_lt B x y = false -> t_lt B y x = false -> t_eq B y x = true.

  (** BCubed first, then stability. *)
  Definition lex_lt (x y : num A * btotal B) : bool :=
    t_lt B (snd x) (snd y) || (negb (t_lt B (snd y) (snd x)) && num_lt A (fst x) (fst y)).
  Definition padd (x y : num A * btotal B) : num A * btotal B := (num_add A (fst x) (fst y), t_add B (snd x) (snd y)).
  Definition pzero : num A * btotal B := (num_zero A, t_zero B).

  (** A node whose score is not below the empty choice. *)
  Definition worth (k : nat) : Prop := forall s b, dict_get stab k = Ok s -> dict_get bc k = Ok b -> lex_lt (s, b_cast B b) pzero = false.

  (** Exact arithmetic: an embedding of an ordered monoid. *)
  Variable Sc : SOrd.
  Variable emb : Sc -> num A * btotal B.
  Variable sc : nat -> Sc.
  Definition exact_b : Prop :=
    emb szero = pzero /\
    (forall a b, padd (emb a) (emb b) = emb (sadd a b)) /\
    (forall a b, lex_lt (emb a) (emb b) = slt a b) /\
    (forall k s b, In k K -> dict_get stab k = Ok s -> dict_get bc k = Ok b -> (s, b_cast B b) = emb (sc k)).

  Definition value (Y : list nat) : Sc := ssum (map sc Y).

  Record good (sel : list (nat * bool)) (v : nat) : Prop := {
    g_anti : rantichain ch rk M (chosen sel v);
    g_cover : forall l, In l (sb v) -> ch l = [] -> worth l -> exists k, In k (chosen sel v) /\ In l (sb k);
    g_opt : exact_b -> forall Y, NoDup Y -> incl Y (sb v) -> rantichain ch rk M Y ->
      sle (value Y) (value (chosen sel v)) = true;
    g_tie : exact_b -> forall k x, In k (sb v) -> In x (chosen sel k) -> x <> k ->
      slt (sc k) (value (chosen sel k)) = true
  }.

  Lemma chosen_ext sel sel' v : (forall k, In k (sb v) -> selb sel k = selb sel' k) -> chosen sel v = chosen sel' v.
  Proof. intro H. apply filter_ext_in. auto. Qed.

  Lemma good_ext sel sel' v : (forall k, In k (sb v) -> selb sel k = selb sel' k) -> good sel v -> good sel' v.
  Proof.
    intros H []. rewrite (chosen_ext _ _ _ H) in *. constructor; auto.
    intros HE k x Hk. rewrite <- (chosen_ext sel sel' k); eauto.
    intros y Hy. apply H. eapply (rsub_trans ch rk M ch_up ch_bound); eauto.
  Qed.

  Lemma value_perm X Y : Permutation X Y -> value X = value Y.
  Proof. intro H. apply ssum_perm. now apply Permutation_map. Qed.
  Lemma value_app X Y : value (X ++ Y) = sadd (value X) (value Y).
  Proof. unfold value. now rewrite map_app, ssum_app. Qed.
  Lemma value_flat (f : nat -> list nat) cs : value (flat_map f cs) = ssum (map (fun c => value (f c)) cs).
  Proof. induction cs as [|c cs IH]; simpl; auto. now rewrite value_app, IH. Qed.
  Lemma value_one k : value [k] = sc k.
  Proof. unfold value. simpl. apply sadd_0_r. Qed.

  Lemma only_node (Y : list nat) (node : nat) : NoDup Y -> In node Y -> (forall y, In y Y -> y = node) -> Y = [node].
  Proof.
    intros HN HnY Hall. destruct Y as [|y1 [|y2 Y]]; [destruct HnY| |].
    - f_equal. apply Hall; simpl; auto.
    - exfalso. inversion_clear HN as [|? ? Hn1 _]. apply Hn1. rewrite (Hall y1), (Hall y2) by (simpl; auto). simpl; auto.
  Qed.

  Lemma closed_ext s s' v : (forall k, In k (sb v) -> selb (fst s) k = selb (fst s') k /\ selb (snd s) k = selb (snd s') k) -> closed s v -> closed s' v.
  Proof.
    intros H HC k Hk Hun j Hj. assert (Hj' : In j (sb v)) by (eapply (rsub_trans ch rk M ch_up ch_bound); eauto).
    destruct (H j Hj') as [<- <-]. apply (HC k); auto. destruct (H k Hk) as [_ ->]. auto.
  Qed.

  Lemma eom_b_ok : forall fuel node (s : flags), M - rk node < fuel -> rk node < M -> map fst (fst s) = K -> map fst (snd s) = K -> incl (sb node) K ->
    (forall k, In k (sb node) -> selb (fst s) k = false /\ selb (snd s) k = false) ->
    exists v (s' : flags), eom_recursion_bcubed A B ct stab bc fuel node s = Ok (v, s') /\ map fst (fst s') = K /\ map fst (snd s') = K /\
      (forall k, ~ In k (sb node) -> selb (fst s') k = selb (fst s) k /\ selb (snd s') k = selb (snd s) k) /\
      closed s' node /\ selb (snd s') node = false /\ good (fst s') node /\
      (exact_b -> v = emb (value (chosen (fst s') node))).
  Proof.
    induction fuel as [|f IH]; intros node s Hf HM HK1 HK2 Hin Hoff; [lia|]. cbn [eom_recursion_bcubed].
    assert (Hself : In node (sb node)) by apply (rsub_self ch rk M ch_up ch_bound).
    destruct (HKs node (Hin node Hself)) as (score & Esc).
    destruct (HKb node (Hin node Hself)) as (b & Eb).
    rewrite Esc, Eb. cbn [bind]. cbn [fst snd].
    set (cur := (score, b_cast B b)).
    set (body := fun (child : nat) (ts : (num A * btotal B) * flags) => _).
    assert (Hloop : forall cs tot (s : flags), incl cs (ch node) -> NoDup cs -> map fst (fst s) = K -> map fst (snd s) = K ->
       (forall c k, In c cs -> In k (sb c) -> selb (fst s) k = false /\ selb (snd s) k = false) ->
       exists tot' (s' : flags), fold_res body cs (tot, s) = Ok (tot', s') /\ map fst (fst s') = K /\ map fst (snd s') = K /\
         (forall k, (forall c, In c cs -> ~ In k (sb c)) -> selb (fst s') k = selb (fst s) k /\ selb (snd s') k = selb (snd s) k) /\
         (forall c, In c cs -> closed s' c /\ good (fst s') c) /\
         (cs = [] -> tot' = tot) /\
         (exact_b -> forall t, tot = emb t -> tot' = emb (sadd t (ssum (map (fun c => value (chosen (fst s') c)) cs))))).
    { clear s HK1 HK2 Hoff. induction cs as [|c cs IHc]; intros tot s Hcs HN HK1 HK2 Hoff; cbn [fold_res].
      - exists tot, s. split; auto. split; auto. split; auto. split; auto. split; [intros c []|]. split; auto.
        intros _ t ->. simpl. now rewrite sadd_0_r.
      - inversion_clear HN as [|? ? Hnc HN']. assert (Hc : In c (ch node)) by (apply Hcs; simpl; auto).
        pose proof (ch_up _ _ Hc). pose proof (ch_bound _ _ Hc).
        assert (Hincl := rsub_child ch rk M ch_up ch_bound _ _ Hc).
        destruct (IH c s) as (v & s1 & E1 & HK1a & HK1b & Ho1 & Hcl1 & _ & Hg1 & Hx1); auto; try lia.
        { intros x Hx. now apply Hin, Hincl. }
        { intros k Hk. apply (Hoff c); simpl; auto. }
        unfold body at 1. cbn [snd fst]. rewrite E1. cbn [bind].
        assert (Hdisj : forall c' k, In c' cs -> In k (sb c') -> ~ In k (sb c)).
        { intros c' k Hc' Hk Hk'. assert (c = c'); [|congruence].
          eapply (rsub_siblings ch rk M ch_up ch_bound ch_one node); eauto. apply Hcs. simpl; auto. }
        destruct (IHc (padd tot v) s1) as (tot' & s2 & E2 & HK2a & HK2b & Ho2 & Hg2 & _ & Hx2); auto.
        { intros x Hx. apply Hcs. simpl; auto. }
        { intros c' k Hc' Hk. destruct (Ho1 k) as [-> ->]; [eauto|apply (Hoff c'); simpl; auto]. }
        match goal with |- context [fold_res ?b ?l ?x] => change (fold_res b l x) with (fold_res body cs (padd tot v, s1)) end. rewrite E2.
        assert (Hsame : forall k, In k (sb c) -> selb (fst s1) k = selb (fst s2) k /\ selb (snd s1) k = selb (snd s2) k).
        { intros k Hk. destruct (Ho2 k) as [-> ->]; auto. intros c' Hc' Hk'. exact (Hdisj c' k Hc' Hk' Hk). }
        exists tot', s2. split; [reflexivity|]. split; [exact HK2a|]. split; [exact HK2b|]. split; [|split; [|split]].
        + intros k Hk. destruct (Ho2 k) as [-> ->]; [intros; apply Hk; simpl; auto|]. apply Ho1. apply Hk; simpl; auto.
        + intros c' [<-|Hc']; auto. split; [now apply (closed_ext s1)|]. apply (good_ext (fst s1)); auto. intros k Hk. now apply Hsame.
        + discriminate.
        + intros HE t ->. rewrite (Hx1 HE) in Hx2. pose proof HE as (_ & Hadd & _).
          rewrite Hadd in Hx2. rewrite (Hx2 HE _ eq_refl). f_equal. simpl.
          rewrite (chosen_ext (fst s1) (fst s2) c) by (intros k Hk; now apply Hsame). now rewrite sadd_assoc. }
    destruct (Hloop (ch node) pzero s (incl_refl _) (ch_nodup node) HK1 HK2) as (tot & s1 & E1 & HK1a & HK1b & Ho1 & Hg1 & Hz & Hx1).
    { intros c k Hc Hk. apply Hoff. eapply (rsub_child ch rk M ch_up ch_bound); eauto. }
    match goal with |- context [fold_res ?b ?l ?x] => change (fold_res b l x) with (fold_res body (ch node) (pzero, s)) end. rewrite E1. cbn [bind]. clear Hloop IH.
    assert (Hnode : forall c, In c (ch node) -> ~ In node (sb c)).
    { intros c Hc H. apply (rsub_ge ch rk M ch_up ch_bound) in H. pose proof (ch_up _ _ Hc) as Hu. destruct H as [E|]; [rewrite <- E in Hu|]; lia. }
    assert (Hsibs : forall c c' x, In c (ch node) -> In c' (ch node) -> In x (sb c) -> In x (sb c') -> c = c').
    { intros. eapply (rsub_siblings ch rk M ch_up ch_bound ch_one node); eauto. }
    set (total := ssum (map (fun c => value (chosen (fst s1) c)) (ch node))) in *.
    assert (Htot : exact_b -> tot = emb total).
    { intro HE. pose proof HE as (H0 & _). rewrite (Hx1 HE szero (eq_sym H0)). now rewrite sadd_0. }
    (* any antichain that avoids the node splits over the children *)
    assert (Hparts : exact_b -> forall Y, NoDup Y -> incl Y (sb node) -> rantichain ch rk M Y ->
              ~ In node Y -> sle (value Y) total = true).
    { intros HE Y HNY HY HaY HnY.
      assert (HYc : forall y, In y Y -> exists c, In c (ch node) /\ In y (sb c)).
      { intros y Hy. apply strictly_below; auto. intros ->. contradiction. }
      rewrite (value_perm _ _ (split_parts sb (ch node) Y (ch_nodup node) Hsibs HYc)).
      rewrite value_flat. apply (ssum_mono Sc). intros c Hc.
      apply (g_opt _ _ (proj2 (Hg1 c Hc))); auto.
      - now apply NoDup_filter.
      - intros x Hx. apply filter_In in Hx as [_ Hx]. now apply memb_true.
      - intros x y Hx Hy. apply filter_In in Hx, Hy. apply HaY; tauto. }
    assert (Hcur : exact_b -> cur = emb (sc node)).
    { intro HE. pose proof HE as (_ & _ & _ & Hsc). apply Hsc; auto. }
    match goal with |- context [if t_lt B (b_cast B b) (snd tot) then ?X else _] => set (KEEP := X) end.
    match goal with |- context [if t_lt B (snd tot) (b_cast B b) then ?X else _] => set (SELECT := X) end.
    match goal with |- context [@eq _ ?D (Ok _)] => assert (Hdec : D = if lex_lt cur tot then KEEP else SELECT) end.
    { unfold lex_lt, cur. cbn [fst snd]. destruct (t_lt B (b_cast B b) (snd tot)) eqn:E2; cbn [orb]; auto.
      destruct (t_lt B (snd tot) (b_cast B b)) eqn:E3; cbn [negb andb]; auto. rewrite (comparable _ _ E2 E3). auto. }
    rewrite Hdec. clear Hdec. destruct (lex_lt cur tot) eqn:Edec.
    - (* the children are kept *)
      unfold KEEP. clear KEEP SELECT. exists tot, s1. split; auto. split; auto. split; auto.
      destruct (Ho1 node Hnode) as [Hn0 Hn1]. destruct (Hoff node Hself) as [F0 F1]. rewrite F0 in Hn0. rewrite F1 in Hn1.
      assert (Hch : chosen (fst s1) node = flat_map (chosen (fst s1)) (ch node)).
      { unfold chosen at 1. rewrite (rsub_eq ch rk M ch_up ch_bound). cbn [filter]. rewrite Hn0.
        generalize (ch node). induction l as [|c l IHl]; simpl; auto. rewrite filter_app, IHl. auto. }
      assert (HinC : forall k, In k (chosen (fst s1) node) -> exists c, In c (ch node) /\ In k (chosen (fst s1) c)).
      { intros k Hk. rewrite Hch in Hk. now apply in_flat_map in Hk. }
      split; [|split; [|split; [exact Hn1|split]]].
      + intros k Hk. apply Ho1. intros c Hc Hk'. apply Hk. eapply (rsub_child ch rk M ch_up ch_bound); eauto.
      + intros k Hk Hun j Hj. destruct (Nat.eq_dec k node) as [->|Hne]; [congruence|].
        destruct (strictly_below _ _ Hk Hne) as (c & Hc & Hkc). apply (proj1 (Hg1 c Hc) k); auto.
      + constructor.
        * intros x y Hs Ht Hst. destruct (HinC x Hs) as (c & Hc & Hsc). destruct (HinC y Ht) as (c' & Hc' & Htc).
          assert (Htc2 : In y (sb c)).
          { apply filter_In in Hsc as [Hsc _]. eapply (rsub_trans ch rk M ch_up ch_bound); eauto. }
          assert (c = c') as <-. { apply (Hsibs c c' y); auto. apply filter_In in Htc. tauto. }
          eapply (g_anti _ _ (proj2 (Hg1 c Hc))); eauto.
        * intros l Hl Hleaf Hw. destruct (Nat.eq_dec l node) as [->|Hne].
          -- exfalso. rewrite (Hz Hleaf) in Edec. unfold cur in Edec. rewrite (Hw _ _ Esc Eb) in Edec. discriminate.
          -- destruct (strictly_below _ _ Hl Hne) as (c & Hc & Hlc).
             destruct (g_cover _ _ (proj2 (Hg1 c Hc)) l Hlc Hleaf Hw) as (k & Hk & Hlk). exists k. split; auto.
             rewrite Hch. apply in_flat_map. eauto.
        * intros HE Y HNY HY HaY. assert (Ev : value (chosen (fst s1) node) = total).
          { rewrite Hch, value_flat. auto. }
          rewrite Ev. destruct (in_dec Nat.eq_dec node Y) as [HnY|HnY]; [|now apply Hparts].
          rewrite (only_node Y node) by (auto; intros y Hy; symmetry; apply HaY; auto).
          rewrite (Hcur HE), (Htot HE) in Edec. pose proof HE as (_ & _ & Hlt & _). rewrite Hlt in Edec.
          rewrite value_one. apply slt_true in Edec. destruct (sle_total Sc (sc node) total); congruence.
        * intros HE k x Hk Hx Hne. destruct (Nat.eq_dec k node) as [->|Hkn].
          -- rewrite (Hcur HE), (Htot HE) in Edec. pose proof HE as (_ & _ & Hlt & _). rewrite Hlt in Edec. rewrite Hch, value_flat. exact Edec.
          -- destruct (strictly_below _ _ Hk Hkn) as (c & Hc & Hkc). eapply (g_tie _ _ (proj2 (Hg1 c Hc))); eauto.
      + intro HE. rewrite (Htot HE). f_equal. rewrite Hch, value_flat. auto.
    - (* the node is selected *)
      unfold SELECT. clear KEEP SELECT. set (s1' := (dict_set (fst s1) node true, snd s1) : flags).
      assert (HKn : map fst (fst s1') = K) by (unfold s1'; cbn [fst]; rewrite dict_set_keys; auto; rewrite HK1a; auto).
      destruct (unselect_b_ok f node s1') as (s2 & E2 & HK2a & HK2b & Hs2 & Hs3); auto; try lia.
      { intros x Hx. right. now apply Hin. }
      { intros c Hc. apply (closed_ext s1).
        - intros k Hk. unfold s1'. cbn [fst snd]. rewrite selb_set. destruct (Nat.eqb_spec k node) as [->|]; auto. exfalso. now apply (Hnode c).
        - apply Hg1; auto. }
      rewrite E2. cbn [bind].
      exists cur, s2. split; auto. split; auto. split; auto.
      assert (Hsel : forall k, selb (fst s2) k = if memb (sb node) k then (k =? node) else selb (fst s) k).
      { intro k. rewrite Hs2. unfold s1'. cbn [fst]. rewrite selb_set. destruct (memb (sb node) k) eqn:Em; cbn [andb].
        - destruct (Nat.eqb_spec k node); auto.
        - apply memb_false in Em. destruct (Nat.eqb_spec k node) as [->|]; [contradiction|].
          apply Ho1. intros c Hc Hk. apply Em. eapply (rsub_child ch rk M ch_up ch_bound); eauto. }
      assert (Hun : forall k, selb (snd s2) k = if memb (sb node) k then negb (k =? node) else selb (snd s) k).
      { intro k. rewrite Hs3. unfold s1'. cbn [snd]. destruct (memb (sb node) k) eqn:Em; cbn [andb].
        - destruct (Nat.eqb_spec k node) as [->|]; cbn [negb]; auto. destruct (Ho1 node Hnode) as [_ ->]. now apply Hoff.
        - apply memb_false in Em. apply Ho1. intros c Hc Hk. apply Em. eapply (rsub_child ch rk M ch_up ch_bound); eauto. }
      assert (Hch : chosen (fst s2) node = [node]).
      { unfold chosen. rewrite (rsub_eq ch rk M ch_up ch_bound). cbn [filter].
        rewrite Hsel, (proj2 (memb_true _ _) Hself), Nat.eqb_refl. f_equal.
        assert (E : forall l, (forall x, In x l -> selb (fst s2) x = false) -> filter (selb (fst s2)) l = []).
        { induction l as [|x l IHl]; intro H; simpl; auto. rewrite H by (simpl; auto). apply IHl. intros; apply H; simpl; auto. }
        apply E. intros x Hx. apply in_flat_map in Hx as (c & Hc & Hx). rewrite Hsel.
        rewrite (proj2 (memb_true _ _)) by (eapply (rsub_child ch rk M ch_up ch_bound); eauto).
        apply Nat.eqb_neq. intros ->. eapply Hnode; eauto. }
      split; [|split; [|split; [|split]]].
      + intros k Hk. rewrite Hsel, Hun. now rewrite (proj2 (memb_false _ _) Hk).
      + intros k Hk Huk j Hj. rewrite Hun, (proj2 (memb_true _ _) Hk) in Huk. apply negb_true_iff, Nat.eqb_neq in Huk.
        assert (Hjn : In j (sb node)) by (eapply (rsub_trans ch rk M ch_up ch_bound); eauto).
        rewrite Hsel, Hun, (proj2 (memb_true _ _) Hjn).
        assert (j <> node).
        { intros ->. apply Huk. eapply (rsub_antisym ch rk M ch_up ch_bound); eauto. }
        rewrite (proj2 (Nat.eqb_neq _ _) H). auto.
      + rewrite Hun, (proj2 (memb_true _ _) Hself), Nat.eqb_refl. auto.
      + constructor; try rewrite Hch.
        * intros x y [<-|[]] [<-|[]] _. auto.
        * intros l Hl _ _. exists node. simpl; auto.
        * intros HE Y HNY HY HaY.
          assert (Hle : sle total (sc node) = true).
          { pose proof HE as (_ & _ & Hlt & _). rewrite (Hcur HE), (Htot HE), Hlt in Edec. now apply slt_false. }
          rewrite value_one.
          destruct (in_dec Nat.eq_dec node Y) as [HnY|HnY].
          -- rewrite (only_node Y node) by (auto; intros y Hy; symmetry; apply HaY; auto). rewrite value_one. apply sle_refl.
          -- apply (sle_trans Sc _ total); auto.
        * intros HE k x Hk Hx Hne. exfalso. apply filter_In in Hx as [Hx Hs].
          assert (Hxn : In x (sb node)) by (eapply (rsub_trans ch rk M ch_up ch_bound); eauto).
          rewrite Hsel, (proj2 (memb_true _ _) Hxn) in Hs. apply Nat.eqb_eq in Hs. subst x.
          apply Hne. eapply (rsub_antisym ch rk M ch_up ch_bound); eauto.
      + intro HE. rewrite (Hcur HE), Hch, value_one. auto.
  Qed.

  (** ** Several roots at once: the node itself is not considered *)
  Record good_below (sel : list (nat * bool)) (v : nat) : Prop := {
    b_off : selb sel v = false;
    b_anti : rantichain ch rk M (chosen sel v);
    b_cover : forall l, In l (sb v) -> l <> v -> ch l = [] -> worth l -> exists k, In k (chosen sel v) /\ In l (sb k);
    b_opt : exact_b -> forall Y, NoDup Y -> incl Y (sb v) -> ~ In v Y -> rantichain ch rk M Y ->
      sle (value Y) (value (chosen sel v)) = true;
    b_tie : exact_b -> forall k x, In k (sb v) -> k <> v -> In x (chosen sel k) -> x <> k ->
      slt (sc k) (value (chosen sel k)) = true
  }.

  Lemma good_children sel node : selb sel node = false -> (forall c, In c (ch node) -> good sel c) -> good_below sel node.
  Proof.
    intros Hn0 Hg.
    assert (Hsibs : forall c c' x, In c (ch node) -> In c' (ch node) -> In x (sb c) -> In x (sb c') -> c = c').
    { intros. eapply (rsub_siblings ch rk M ch_up ch_bound ch_one node); eauto. }
    assert (Hch : chosen sel node = flat_map (chosen sel) (ch node)).
    { unfold chosen at 1. rewrite (rsub_eq ch rk M ch_up ch_bound). cbn [filter]. rewrite Hn0.
      generalize (ch node). induction l as [|c l IHl]; simpl; auto. rewrite filter_app, IHl. auto. }
    assert (HinC : forall k, In k (chosen sel node) -> exists c, In c (ch node) /\ In k (chosen sel c)).
    { intros k Hk. rewrite Hch in Hk. now apply in_flat_map in Hk. }
    constructor; auto.
    - intros s t Hs Ht Hst. destruct (HinC s Hs) as (c & Hc & Hsc). destruct (HinC t Ht) as (c' & Hc' & Htc).
      assert (Htc2 : In t (sb c)).
      { apply filter_In in Hsc as [Hsc _]. eapply (rsub_trans ch rk M ch_up ch_bound); eauto. }
      assert (c = c') as <-. { apply (Hsibs c c' t); auto. apply filter_In in Htc. tauto. }
      eapply (g_anti _ _ (Hg c Hc)); eauto.
    - intros l Hl Hne Hleaf Hw. destruct (strictly_below _ _ Hl Hne) as (c & Hc & Hlc).
      destruct (g_cover _ _ (Hg c Hc) l Hlc Hleaf Hw) as (k & Hk & Hlk). exists k. split; auto.
      rewrite Hch. apply in_flat_map. eauto.
    - intros HE Y HNY HY HnY HaY.
      assert (HYc : forall y, In y Y -> exists c, In c (ch node) /\ In y (sb c)).
      { intros y Hy. apply strictly_below; auto. intros ->. contradiction. }
      rewrite (value_perm _ _ (split_parts sb (ch node) Y (ch_nodup node) Hsibs HYc)).
      rewrite Hch, !value_flat. apply (ssum_mono Sc). intros c Hc.
      apply (g_opt _ _ (Hg c Hc)); auto.
      + now apply NoDup_filter.
      + intros x Hx. apply filter_In in Hx as [_ Hx]. now apply memb_true.
      + intros x y Hx Hy. apply filter_In in Hx, Hy. apply HaY; tauto.
    - intros HE k x Hk Hne Hx Hxk. destruct (strictly_below _ _ Hk Hne) as (c & Hc & Hkc).
      eapply (g_tie _ _ (Hg c Hc)); eauto.
  Qed.

  Lemma eom_children_b_ok node fuel : M - rk node <= fuel -> rk node < M -> incl (sb node) K ->
    forall cs (s : flags), incl cs (ch node) -> NoDup cs -> map fst (fst s) = K -> map fst (snd s) = K ->
       (forall c k, In c cs -> In k (sb c) -> selb (fst s) k = false /\ selb (snd s) k = false) ->
       exists s' : flags, eom_children_bcubed A B ct stab bc fuel cs s = Ok s' /\ map fst (fst s') = K /\
         (forall k, (forall c, In c cs -> ~ In k (sb c)) -> selb (fst s') k = selb (fst s) k) /\
         (forall c, In c cs -> good (fst s') c).
  Proof.
    intros Hf HM Hin. unfold eom_children_bcubed. induction cs as [|c cs IHc]; intros s Hcs HN HK1 HK2 Hoff; cbn [fold_res].
    - exists s. split; auto. split; auto. split; auto. intros c [].
    - inversion_clear HN as [|? ? Hnc HN']. assert (Hc : In c (ch node)) by (apply Hcs; simpl; auto).
      pose proof (ch_up _ _ Hc). pose proof (ch_bound _ _ Hc).
      assert (Hincl := rsub_child ch rk M ch_up ch_bound _ _ Hc).
      destruct (eom_b_ok fuel c s) as (v & s1 & E1 & HK1a & HK1b & Ho1 & _ & _ & Hg1 & _); auto; try lia.
      { intros x Hx. now apply Hin, Hincl. }
      { intros k Hk. apply (Hoff c); simpl; auto. }
      rewrite E1. cbn [bind].
      assert (Hdisj : forall c' k, In c' cs -> In k (sb c') -> ~ In k (sb c)).
      { intros c' k Hc' Hk Hk'. assert (c = c'); [|congruence].
        eapply (rsub_siblings ch rk M ch_up ch_bound ch_one node); eauto. apply Hcs. simpl; auto. }
      destruct (IHc s1) as (s2 & E2 & HK2a & Ho2 & Hg2); auto.
      { intros x Hx. apply Hcs. simpl; auto. }
      { intros c' k Hc' Hk. destruct (Ho1 k) as [-> ->]; [eauto|apply (Hoff c'); simpl; auto]. }
      rewrite E2.
      assert (Hsame : forall k, In k (sb c) -> selb (fst s1) k = selb (fst s2) k).
      { intros k Hk. symmetry. apply Ho2. intros c' Hc' Hk'. exact (Hdisj c' k Hc' Hk' Hk). }
      exists s2. split; auto. split; auto. split.
      + intros k Hk. rewrite Ho2 by (intros; apply Hk; simpl; auto). apply Ho1. apply Hk; simpl; auto.
      + intros c' [<-|Hc']; auto. now apply (good_ext (fst s1)).
  Qed.
End Rec.
