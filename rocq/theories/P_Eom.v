(** The excess of mass recursion. *)
From Coq Require Import List Arith Lia Bool Permutation.
From Verif Require Import Prelude Order Size Forest M_Linkage M_Condense M_Select.
Import ListNotations.

(** ** Dictionaries *)
Lemma dict_get_set {A} (d : list (nat * A)) k v k' :
  dict_get (dict_set d k v) k' = if k' =? k then Ok v else dict_get d k'.
Proof.
  induction d as [|[a x] d IH]; simpl.
  - destruct (Nat.eqb_spec k' k); auto.
  - destruct (Nat.eqb_spec k a) as [->|Hka]; simpl.
    + destruct (Nat.eqb_spec k' a); auto.
    + destruct (Nat.eqb_spec k' a) as [->|Hk'a]; auto.
      destruct (Nat.eqb_spec a k); [congruence|auto].
Qed.

Lemma dict_set_keys {A} (d : list (nat * A)) k v : In k (map fst d) -> map fst (dict_set d k v) = map fst d.
Proof.
  induction d as [|[a x] d IH]; simpl; [tauto|]. intros H.
  destruct (Nat.eqb_spec k a) as [->|Hka]; simpl; auto. f_equal. apply IH. destruct H; [congruence|auto].
Qed.

Lemma dict_set_new {A} (d : list (nat * A)) k v : ~ In k (map fst d) -> dict_set d k v = d ++ [(k, v)].
Proof.
  induction d as [|[a x] d IH]; simpl; auto. intros H.
  destruct (Nat.eqb_spec k a) as [->|Hka]; [exfalso; auto|]. f_equal. apply IH. auto.
Qed.

Lemma dict_get_in {A} (d : list (nat * A)) k : In k (map fst d) -> exists v, dict_get d k = Ok v.
Proof.
  induction d as [|[a x] d IH]; simpl; [tauto|]. intros H.
  destruct (Nat.eqb_spec k a); eauto. apply IH. destruct H; [congruence|auto].
Qed.

Lemma dict_get_none {A} (d : list (nat * A)) k : ~ In k (map fst d) -> dict_get d k = Err KeyError.
Proof.
  induction d as [|[a x] d IH]; simpl; auto. intros H.
  destruct (Nat.eqb_spec k a); [exfalso; auto|]. auto.
Qed.

Lemma dict_get_unique {A} (d : list (nat * A)) k v : NoDup (map fst d) -> In (k, v) d -> dict_get d k = Ok v.
Proof.
  induction d as [|[a x] d IH]; simpl; [tauto|]. intros HN [E|H]; inversion_clear HN as [|? ? Hn HN'].
  - injection E as -> ->. now rewrite Nat.eqb_refl.
  - destruct (Nat.eqb_spec k a) as [->|Hka]; auto.
    exfalso. apply Hn. change a with (fst (a, v)). now apply in_map.
Qed.

Lemma dict_get_found {A} (d : list (nat * A)) k v : dict_get d k = Ok v -> In (k, v) d.
Proof.
  induction d as [|[a x] d IH]; simpl; [discriminate|].
  destruct (Nat.eqb_spec k a) as [->|Hka]; auto. intro E. injection E as ->. auto.
Qed.

(** Selected flag. *)
Definition selb (sel : list (nat * bool)) (k : nat) : bool :=
  match dict_get sel k with Ok b => b | Err _ => false end.

Lemma selb_set sel k b k' : selb (dict_set sel k b) k' = if k' =? k then b else selb sel k'.
Proof. unfold selb. rewrite dict_get_set. destruct (k' =? k); auto. Qed.

Lemma selb_result sel k : NoDup (map fst sel) -> (In k (map fst (filter snd sel)) <-> selb sel k = true).
Proof.
  intro HN. unfold selb. split.
  - intro H. apply in_map_iff in H as ([a b] & E & H). apply filter_In in H as [H Hb]. simpl in *. subst.
    now rewrite (dict_get_unique _ _ _ HN H).
  - intro H. destruct (dict_get sel k) as [b|] eqn:E; [|discriminate]. subst b. apply dict_get_found in E.
    apply in_map_iff. exists (k, true). split; auto. apply filter_In. auto.
Qed.

(** ** Splitting a set over disjoint parts *)
Definition memb (l : list nat) (x : nat) : bool := if in_dec Nat.eq_dec x l then true else false.
Lemma memb_true l x : memb l x = true <-> In x l.
Proof. unfold memb. destruct (in_dec _ _ _); split; auto; discriminate. Qed.
Lemma memb_false l x : memb l x = false <-> ~ In x l.
Proof. unfold memb. destruct (in_dec _ _ _); split; auto; try discriminate; tauto. Qed.

Lemma filter_split {A} (p : A -> bool) l : Permutation l (filter p l ++ filter (fun x => negb (p x)) l).
Proof.
  induction l as [|x l IH]; simpl; auto. destruct (p x); simpl.
  - now apply perm_skip.
  - rewrite <- Permutation_middle. now apply perm_skip.
Qed.

Lemma split_parts (f : nat -> list nat) cs : forall Y, NoDup cs ->
  (forall c c' x, In c cs -> In c' cs -> In x (f c) -> In x (f c') -> c = c') ->
  (forall y, In y Y -> exists c, In c cs /\ In y (f c)) ->
  Permutation Y (flat_map (fun c => filter (memb (f c)) Y) cs).
Proof.
  induction cs as [|c cs IH]; intros Y HN Hd HY; simpl.
  - destruct Y as [|y Y]; auto. destruct (HY y (or_introl eq_refl)) as (c & [] & _).
  - inversion_clear HN as [|? ? Hc HN'].
    rewrite (filter_split (memb (f c)) Y) at 1. apply Permutation_app_head.
    rewrite (IH (filter (fun x => negb (memb (f c) x)) Y)); auto.
    + apply Permutation_refl'. clear IH. 
      assert (E : forall c', In c' cs -> filter (memb (f c')) (filter (fun x => negb (memb (f c) x)) Y) = filter (memb (f c')) Y).
      { intros c' Hc'. clear HY. induction Y as [|y Y IHY]; simpl; auto.
        destruct (memb (f c) y) eqn:E1; simpl.
        - destruct (memb (f c') y) eqn:E2; auto. apply memb_true in E1, E2.
          assert (c = c') by (eapply Hd; simpl; eauto). congruence.
        - destruct (memb (f c') y); rewrite IHY; auto. }
      apply flat_map_ext_in'. intros; now rewrite E.
    + intros; eapply Hd; simpl; eauto.
    + intros y Hy. apply filter_In in Hy as [Hy Hn]. destruct (HY y Hy) as (c' & [<-|Hc'] & Hin).
      * apply memb_true in Hin. rewrite Hin in Hn. discriminate.
      * eauto.
Qed.

Section Eom.
  Context {V : Type} {Sz : SOrd} (A : Arith V Sz).
  Variables (ct : list (crow V Sz)) (M : nat).
  Notation ch := (children_of ct).
  Hypothesis ch_up : forall v w, In w (ch v) -> v < w.
  Hypothesis ch_bound : forall v w, In w (ch v) -> w < M.
  Hypothesis ch_one : forall v v' w, In w (ch v) -> In w (ch v') -> v = v'.
  Hypothesis ch_nodup : forall v, NoDup (ch v).
  Notation sb := (sub ch M).

  Variable scores : list (nat * num A).
  Variable sizes : list (nat * Sz).
  Variable mx : option Sz.
  Variable K : list nat.           (* the keys of the dictionary of flags *)
  Hypothesis KN : NoDup K.

  (** ** unselect_below_node *)
  Lemma unselect_ok : forall fuel node sel, M - node <= fuel -> node < M -> map fst sel = K ->
    incl (sb node) (node :: K) ->
    exists sel', unselect_below_node ct fuel node sel = Ok sel' /\ map fst sel' = K /\
      (forall k, selb sel' k = if memb (sb node) k && negb (k =? node) then false else selb sel k).
  Proof.
    induction fuel as [|f IH]; intros node sel Hf HM HK Hin; [lia|]. cbn [unselect_below_node].
    assert (Hloop : forall cs sel, incl cs (ch node) -> map fst sel = K ->
      exists sel', fold_res (fun child selected =>
         let* selected0 := unselect_below_node ct f child selected in Ok (dict_set selected0 child false)) cs sel = Ok sel' /\
        map fst sel' = K /\
        (forall k, selb sel' k = if existsb (fun c => memb (sb c) k) cs then false else selb sel k)).
    { clear sel HK. induction cs as [|c cs IHc]; intros sel Hcs HK; cbn [fold_res].
      - exists sel. split; auto.
      - assert (Hc : In c (ch node)) by (apply Hcs; simpl; auto).
        pose proof (ch_up _ _ Hc). pose proof (ch_bound _ _ Hc).
        assert (Hsub : incl (sb c) K).
        { intros x Hx. pose proof (sub_child ch M ch_up ch_bound _ _ Hc x Hx) as Hx'.
          destruct (Hin x Hx') as [<-|]; auto. apply (sub_ge ch M ch_up ch_bound) in Hx. lia. }
        destruct (IH c sel ltac:(lia) ltac:(lia) HK) as (s1 & -> & HK1 & Hs1).
        { intros x Hx. right. now apply Hsub. }
        cbn [bind]. destruct (IHc (dict_set s1 c false)) as (s2 & -> & HK2 & Hs2).
        { intros x Hx. apply Hcs. simpl; auto. }
        { rewrite dict_set_keys; auto. rewrite HK1. apply Hsub. apply (sub_self ch M ch_up ch_bound). }
        exists s2. split; auto. split; auto. intro k. rewrite Hs2, selb_set, Hs1. cbn [existsb].
        destruct (existsb (fun c0 => memb (sb c0) k) cs); [now rewrite orb_true_r|].
        rewrite orb_false_r. destruct (Nat.eqb_spec k c) as [->|Hkc].
        + rewrite (proj2 (memb_true _ _)); auto. apply (sub_self ch M ch_up ch_bound).
        + cbn [negb]. now rewrite andb_true_r. }
    destruct (Hloop (ch node) sel (incl_refl _) HK) as (sel' & E & HK' & Hs).
    exists sel'. split; auto. split; auto. intro k. rewrite Hs.
    assert (Eb : existsb (fun c => memb (sb c) k) (ch node) = memb (sb node) k && negb (k =? node)).
    { apply eq_iff_eq_true. rewrite existsb_exists, andb_true_iff, memb_true, negb_true_iff, Nat.eqb_neq. split.
      - intros (c & Hc & Hk). apply memb_true in Hk. split.
        + eapply (sub_child ch M ch_up ch_bound); eauto.
        + apply (sub_ge ch M ch_up ch_bound) in Hk. pose proof (ch_up _ _ Hc). lia.
      - intros [Hk Hne]. apply (sub_inv ch M ch_up ch_bound) in Hk as [->|(c & Hc & Hk)]; [congruence|].
        exists c. split; auto. now apply memb_true. }
    now rewrite Eb.
  Qed.

  (** ** What the recursion achieves *)
  Definition chosen (sel : list (nat * bool)) (v : nat) : list nat := filter (selb sel) (sb v).

  Definition fits (v : nat) : Prop := forall s, dict_get sizes v = Ok s -> over_max mx s = false.

  Hypothesis lt_irrefl0 : num_lt A (num_zero A) (num_zero A) = false.
  Hypothesis HKs : forall k, In k K -> exists s, dict_get scores k = Ok s.

  (** Exact arithmetic: an embedding of an ordered monoid. *)
  Variable Sc : SOrd.
  Variable emb : Sc -> num A.
  Variable sc : nat -> Sc.
  Definition exact : Prop :=
    emb szero = num_zero A /\
    (forall a b, num_add A (emb a) (emb b) = emb (sadd a b)) /\
    (forall a b, num_lt A (emb a) (emb b) = slt a b) /\
    (forall k, In k K -> dict_get scores k = Ok (emb (sc k))).

  Definition clip (k : nat) : Sc := if slt (sc k) szero then szero else sc k.
  Definition value (Y : list nat) : Sc := ssum (map clip Y).

  Record good (sel : list (nat * bool)) (v : nat) : Prop := {
    g_anti : antichain ch M (chosen sel v);
    g_fits : forall k, In k (chosen sel v) -> fits k;
    g_cover : forall l, In l (sb v) -> ch l = [] -> fits l -> exists k, In k (chosen sel v) /\ In l (sb k);
    g_opt : exact -> forall Y, NoDup Y -> incl Y (sb v) -> antichain ch M Y -> (forall k, In k Y -> fits k) ->
      sle (value Y) (value (chosen sel v)) = true;
    g_tie : exact -> forall k x, In k (sb v) -> fits k -> In x (chosen sel k) -> x <> k ->
      slt (clip k) (value (chosen sel k)) = true
  }.

  Lemma chosen_ext sel sel' v : (forall k, In k (sb v) -> selb sel k = selb sel' k) -> chosen sel v = chosen sel' v.
  Proof. intro H. apply filter_ext_in. auto. Qed.

  Lemma good_ext sel sel' v : (forall k, In k (sb v) -> selb sel k = selb sel' k) -> good sel v -> good sel' v.
  Proof.
    intros H []. rewrite (chosen_ext _ _ _ H) in *. constructor; auto.
    intros HE k x Hk. rewrite <- (chosen_ext sel sel' k); eauto.
    intros y Hy. apply H. eapply (sub_trans ch M ch_up ch_bound); eauto.
  Qed.

  Lemma value_perm X Y : Permutation X Y -> value X = value Y.
  Proof. intro H. apply ssum_perm. now apply Permutation_map. Qed.
  Lemma value_app X Y : value (X ++ Y) = sadd (value X) (value Y).
  Proof. unfold value. now rewrite map_app, ssum_app. Qed.
  Lemma value_flat (f : nat -> list nat) cs : value (flat_map f cs) = ssum (map (fun c => value (f c)) cs).
  Proof. induction cs as [|c cs IH]; simpl; auto. now rewrite value_app, IH. Qed.
  Lemma sadd_mono2 (a b c d : Sc) : sle a b = true -> sle c d = true -> sle (sadd a c) (sadd b d) = true.
  Proof.
    intros H1 H2. apply (sle_trans Sc _ (sadd b c)).
    - now apply sadd_mono.
    - rewrite (sadd_comm Sc b c), (sadd_comm Sc b d). now apply sadd_mono.
  Qed.
  Lemma ssum_mono (f g : nat -> Sc) cs : (forall c, In c cs -> sle (f c) (g c) = true) ->
    sle (ssum (map f cs)) (ssum (map g cs)) = true.
  Proof.
    induction cs as [|c cs IH]; intro H; simpl; [apply sle_refl|].
    apply sadd_mono2; [apply H; simpl; auto|apply IH; intros; apply H; simpl; auto].
  Qed.

  Lemma eom_ok : forall fuel node sel, M - node < fuel -> node < M -> map fst sel = K -> incl (sb node) K ->
    (forall k, In k (sb node) -> exists s, dict_get sizes k = Ok s) ->
    (forall k, In k (sb node) -> selb sel k = false) ->
    exists v sel', eom_recursion A ct scores sizes mx fuel node sel = Ok (v, sel') /\ map fst sel' = K /\
      (forall k, ~ In k (sb node) -> selb sel' k = selb sel k) /\ good sel' node /\
      (exact -> v = emb (value (chosen sel' node))).
  Proof.
    induction fuel as [|f IH]; intros node sel Hf HM HK Hin Hsz Hoff; [lia|]. cbn [eom_recursion].
    destruct (HKs node) as (score & Esc). { apply Hin, (sub_self ch M ch_up ch_bound). }
    destruct (Hsz node) as (size & Esz). { apply (sub_self ch M ch_up ch_bound). }
    rewrite Esc, Esz. cbn [bind].
    set (cur := if num_lt A score (num_zero A) then num_zero A else score).
    set (body := fun (child : nat) (ts : num A * list (nat * bool)) =>
        let* (v, selected) := eom_recursion A ct scores sizes mx f child (snd ts) in
        Ok (num_add A (fst ts) v, selected)).
    assert (Hloop : forall cs tot sel, incl cs (ch node) -> NoDup cs -> map fst sel = K ->
       (forall c k, In c cs -> In k (sb c) -> selb sel k = false) ->
       exists tot' sel', fold_res body cs (tot, sel) = Ok (tot', sel') /\ map fst sel' = K /\
         (forall k, (forall c, In c cs -> ~ In k (sb c)) -> selb sel' k = selb sel k) /\
         (forall c, In c cs -> good sel' c) /\
         (cs = [] -> tot' = tot) /\
         (exact -> forall t, tot = emb t -> tot' = emb (sadd t (ssum (map (fun c => value (chosen sel' c)) cs))))).
    { clear sel HK Hoff. induction cs as [|c cs IHc]; intros tot sel Hcs HN HK Hoff; cbn [fold_res].
      - exists tot, sel. split; auto. split; auto. split; auto. split; [intros c []|]. split; auto.
        intros _ t ->. simpl. now rewrite sadd_0_r.
      - inversion_clear HN as [|? ? Hnc HN']. assert (Hc : In c (ch node)) by (apply Hcs; simpl; auto).
        pose proof (ch_up _ _ Hc). pose proof (ch_bound _ _ Hc).
        assert (Hincl := sub_child ch M ch_up ch_bound _ _ Hc).
        destruct (IH c sel) as (v & s1 & E1 & HK1 & Ho1 & Hg1 & Hx1); auto; try lia.
        { intros x Hx. now apply Hin, Hincl. }
        { intros k Hk. apply (Hoff c); simpl; auto. }
        unfold body at 1. cbn [snd fst]. rewrite E1. cbn [bind].
        assert (Hdisj : forall c' k, In c' cs -> In k (sb c') -> ~ In k (sb c)).
        { intros c' k Hc' Hk Hk'. assert (c = c'); [|congruence].
          eapply (sub_siblings ch M ch_up ch_bound ch_one node); eauto. apply Hcs. simpl; auto. }
        destruct (IHc (num_add A tot v) s1) as (tot' & s2 & E2 & HK2 & Ho2 & Hg2 & _ & Hx2); auto.
        { intros x Hx. apply Hcs. simpl; auto. }
        { intros c' k Hc' Hk. rewrite Ho1; [apply (Hoff c'); simpl; auto|eauto]. }
        rewrite E2.
        assert (Hsame : forall k, In k (sb c) -> selb s1 k = selb s2 k).
        { intros k Hk. symmetry. apply Ho2. intros c' Hc' Hk'. exact (Hdisj c' k Hc' Hk' Hk). }
        exists tot', s2. split; auto. split; auto. split; [|split; [|split]].
        + intros k Hk. rewrite Ho2 by (intros; apply Hk; simpl; auto). apply Ho1. apply Hk; simpl; auto.
        + intros c' [<-|Hc']; auto. now apply (good_ext s1).
        + discriminate.
        + intros HE t ->. rewrite (Hx1 HE) in Hx2. pose proof HE as (_ & Hadd & _).
          rewrite Hadd in Hx2. rewrite (Hx2 HE _ eq_refl). f_equal. simpl.
          rewrite (chosen_ext _ _ _ Hsame). now rewrite sadd_assoc. }
    destruct (Hloop (ch node) (num_zero A) sel (incl_refl _) (ch_nodup node) HK) as (tot & s1 & E1 & HK1 & Ho1 & Hg1 & Hz & Hx1).
    { intros c k Hc Hk. apply Hoff. eapply (sub_child ch M ch_up ch_bound); eauto. }
    rewrite E1. cbn [bind]. clear Hloop IH.
    assert (Hself : In node (sb node)) by apply (sub_self ch M ch_up ch_bound).
    assert (Hnode : forall c, In c (ch node) -> ~ In node (sb c)).
    { intros c Hc H. apply (sub_ge ch M ch_up ch_bound) in H. pose proof (ch_up _ _ Hc). lia. }
    assert (Hsibs : forall c c' x, In c (ch node) -> In c' (ch node) -> In x (sb c) -> In x (sb c') -> c = c').
    { intros. eapply (sub_siblings ch M ch_up ch_bound ch_one node); eauto. }
    set (total := ssum (map (fun c => value (chosen s1 c)) (ch node))) in *.
    assert (Htot : exact -> tot = emb total).
    { intro HE. pose proof HE as (H0 & _). rewrite (Hx1 HE szero (eq_sym H0)). now rewrite sadd_0. }
    (* any antichain that avoids the node splits over the children *)
    assert (Hparts : exact -> forall Y, NoDup Y -> incl Y (sb node) -> antichain ch M Y -> (forall k, In k Y -> fits k) ->
              ~ In node Y -> sle (value Y) total = true).
    { intros HE Y HNY HY HaY HfY HnY.
      assert (HYc : forall y, In y Y -> exists c, In c (ch node) /\ In y (sb c)).
      { intros y Hy. destruct (sub_inv ch M ch_up ch_bound _ _ (HY y Hy)) as [->|H']; auto. contradiction. }
      rewrite (value_perm _ _ (split_parts sb (ch node) Y (ch_nodup node) Hsibs HYc)).
      rewrite value_flat. apply ssum_mono. intros c Hc.
      apply (g_opt _ _ (Hg1 c Hc)); auto.
      - now apply NoDup_filter.
      - intros x Hx. apply filter_In in Hx as [_ Hx]. now apply memb_true.
      - intros x y Hx Hy. apply filter_In in Hx, Hy. apply HaY; tauto.
      - intros k Hk. apply filter_In in Hk. apply HfY; tauto. }
    assert (Hcur : exact -> cur = emb (clip node)).
    { intro HE. pose proof HE as (H0 & _ & Hlt & Hsc). rewrite (Hsc node (Hin node Hself)) in Esc. injection Esc as <-.
      unfold cur, clip. rewrite <- H0, Hlt. destruct (slt (sc node) szero); auto. }
    destruct (num_lt A cur tot || over_max mx size) eqn:Edec.
    - (* the children are kept *)
      exists tot, s1. split; auto. split; auto.
      assert (Hn0 : selb s1 node = false). { rewrite Ho1; auto. }
      assert (Hch : chosen s1 node = flat_map (chosen s1) (ch node)).
      { unfold chosen at 1. rewrite (sub_eq ch M ch_up ch_bound). cbn [filter]. rewrite Hn0.
        generalize (ch node). induction l as [|c l IHl]; simpl; auto. rewrite filter_app, IHl. auto. }
      assert (HinC : forall k, In k (chosen s1 node) -> exists c, In c (ch node) /\ In k (chosen s1 c)).
      { intros k Hk. rewrite Hch in Hk. now apply in_flat_map in Hk. }
      split; [|split].
      + intros k Hk. apply Ho1. intros c Hc Hk'. apply Hk. eapply (sub_child ch M ch_up ch_bound); eauto.
      + constructor.
        * intros s t Hs Ht Hst. destruct (HinC s Hs) as (c & Hc & Hsc). destruct (HinC t Ht) as (c' & Hc' & Htc).
          assert (Htc2 : In t (sb c)).
          { apply filter_In in Hsc as [Hsc _]. eapply (sub_trans ch M ch_up ch_bound); eauto. }
          assert (c = c') as <-. { apply (Hsibs c c' t); auto. apply filter_In in Htc. tauto. }
          eapply (g_anti _ _ (Hg1 c Hc)); eauto.
        * intros k Hk. destruct (HinC k Hk) as (c & Hc & Hkc). eapply (g_fits _ _ (Hg1 c Hc)); eauto.
        * intros l Hl Hleaf Hfl. destruct (sub_inv ch M ch_up ch_bound _ _ Hl) as [->|(c & Hc & Hlc)].
          -- (* a leaf is never passed over *)
             exfalso. rewrite (Hz Hleaf), (Hfl size Esz), orb_false_r in Edec.
             unfold cur in Edec. destruct (num_lt A score (num_zero A)) eqn:E; congruence.
          -- destruct (g_cover _ _ (Hg1 c Hc) l Hlc Hleaf Hfl) as (k & Hk & Hlk). exists k. split; auto.
             rewrite Hch. apply in_flat_map. eauto.
        * intros HE Y HNY HY HaY HfY. assert (Ev : value (chosen s1 node) = total).
          { rewrite Hch, value_flat. auto. }
          rewrite Ev. destruct (in_dec Nat.eq_dec node Y) as [HnY|HnY]; [|now apply Hparts].
          assert (Y = [node]) as ->.
          { assert (Hall : forall y, In y Y -> y = node) by (intros y Hy; symmetry; apply HaY; auto).
            destruct Y as [|y1 [|y2 Y]]; [destruct HnY| |].
            - f_equal. apply Hall; simpl; auto.
            - exfalso. inversion_clear HNY as [|? ? Hn1 _]. apply Hn1. rewrite (Hall y1), (Hall y2) by (simpl; auto). simpl; auto. }
          apply orb_true_iff in Edec as [E|E].
          -- rewrite (Hcur HE), (Htot HE) in E. pose proof HE as (_ & _ & Hlt & _). rewrite Hlt in E.
             unfold value. simpl. rewrite sadd_0_r. apply slt_true in E.
             destruct (sle_total Sc (clip node) total); congruence.
          -- rewrite (HfY node HnY size Esz) in E. discriminate.
        * intros HE k x Hk Hfk Hx Hne. destruct (sub_inv ch M ch_up ch_bound _ _ Hk) as [->|(c & Hc & Hkc)].
          -- rewrite (Hfk size Esz), orb_false_r in Edec. rewrite (Hcur HE), (Htot HE) in Edec.
             pose proof HE as (_ & _ & Hlt & _). rewrite Hlt in Edec. rewrite Hch, value_flat. exact Edec.
          -- eapply (g_tie _ _ (Hg1 c Hc)); eauto.
      + intro HE. rewrite (Htot HE). f_equal. rewrite Hch, value_flat. auto.
    - (* the node is selected *)
      apply orb_false_iff in Edec as [Elt Emx].
      assert (HKn : map fst (dict_set s1 node true) = K) by (rewrite dict_set_keys; auto; rewrite HK1; auto).
      assert (exists s2, unselect_below_node ct f node (dict_set s1 node true) = Ok s2 /\ map fst s2 = K /\
         (forall k, selb s2 k = if memb (sb node) k && negb (k =? node) then false else selb (dict_set s1 node true) k))
        as (s2 & E2 & HK2 & Hs2).
      { apply unselect_ok; auto; try lia. intros x Hx. right. now apply Hin. }
      rewrite E2. cbn [bind].
      exists cur, s2. split; auto. split; auto.
      assert (Hsel : forall k, selb s2 k = if memb (sb node) k then (k =? node) else selb sel k).
      { intro k. rewrite Hs2, selb_set. destruct (memb (sb node) k) eqn:Em; cbn [andb].
        - destruct (Nat.eqb_spec k node); auto.
        - apply memb_false in Em. destruct (Nat.eqb_spec k node) as [->|]; [contradiction|].
          apply Ho1. intros c Hc Hk. apply Em. eapply (sub_child ch M ch_up ch_bound); eauto. }
      assert (Hch : chosen s2 node = [node]).
      { unfold chosen. rewrite (sub_eq ch M ch_up ch_bound). cbn [filter].
        rewrite Hsel, (proj2 (memb_true _ _) Hself), Nat.eqb_refl. f_equal.
        assert (E : forall l, (forall x, In x l -> selb s2 x = false) -> filter (selb s2) l = []).
        { induction l as [|x l IHl]; intro H; simpl; auto. rewrite H by (simpl; auto). apply IHl. intros; apply H; simpl; auto. }
        apply E. intros x Hx. apply in_flat_map in Hx as (c & Hc & Hx). rewrite Hsel.
        rewrite (proj2 (memb_true _ _)) by (eapply (sub_child ch M ch_up ch_bound); eauto).
        apply Nat.eqb_neq. intros ->. eapply Hnode; eauto. }
      split; [|split].
      + intros k Hk. rewrite Hsel. now rewrite (proj2 (memb_false _ _) Hk).
      + constructor; try rewrite Hch.
        * intros s t [<-|[]] [<-|[]] _. auto.
        * intros k [<-|[]] s' Hs'. rewrite Esz in Hs'. injection Hs' as <-. auto.
        * intros l Hl _ _. exists node. simpl; auto.
        * intros HE Y HNY HY HaY HfY.
          assert (Hle : sle total (clip node) = true).
          { pose proof HE as (_ & _ & Hlt & _). rewrite (Hcur HE), (Htot HE), Hlt in Elt. now apply slt_false. }
          unfold value at 2. simpl. rewrite sadd_0_r.
          destruct (in_dec Nat.eq_dec node Y) as [HnY|HnY].
          -- assert (Y = [node]) as ->.
             { assert (Hall : forall y, In y Y -> y = node) by (intros y Hy; symmetry; apply HaY; auto).
               destruct Y as [|y1 [|y2 Y]]; [destruct HnY| |].
               - f_equal. apply Hall; simpl; auto.
               - exfalso. inversion_clear HNY as [|? ? Hn1 _]. apply Hn1. rewrite (Hall y1), (Hall y2) by (simpl; auto). simpl; auto. }
             unfold value. simpl. rewrite sadd_0_r. apply sle_refl.
          -- apply (sle_trans Sc _ total); auto.
        * intros HE k x Hk _ Hx Hne. exfalso. apply filter_In in Hx as [Hx Hs].
          assert (Hxn : In x (sb node)) by (eapply (sub_trans ch M ch_up ch_bound); eauto).
          rewrite Hsel, (proj2 (memb_true _ _) Hxn) in Hs. apply Nat.eqb_eq in Hs. subst x.
          apply Hne. eapply (sub_antisym ch M ch_up ch_bound); eauto.
      + intro HE. rewrite (Hcur HE), Hch. unfold value. simpl. now rewrite sadd_0_r.
  Qed.

  (** ** Several roots at once: the node itself is not considered *)
  Record good_below (sel : list (nat * bool)) (v : nat) : Prop := {
    b_off : selb sel v = false;
    b_anti : antichain ch M (chosen sel v);
    b_fits : forall k, In k (chosen sel v) -> fits k;
    b_cover : forall l, In l (sb v) -> l <> v -> ch l = [] -> fits l -> exists k, In k (chosen sel v) /\ In l (sb k);
    b_opt : exact -> forall Y, NoDup Y -> incl Y (sb v) -> ~ In v Y -> antichain ch M Y -> (forall k, In k Y -> fits k) ->
      sle (value Y) (value (chosen sel v)) = true;
    b_tie : exact -> forall k x, In k (sb v) -> k <> v -> fits k -> In x (chosen sel k) -> x <> k ->
      slt (clip k) (value (chosen sel k)) = true
  }.

  Lemma good_children sel node : selb sel node = false -> (forall c, In c (ch node) -> good sel c) -> good_below sel node.
  Proof.
    intros Hn0 Hg.
    assert (Hsibs : forall c c' x, In c (ch node) -> In c' (ch node) -> In x (sb c) -> In x (sb c') -> c = c').
    { intros. eapply (sub_siblings ch M ch_up ch_bound ch_one node); eauto. }
    assert (Hch : chosen sel node = flat_map (chosen sel) (ch node)).
    { unfold chosen at 1. rewrite (sub_eq ch M ch_up ch_bound). cbn [filter]. rewrite Hn0.
      generalize (ch node). induction l as [|c l IHl]; simpl; auto. rewrite filter_app, IHl. auto. }
    assert (HinC : forall k, In k (chosen sel node) -> exists c, In c (ch node) /\ In k (chosen sel c)).
    { intros k Hk. rewrite Hch in Hk. now apply in_flat_map in Hk. }
    constructor; auto.
    - intros s t Hs Ht Hst. destruct (HinC s Hs) as (c & Hc & Hsc). destruct (HinC t Ht) as (c' & Hc' & Htc).
      assert (Htc2 : In t (sb c)).
      { apply filter_In in Hsc as [Hsc _]. eapply (sub_trans ch M ch_up ch_bound); eauto. }
      assert (c = c') as <-. { apply (Hsibs c c' t); auto. apply filter_In in Htc. tauto. }
      eapply (g_anti _ _ (Hg c Hc)); eauto.
    - intros k Hk. destruct (HinC k Hk) as (c & Hc & Hkc). eapply (g_fits _ _ (Hg c Hc)); eauto.
    - intros l Hl Hne Hleaf Hfl. destruct (sub_inv ch M ch_up ch_bound _ _ Hl) as [->|(c & Hc & Hlc)]; [congruence|].
      destruct (g_cover _ _ (Hg c Hc) l Hlc Hleaf Hfl) as (k & Hk & Hlk). exists k. split; auto.
      rewrite Hch. apply in_flat_map. eauto.
    - intros HE Y HNY HY HnY HaY HfY.
      assert (HYc : forall y, In y Y -> exists c, In c (ch node) /\ In y (sb c)).
      { intros y Hy. destruct (sub_inv ch M ch_up ch_bound _ _ (HY y Hy)) as [->|H']; auto. contradiction. }
      rewrite (value_perm _ _ (split_parts sb (ch node) Y (ch_nodup node) Hsibs HYc)).
      rewrite Hch, !value_flat. apply ssum_mono. intros c Hc.
      apply (g_opt _ _ (Hg c Hc)); auto.
      + now apply NoDup_filter.
      + intros x Hx. apply filter_In in Hx as [_ Hx]. now apply memb_true.
      + intros x y Hx Hy. apply filter_In in Hx, Hy. apply HaY; tauto.
      + intros k Hk. apply filter_In in Hk. apply HfY; tauto.
    - intros HE k x Hk Hne Hfk Hx Hxk. destruct (sub_inv ch M ch_up ch_bound _ _ Hk) as [->|(c & Hc & Hkc)]; [congruence|].
      eapply (g_tie _ _ (Hg c Hc)); eauto.
  Qed.

  Lemma eom_children_ok node fuel : M - node <= fuel -> node < M -> incl (sb node) K ->
    (forall k, In k (sb node) -> exists s, dict_get sizes k = Ok s) ->
    forall cs sel, incl cs (ch node) -> NoDup cs -> map fst sel = K ->
       (forall c k, In c cs -> In k (sb c) -> selb sel k = false) ->
       exists sel', eom_children A ct scores sizes mx fuel cs sel = Ok sel' /\ map fst sel' = K /\
         (forall k, (forall c, In c cs -> ~ In k (sb c)) -> selb sel' k = selb sel k) /\
         (forall c, In c cs -> good sel' c).
  Proof.
    intros Hf HM Hin Hsz. unfold eom_children. induction cs as [|c cs IHc]; intros sel Hcs HN HK Hoff; cbn [fold_res].
    - exists sel. split; auto. split; auto. split; auto. intros c [].
    - inversion_clear HN as [|? ? Hnc HN']. assert (Hc : In c (ch node)) by (apply Hcs; simpl; auto).
      pose proof (ch_up _ _ Hc). pose proof (ch_bound _ _ Hc).
      assert (Hincl := sub_child ch M ch_up ch_bound _ _ Hc).
      destruct (eom_ok fuel c sel) as (v & s1 & E1 & HK1 & Ho1 & Hg1 & _); auto; try lia.
      { intros x Hx. now apply Hin, Hincl. }
      { intros k Hk. apply (Hoff c); simpl; auto. }
      rewrite E1. cbn [bind].
      assert (Hdisj : forall c' k, In c' cs -> In k (sb c') -> ~ In k (sb c)).
      { intros c' k Hc' Hk Hk'. assert (c = c'); [|congruence].
        eapply (sub_siblings ch M ch_up ch_bound ch_one node); eauto. apply Hcs. simpl; auto. }
      destruct (IHc s1) as (s2 & E2 & HK2 & Ho2 & Hg2); auto.
      { intros x Hx. apply Hcs. simpl; auto. }
      { intros c' k Hc' Hk. rewrite Ho1; [apply (Hoff c'); simpl; auto|eauto]. }
      rewrite E2.
      assert (Hsame : forall k, In k (sb c) -> selb s1 k = selb s2 k).
      { intros k Hk. symmetry. apply Ho2. intros c' Hc' Hk'. exact (Hdisj c' k Hc' Hk' Hk). }
      exists s2. split; auto. split; auto. split.
      + intros k Hk. rewrite Ho2 by (intros; apply Hk; simpl; auto). apply Ho1. apply Hk; simpl; auto.
      + intros c' [<-|Hc']; auto. now apply (good_ext s1).
  Qed.
End Eom.
