(** The barcode of minimum cluster sizes. *)
From Coq Require Import List Arith Lia Bool ZArith QArith Sorted.
From Verif Require Import Prelude Order Size Forest M_Linkage S_Linkage M_Condense S_Condense M_Select S_Select P_CTree P_SelectTop M_Labels M_Layers S_Layers.
Import ListNotations.
Local Open Scope nat_scope.

Section Barcode.
  Context {V : WOrd} {D : Type}.
  Variables (n : nat) (wt : nat -> NatSize) (mcs : NatSize) (T : list (crow V NatSize)).
  Hypothesis HT : condensed (Sz := NatSize) n wt mcs T.
  Hypothesis HS : splits_once n T.
  Variables (death_of : V -> D) (zero : D) (min_size : nat).
  Notation CT := (cluster_rows n T).

  Lemma ct_nth i r : nth_error CT i = Some r -> c_child r = n + 1 + i.
  Proof.
    intro E. assert (H : nth_error (map c_child CT) i = Some (c_child r)) by now apply map_nth_error.
    rewrite (ids n wt mcs T HT) in H. pose proof (nth_error_Some CT i) as Hl. rewrite E in Hl. assert (i < length CT) by (apply Hl; discriminate).
    rewrite (nth_error_nth' _ 0) in H by (rewrite seq_length; auto). rewrite seq_nth in H by auto. congruence.
  Qed.

  Definition pair j r q : Prop := nth_error CT (2 * j) = Some r /\ nth_error CT (2 * j + 1) = Some q.

  Lemma pair_facts j r q : pair j r q ->
    c_child r = n + 1 + 2 * j /\ c_child q = n + 2 + 2 * j /\ c_parent r = c_parent q /\ c_lam r = c_lam q /\ n <= c_parent q < n + 1 + 2 * j /\ In r CT /\ In q CT.
  Proof.
    intros [E1 E2]. pose proof (ct_nth _ _ E1). pose proof (ct_nth _ _ E2). destruct (ct_pairs _ _ _ _ HT j r q E1 E2) as [Hp Hl].
    pose proof (parent_lt_child n wt mcs T HT r (nth_error_In _ _ E1)). split; [lia|]. split; [lia|]. split; auto. split; auto. split; [lia|]. split; eapply nth_error_In; eauto.
  Qed.

  Lemma pair_inj i j r q r' q' : pair i r q -> pair j r' q' -> c_parent q = c_parent q' -> i = j.
  Proof.
    intros H1 H2 E. destruct (pair_facts _ _ _ H1) as (_ & _ & P1 & _). destruct (pair_facts _ _ _ H2) as (_ & _ & P2 & _).
    destruct H1 as [E1 _], H2 as [E2 _]. apply (HS i j r r' E1 E2). congruence.
  Qed.

  Lemma pair_fun j r q r' q' : pair j r q -> pair j r' q' -> r = r' /\ q = q'.
  Proof. intros [E1 E2] [E3 E4]. split; congruence. Qed.

  Lemma row_pair r : In r CT -> exists j r1 q1, pair j r1 q1 /\ (r = r1 \/ r = q1).
  Proof.
    intro H. apply In_nth_error in H as (i & E). destruct (even_length n wt mcs T HT) as (s & Hs).
    assert (Hi : i < length CT) by (apply nth_error_Some; congruence).
    destruct (nth_error CT (2 * (i / 2))) as [r1|] eqn:E1; [|apply nth_error_None in E1; pose proof (Nat.mul_div_le i 2); lia].
    pose proof (Nat.div_mod i 2 ltac:(lia)) as Hd. pose proof (Nat.mod_upper_bound i 2 ltac:(lia)) as Hm.
    destruct (nth_error CT (2 * (i / 2) + 1)) as [q1|] eqn:E2; [|apply nth_error_None in E2; lia].
    exists (i / 2), r1, q1. split; [split; auto|]. destruct (i mod 2) as [|[|]] eqn:Em; [left|right|lia].
    - replace i with (2 * (i / 2)) in E by lia. congruence.
    - replace i with (2 * (i / 2) + 1) in E by lia. congruence.
  Qed.

  Definition binv (k : nat) (b : barcode D) : Prop :=
    b_nodes b = S (length CT) /\ (b_deaths b 0 = n /\ b_parents b 0 = n /\ b_lambdas b 0 = zero) /\
    (forall j r q, k <= j -> pair j r q -> forall c, c = c_child r \/ c = c_child q ->
       b_deaths b (c - n) = Nat.min (c_size r) (c_size q) /\ b_parents b (c - n) = c_parent q /\ b_lambdas b (c - n) = death_of (c_lam q)) /\
    (forall j r q, k <= j -> pair j r q ->
       b_births b (c_parent q - n) = Nat.max (Nat.max (b_births b (c_child r - n)) (b_births b (c_child q - n))) (Nat.min (c_size r) (c_size q))) /\
    (forall c, n <= c -> (forall j r q, k <= j -> pair j r q -> c_parent q <> c) -> b_births b (c - n) = min_size).

  Lemma step_inv k r q b : pair k r q -> binv (S k) b -> binv k (barcode_step death_of n r q b).
  Proof.
    intros Hp (B1 & (B2 & B2' & B2'') & B3 & B4 & B5). destruct (pair_facts _ _ _ Hp) as (C1 & C2 & P1 & P2 & P3 & I1 & I2).
    split; [exact B1|]. unfold barcode_step. cbn [b_nodes b_births b_deaths b_parents b_lambdas].
    split; [|split; [|split]].
    - unfold upd. destruct (Nat.eqb_spec 0 (c_child q - n)) as [|_]; [lia|]. destruct (Nat.eqb_spec 0 (c_child q - n - 1)) as [|_]; [lia|]. auto.
    - intros j r' q' Hj Hp' c Hc. destruct (Nat.eq_dec j k) as [->|Hne].
      + destruct (pair_fun _ _ _ _ _ Hp Hp') as [-> ->]. unfold upd. destruct Hc as [->| ->].
        * destruct (Nat.eqb_spec (c_child r' - n) (c_child q' - n)) as [|_]; [lia|]. destruct (Nat.eqb_spec (c_child r' - n) (c_child q' - n - 1)) as [_|]; [|lia]. auto.
        * rewrite Nat.eqb_refl. auto.
      + destruct (B3 j r' q' ltac:(lia) Hp' c Hc) as (D1 & D2 & D3). destruct (pair_facts _ _ _ Hp') as (C1' & C2' & _).
        assert (c - n <> c_child q - n /\ c - n <> c_child q - n - 1) as [N1 N2] by (destruct Hc as [->| ->]; lia).
        unfold upd. destruct (Nat.eqb_spec (c - n) (c_child q - n)) as [|_]; [lia|]. destruct (Nat.eqb_spec (c - n) (c_child q - n - 1)) as [|_]; [lia|]. auto.
    - intros j r' q' Hj Hp'. destruct (pair_facts _ _ _ Hp') as (C1' & C2' & P1' & P2' & P3' & I1' & I2'). unfold upd.
      destruct (Nat.eqb_spec (c_child r' - n) (c_parent q - n)) as [|_]; [lia|]. destruct (Nat.eqb_spec (c_child q' - n) (c_parent q - n)) as [|_]; [lia|].
      destruct (Nat.eq_dec j k) as [->|Hne].
      + destruct (pair_fun _ _ _ _ _ Hp Hp') as [-> ->]. rewrite Nat.eqb_refl. replace (c_child q' - n - 1) with (c_child r' - n) by lia. reflexivity.
      + destruct (Nat.eqb_spec (c_parent q' - n) (c_parent q - n)) as [E|_].
        * exfalso. apply Hne. apply (pair_inj _ _ _ _ _ _ Hp' Hp). lia.
        * apply (B4 j r' q'); auto. lia.
    - intros c Hc Hn. unfold upd. destruct (Nat.eqb_spec (c - n) (c_parent q - n)) as [E|_].
      + exfalso. apply (Hn k r q); auto. lia.
      + apply B5; auto. intros j r' q' Hj Hp'. apply (Hn j r' q'); auto. lia.
  Qed.

  Lemma loop_inv : forall k b, 2 * k <= length CT -> binv k b -> binv 0 (barcode_loop death_of n (rev (firstn (2 * k) CT)) b).
  Proof.
    induction k as [|k IH]; intros b Hk HI.
    - rewrite Nat.mul_0_r, firstn_O. exact HI.
    - destruct (nth_error CT (2 * k)) as [r|] eqn:E1; [|apply nth_error_None in E1; lia].
      destruct (nth_error CT (2 * k + 1)) as [q|] eqn:E2; [|apply nth_error_None in E2; lia].
      replace (2 * S k) with (S (S (2 * k))) by lia. rewrite (firstn_S_nth CT (S (2 * k)) q), (firstn_S_nth CT (2 * k) r); auto.
      2: { replace (S (2 * k)) with (2 * k + 1) by lia. auto. }
      rewrite !rev_app_distr. cbn [rev app barcode_loop]. apply IH; [lia|]. apply step_inv; auto. split; auto.
  Qed.

  Lemma split_pair r q : split_rows n T r q <-> exists j, pair j r q.
  Proof. unfold split_rows, pair. split; intros (j & H); eauto. Qed.

  Section Final.
    Variable b : barcode D.
    Hypothesis HB : binv 0 b.
    Notation birth c := (b_births b (c - n)).

    Lemma desc_cases c d : descends n T c d -> exists r, In r CT /\ c_parent r = c /\ (c_child r = d \/ descends n T (c_child r) d).
    Proof.
      induction 1 as [r Hr Hc|c d e H1 IH1 H2 IH2].
      - exists r. split; [now apply in_ct|]. auto.
      - destruct IH1 as (r & H3 & H4 & [H5|H5]); exists r; split; auto; split; auto; right; [now subst|]. econstructor 2; eauto.
    Qed.
    Lemma desc_bounds c d : descends n T c d -> n <= c < d /\ is_cluster n T d.
    Proof.
      induction 1 as [r Hr Hc|c d e H1 [IH1 _] H2 [IH2 IH3]]; [|split; auto; lia].
      pose proof (parent_lt_child n wt mcs T HT r ltac:(now apply in_ct)). split; [lia|]. right. split; auto. eauto.
    Qed.
    Lemma cluster_size_le r : In r T -> n <= c_child r -> mcs <= c_size r.
    Proof. intros H1 H2. destruct (ct_sizes _ _ _ _ HT r H1 H2) as [H _]. now apply Nat.leb_le in H. Qed.

    (** Birth sizes grow upwards. *)
    Lemma birth_pair j r q : pair j r q -> birth (c_child r) <= birth (c_parent q) /\ birth (c_child q) <= birth (c_parent q) /\
      Nat.min (c_size r) (c_size q) <= birth (c_parent q).
    Proof. intro Hp. destruct HB as (_ & _ & _ & B4 & _). rewrite (B4 j r q (Nat.le_0_l _) Hp). lia. Qed.

    Lemma births_ok : forall k c, top_id n T <= c + k -> is_cluster n T c ->
      min_size <= birth c /\
      (forall d m, d = c \/ descends n T c d -> splits_at n T d m -> m <= birth c) /\
      (birth c = min_size \/ exists d m, (d = c \/ descends n T c d) /\ splits_at n T d m /\ birth c = m).
    Proof.
      pose proof HB as (B1 & B2 & B3 & B4 & B5).
      induction k as [|k IH]; intros c Hk Hc; pose proof (proj1 (is_cluster_iff n wt mcs T HT c) Hc) as Hr; [lia|].
      destruct (in_dec Nat.eq_dec c (map c_parent CT)) as [Hi|Hi].
      - apply in_map_iff in Hi as (r0 & <- & Hr0). destruct (row_pair r0 Hr0) as (j & r & q & Hp & Hor).
        destruct (pair_facts _ _ _ Hp) as (C1 & C2 & P1 & P2 & P3 & I1 & I2). assert (E0 : c_parent r0 = c_parent q) by (destruct Hor as [->| ->]; congruence). rewrite E0 in *.
        assert (Hcr : is_cluster n T (c_child r)) by (right; split; [lia|]; exists r; split; auto; eapply ct_in; eauto).
        assert (Hcq : is_cluster n T (c_child q)) by (right; split; [lia|]; exists q; split; auto; eapply ct_in; eauto).
        destruct (IH (c_child r) ltac:(lia) Hcr) as (R1 & R2 & R3). destruct (IH (c_child q) ltac:(lia) Hcq) as (Q1 & Q2 & Q3).
        destruct (birth_pair j r q Hp) as (G1 & G2 & G3). pose proof (B4 j r q (Nat.le_0_l _) Hp) as Heq.
        assert (Hdr : descends n T (c_parent q) (c_child r)) by (rewrite <- P1; constructor; [eapply ct_in; eauto|lia]).
        assert (Hdq : descends n T (c_parent q) (c_child q)) by (constructor; [eapply ct_in; eauto|lia]).
        split; [lia|]. split.
        + intros d m [->|Hd] Hs.
          * destruct Hs as (r' & q' & Hs & E & ->). apply split_pair in Hs as (j' & Hp'). destruct (pair_facts _ _ _ Hp') as (_ & _ & P1' & _).
            assert (j' = j) by (apply (pair_inj _ _ _ _ _ _ Hp' Hp); congruence). subst j'. destruct (pair_fun _ _ _ _ _ Hp Hp') as [-> ->]. lia.
          * destruct (desc_cases _ _ Hd) as (r1 & Hr1 & E1 & H1). destruct (row_pair r1 Hr1) as (j' & r' & q' & Hp' & Hor').
            destruct (pair_facts _ _ _ Hp') as (_ & _ & P1' & _). assert (E1' : c_parent q' = c_parent q) by (destruct Hor' as [->| ->]; congruence).
            assert (j' = j) by (apply (pair_inj _ _ _ _ _ _ Hp' Hp E1')). subst j'. destruct (pair_fun _ _ _ _ _ Hp Hp') as [<- <-].
            destruct Hor' as [->| ->]; [specialize (R2 d m)|specialize (Q2 d m)]; destruct H1 as [<-|H1]; [assert (m <= birth (c_child r)) by auto|assert (m <= birth (c_child r)) by auto|assert (m <= birth (c_child q)) by auto|assert (m <= birth (c_child q)) by auto]; lia.
        + assert (Hcase : birth (c_parent q) = birth (c_child r) \/ birth (c_parent q) = birth (c_child q) \/ birth (c_parent q) = Nat.min (c_size r) (c_size q)) by lia.
          assert (Hup : forall w, descends n T (c_parent q) w -> (forall d, d = w \/ descends n T w d -> descends n T (c_parent q) d)).
          { intros w Hw d [->|Hd]; auto. econstructor 2; eauto. }
          destruct Hcase as [E|[E|E]].
          * destruct R3 as [R3|(d & m & H1 & H2 & H3)]; [left; congruence|]. right. exists d, m. split; [right; apply (Hup (c_child r) Hdr d H1)|]. split; auto. congruence.
          * destruct Q3 as [Q3|(d & m & H1 & H2 & H3)]; [left; congruence|]. right. exists d, m. split; [right; apply (Hup (c_child q) Hdq d H1)|]. split; auto. congruence.
          * right. exists (c_parent q), (Nat.min (c_size r) (c_size q)). split; auto. split; auto. exists r, q. split; [apply split_pair; eauto|]. auto.
      - assert (E : birth c = min_size).
        { apply B5; [lia|]. intros j r q _ Hp E. apply Hi. destruct (pair_facts _ _ _ Hp) as (_ & _ & _ & _ & _ & _ & I2). rewrite <- E. now apply in_map. }
        split; [lia|]. split; auto. intros d m [->|Hd] Hs.
        + destruct Hs as (r & q & Hs & <- & ->). apply split_pair in Hs as (j & Hp). destruct (pair_facts _ _ _ Hp) as (_ & _ & _ & _ & _ & I1 & _). exfalso. apply Hi. now apply in_map.
        + destruct (desc_cases _ _ Hd) as (r1 & Hr1 & E1 & H1). exfalso. apply Hi. rewrite <- E1. now apply in_map.
    Qed.

    Lemma final_right : right_barcode n T death_of zero min_size b.
    Proof.
      pose proof HB as (B1 & B2 & B3 & B4 & B5). constructor; auto.
      - intros c m (r & q & Hs & Hc & ->). apply split_pair in Hs as (j & Hp). now apply (B3 j r q (Nat.le_0_l _) Hp c Hc).
      - intros r Hr Hc. destruct (row_pair r ltac:(now apply in_ct)) as (j & r1 & q1 & Hp & Hor).
        destruct (pair_facts _ _ _ Hp) as (_ & _ & P1 & P2 & _).
        destruct (B3 j r1 q1 (Nat.le_0_l _) Hp (c_child r)) as (_ & D2 & D3); [destruct Hor as [->| ->]; auto|]. rewrite D2, D3. destruct Hor as [->| ->]; split; congruence.
      - intros c Hc. apply (births_ok (top_id n T) c); [lia|auto].
    Qed.
  End Final.

  Lemma barcode_ok garbage garbage_lambda : CT <> [] ->
    exists b, min_cluster_size_barcode death_of zero n garbage garbage_lambda CT min_size = Ok b /\ right_barcode n T death_of zero min_size b.
  Proof.
    intro Hne. destruct (even_length n wt mcs T HT) as (s & Hs). assert (Hl : 0 < length CT) by (destruct CT; [congruence|cbn; lia]).
    unfold min_cluster_size_barcode. destruct (nth_error CT (length CT - 1)) as [q|] eqn:E; [|apply nth_error_None in E; lia].
    assert (Er : exists l, rev CT = q :: l).
    { exists (rev (firstn (length CT - 1) CT)). rewrite <- (firstn_all CT) at 1. replace (length CT) with (S (length CT - 1)) at 1 by lia.
      rewrite (firstn_S_nth CT _ q) by auto. rewrite rev_app_distr. reflexivity. }
    destruct Er as (l & Er). rewrite Er. rewrite <- Er. eexists. split; [reflexivity|]. apply final_right.
    rewrite <- (firstn_all CT) at 1. rewrite Hs. apply loop_inv; [lia|].
    split; [|split; [|split; [|split]]].
    - cbn [b_nodes]. rewrite (ct_nth _ _ E). lia.
    - cbn [b_deaths b_parents b_lambdas]. rewrite !upd_eq. auto.
    - intros j r q' Hj Hp. exfalso. destruct Hp as [E1 _]. assert (2 * j < length CT) by (apply nth_error_Some; congruence). lia.
    - intros j r q' Hj Hp. exfalso. destruct Hp as [E1 _]. assert (2 * j < length CT) by (apply nth_error_Some; congruence). lia.
    - intros c Hc _. reflexivity.
  Qed.
End Barcode.
