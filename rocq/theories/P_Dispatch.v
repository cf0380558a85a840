(** Which calls are accepted. *)
From Coq Require Import List Arith Lia Bool ZArith.
From Verif Require Import Prelude Order Graph S_Kruskal M_Kruskal M_KruskalEntry M_Dispatch S_Dispatch.
Import ListNotations.
Local Open Scope nat_scope.

Lemma check_float_ok v : (check_float v = Ok tt <-> nonnegative_float v) /\ (forall u, check_float v = Ok u -> nonnegative_float v).
Proof. unfold nonnegative_float. destruct v as [| |[]|]; cbn; split; try split; try congruence; auto; try (intros []; congruence). Qed.
Lemma positive_int_ok v : positive_int v = true <-> is_positive_int v.
Proof.
  unfold is_positive_int. destruct v as [|z| |]; cbn; split; try congruence; try (intros (z' & E & _); congruence).
  - intro H. apply Z.ltb_lt in H. eauto.
  - intros (z' & [= ->] & H). now apply Z.ltb_lt.
Qed.

Lemma validate_groups_ok g n : (exists v, validate_groups g n = Ok v) <-> length g = n /\ (forall x, In x g -> (-1 <= x)%Z).
Proof.
  unfold validate_groups. destruct (Nat.eqb_spec (length g) n) as [E|E]; cbn [negb].
  - destruct (existsb (fun x => (x <? -1)%Z) g) eqn:Ex.
    + split; [intros [v H]; discriminate|]. intros [_ H]. apply existsb_exists in Ex as (x & Hx & Hl). apply Z.ltb_lt in Hl. specialize (H x Hx). lia.
    + split.
      * intros _. split; auto. intros x Hx. destruct (Z.ltb_spec x (-1)) as [Hl|Hl]; auto. exfalso.
        assert (existsb (fun x => (x <? -1)%Z) g = true) by (apply existsb_exists; exists x; split; auto; now apply Z.ltb_lt). congruence.
      * intros _. destruct (existsb (fun x => (0 <=? x)%Z) g); eauto.
  - split; [intros [v H]; discriminate|intros [H _]; contradiction].
Qed.

Lemma validate_pairs_ok X n b : (exists c, validate_cannot_link X n b = Ok c) <-> (b = true -> sp_rows X = n /\ sp_cols X = n).
Proof.
  unfold validate_cannot_link. destruct b; cbn [negb].
  - destruct (Nat.eqb_spec (sp_rows X) n) as [E1|E1]; cbn [andb negb].
    + destruct (Nat.eqb_spec (sp_cols X) n) as [E2|E2]; cbn [negb].
      * split; [auto|]. intros _. destruct (length (sp_entries X) =? 0); eauto.
      * split; [intros [c H]; discriminate|]. intro H. destruct (H eq_refl). contradiction.
    + split; [intros [c H]; discriminate|]. intro H. destruct (H eq_refl). contradiction.
  - split; [discriminate|]. intros _. destruct (length (sp_entries X) =? 0); eauto.
Qed.

Lemma resolve_ok n X b g : (X = None \/ g = None) ->
  (exists cl, resolve_cl_params n X b g = Ok cl) <->
  (forall Y, X = Some Y -> b = true -> sp_rows Y = n /\ sp_cols Y = n) /\ (forall l, g = Some l -> length l = n /\ forall x, In x l -> (-1 <= x)%Z).
Proof.
  intro Hone. unfold resolve_cl_params. destruct X as [Y|], g as [l|].
  - destruct Hone; discriminate.
  - pose proof (validate_pairs_ok Y n b) as H. split.
    + intros [cl E]. destruct (validate_cannot_link Y n b) as [c|]; [|discriminate]. split; [|intros; discriminate]. intros Y' [= <-]. apply H. eauto.
    + intros [H1 _]. destruct (proj2 H (H1 Y eq_refl)) as [c ->]. cbn [bind]. eauto.
  - pose proof (validate_groups_ok l n) as H. split.
    + intros [cl E]. destruct (validate_groups l n) as [c|]; [|discriminate]. split; [intros; discriminate|]. intros Y' [= <-]. apply H. eauto.
    + intros [_ H1]. destruct (proj2 H (H1 l eq_refl)) as [[c k] ->]. cbn [bind]. eauto.
  - split; [intros _; split; intros; discriminate|eauto].
Qed.

Section Accepted.
  Variable a : arguments.

  Lemma choose_ok : (a_metric a <> OtherMetric \/ a_pynndescent a = true) -> (a_metric a = Precomputed -> a_weights a = false) ->
    (exists p, choose_algorithm a = Ok p) /\ a_method a <> OtherMethod <-> combination_ok a.
  Proof.
    intros Hm Hp. unfold choose_algorithm.
    pose proof (resolve_ok (a_rows a) (a_cannot_link a) (a_validate a) (a_groups a)) as Hres.
    split.
    - intros [[p E] Hme].
      destruct (a_algorithm a) eqn:Ea; [| |discriminate];
      (destruct (match a_cannot_link a, a_groups a with Some _, Some _ => true | _, _ => false end) eqn:Eb; [discriminate|]);
      (assert (Hone : a_cannot_link a = None \/ a_groups a = None) by (destruct (a_cannot_link a), (a_groups a); auto; discriminate));
      specialize (Hres Hone); cbn [andb] in E.
      + assert (Hno : ~ constrained a) by (unfold constrained; destruct (a_cannot_link a), (a_groups a); cbn in E; try discriminate; intros [H|H]; contradiction).
        rewrite andb_true_r in E. destruct (match a_cannot_link a, a_groups a with None, None => false | _, _ => true end) eqn:Ec; [discriminate|].
        constructor; try congruence; try tauto.
        * intro Hw. destruct (a_metric a) eqn:Emm; auto; rewrite Hw in E; cbn in E; discriminate.
        * intros [H|(H & H1 & H2)].
          -- destruct Hm as [Hm|Hm]; [contradiction|auto].
          -- rewrite H in E. cbn [orb] in E. destruct (Nat.ltb_spec 30 (a_features a)) as [_|Hl]; [|lia]. rewrite H2 in E. cbn in E. destruct (a_pynndescent a); auto; discriminate.
      + rewrite andb_false_r in E. constructor; try congruence; try tauto.
        * intro Hw. destruct (a_metric a) eqn:Emm; auto; rewrite Hw in E; cbn in E; discriminate.
        * intros Hw _ Hk. destruct (a_metric a) eqn:Emm.
          -- rewrite Hw, Hk in E. cbn [negb orb] in E. rewrite andb_false_r in E. destruct (resolve_cl_params _ _ _ _); cbn in E; discriminate.
          -- rewrite Hw in E; discriminate.
          -- rewrite Hw in E; discriminate.
        * intros [H|(H & H1 & H2)].
          -- destruct Hm as [Hm|Hm]; [contradiction|auto].
          -- rewrite H in E. cbn [orb] in E. destruct (Nat.ltb_spec 30 (a_features a)) as [_|Hl]; [|lia]. rewrite H2 in E. cbn in E. destruct (a_pynndescent a); auto; discriminate.
        * intros _ Hu. apply Hres. destruct (resolve_cl_params (a_rows a) (a_cannot_link a) (a_validate a) (a_groups a)) as [cl|]; [eauto|].
          exfalso. destruct (a_metric a) eqn:Emm.
          -- cbn [orb] in E. destruct (Nat.ltb_spec 30 (a_features a)) as [Hl|Hl]; cbn [andb] in E; [|discriminate].
             destruct (a_weights a) eqn:Ew; cbn [negb] in E; [discriminate|]. apply Hu. right. auto.
          -- destruct (a_weights a); discriminate.
          -- apply Hu. left. auto.
    - intros [C1 C2 C3 C4 C5 C6 C7 C8]. split; auto. specialize (Hres C3).
      assert (Eb : match a_cannot_link a, a_groups a with Some _, Some _ => true | _, _ => false end = false) by (destruct (a_cannot_link a), (a_groups a); auto; destruct C3; discriminate).
      rewrite Eb.
      destruct (a_algorithm a) eqn:Ea; [| |contradiction].
      + assert (Hno : ~ constrained a) by (intro H; specialize (C4 H); discriminate).
        assert (Ec : match a_cannot_link a, a_groups a with None, None => false | _, _ => true end = false).
        { unfold constrained in Hno. destruct (a_cannot_link a), (a_groups a); auto; exfalso; apply Hno; (left; discriminate) || (right; discriminate). }
        rewrite Ec. cbn [andb]. destruct (a_metric a) eqn:Emm; cbn [orb].
        * destruct (Nat.ltb_spec 30 (a_features a)) as [Hl|Hl]; cbn [andb]; eauto. destruct (a_weights a) eqn:Ew; cbn [negb]; eauto.
          rewrite C7; eauto. right. auto.
        * destruct (a_weights a) eqn:Ew; [specialize (Hp eq_refl); discriminate|eauto].
        * destruct (a_weights a) eqn:Ew; [specialize (C5 eq_refl); discriminate|]. rewrite C7; eauto. now left.
      + rewrite andb_false_r. destruct (a_metric a) eqn:Emm; cbn [orb].
        * destruct (Nat.ltb_spec 30 (a_features a)) as [Hl|Hl]; cbn [andb].
          -- destruct (a_weights a) eqn:Ew; cbn [negb].
             ++ assert (Hu : ~ uses_neighbour_graph a) by (intros [H|(_ & _ & H)]; congruence).
                destruct (proj2 Hres (C8 eq_refl Hu)) as [cl ->]. cbn [bind]. specialize (C6 eq_refl eq_refl). destruct (a_knn_k a); eauto; contradiction.
             ++ rewrite C7; eauto. right. auto.
          -- assert (Hu : ~ uses_neighbour_graph a) by (intros [H|(_ & H & _)]; [congruence|lia]).
             destruct (proj2 Hres (C8 eq_refl Hu)) as [cl ->]. cbn [bind]. destruct (a_knn_k a); eauto. destruct (a_weights a); eauto. exfalso. now apply C6.
        * destruct (a_weights a) eqn:Ew; [specialize (Hp eq_refl); discriminate|].
          assert (Hu : ~ uses_neighbour_graph a) by (intros [H|(H & _)]; congruence).
          destruct (proj2 Hres (C8 eq_refl Hu)) as [cl ->]. cbn [bind]. eauto.
        * destruct (a_weights a) eqn:Ew; [specialize (C5 eq_refl); discriminate|]. rewrite C7; eauto. now left.
  Qed.

  Lemma dispatch_ok : 2 <= a_rows a -> (exists p, dispatch a = Ok p) <-> values_ok a /\ combination_ok a.
  Proof.
    intro Hn. unfold dispatch. destruct (Nat.ltb_spec (a_rows a) 2) as [|_]; [lia|]. split.
    - intros [p E]. destruct (check_metric a) as [u1|] eqn:E1; [|discriminate]. cbn [bind] in E.
      destruct (check_semi_supervised a) as [u2|] eqn:E2; [|discriminate]. cbn [bind] in E.
      destruct (negb (is_none (a_min_samples a) || positive_int (a_min_samples a)) || negb (positive_int (a_min_cluster_size a))) eqn:E3; [discriminate|].
      destruct (check_float (a_epsilon a)) as [u3|] eqn:E4; [|discriminate]. cbn [bind] in E.
      destruct (check_float (a_persistence a)) as [u4|] eqn:E5; [|discriminate]. cbn [bind] in E.
      destruct (choose_algorithm a) as [p'|] eqn:E6; [|discriminate]. cbn [bind] in E.
      apply orb_false_iff in E3 as [E3 E3']. apply negb_false_iff in E3, E3'. apply orb_true_iff in E3. split.
      + constructor.
        * destruct E3 as [E3|E3]; [left; destruct (a_min_samples a); cbn in E3; congruence|right; now apply positive_int_ok].
        * now apply positive_int_ok.
        * now apply (proj2 (check_float_ok _) u3).
        * now apply (proj2 (check_float_ok _) u4).
        * intro Hs. unfold check_semi_supervised in E2. rewrite Hs in E2. destruct (a_labels a), (a_ss_known a); cbn in E2; try discriminate; auto.
      + apply choose_ok.
        * unfold check_metric in E1. destruct (a_metric a); try (left; congruence). right. destruct (a_pynndescent a); auto; discriminate.
        * unfold check_metric in E1. intro Em. rewrite Em in E1. destruct (a_weights a); auto; discriminate.
        * split; eauto. intro Em. rewrite Em in E. discriminate.
    - intros [[V1 V2 V3 V4 V5] HC].
      assert (Hmp : a_metric a = Precomputed -> a_weights a = false).
      { intro Em. destruct (a_weights a) eqn:Ew; auto. pose proof (m_weights a HC Ew). congruence. }
      assert (Hmo : a_metric a <> OtherMetric \/ a_pynndescent a = true).
      { destruct (a_metric a) eqn:Em; try (left; congruence). right. apply (m_package a HC). now left. }
      destruct (proj2 (choose_ok Hmo Hmp) HC) as [[p Ep] Hme].
      assert (E1 : check_metric a = Ok tt).
      { unfold check_metric. destruct (a_metric a); auto; [now rewrite Hmp|]. destruct Hmo as [H|H]; [contradiction|now rewrite H]. }
      assert (E2 : check_semi_supervised a = Ok tt).
      { unfold check_semi_supervised. destruct (a_semi_supervised a); auto. destruct (V5 eq_refl) as [-> ->]. reflexivity. }
      rewrite E1, E2. cbn [bind]. rewrite (proj2 (positive_int_ok _) V2).
      replace (is_none (a_min_samples a) || positive_int (a_min_samples a)) with true.
      2: { symmetry. apply orb_true_iff. destruct V1 as [->|V1]; [now left|right; now apply positive_int_ok]. }
      cbn [negb orb]. rewrite (proj2 (proj1 (check_float_ok _)) V3), (proj2 (proj1 (check_float_ok _)) V4), Ep. cbn [bind].
      destruct (a_method a); eauto; contradiction.
  Qed.

  (** ** Constraints *)
  Lemma constraints_reach p : 2 <= a_rows a -> dispatch a = Ok p -> a_algorithm a = Kruskal ->
    (~ uses_neighbour_graph a -> exists cl, resolve_cl_params (a_rows a) (a_cannot_link a) (a_validate a) (a_groups a) = Ok cl /\ constraints_of p = Some cl) /\
    (uses_neighbour_graph a -> constraints_of p = None).
  Proof.
    intros Hn. unfold dispatch. destruct (Nat.ltb_spec (a_rows a) 2) as [|_]; [lia|]. intros E Ha.
    destruct (check_metric a) as [u1|] eqn:E1; [|discriminate]. cbn [bind] in E.
    destruct (check_semi_supervised a) as [u2|] eqn:E2; [|discriminate]. cbn [bind] in E.
    destruct (negb (is_none (a_min_samples a) || positive_int (a_min_samples a)) || negb (positive_int (a_min_cluster_size a))) eqn:E3; [discriminate|].
    destruct (check_float (a_epsilon a)) as [u3|] eqn:E4; [|discriminate]. cbn [bind] in E.
    destruct (check_float (a_persistence a)) as [u4|] eqn:E5; [|discriminate]. cbn [bind] in E.
    destruct (choose_algorithm a) as [p'|] eqn:E6; [|discriminate]. cbn [bind] in E.
    assert (p' = p) by (destruct (a_method a); congruence). subst p'. clear E E1 E2 E3 E4 E5.
    unfold choose_algorithm in E6. rewrite Ha in E6. destruct (match a_cannot_link a, a_groups a with Some _, Some _ => true | _, _ => false end); [discriminate|].
    rewrite andb_false_r in E6. destruct (resolve_cl_params (a_rows a) (a_cannot_link a) (a_validate a) (a_groups a)) as [cl|] eqn:Er.
    - split.
      + intro Hu. exists cl. split; auto. destruct (a_metric a) eqn:Em; cbn [orb] in E6.
        * destruct ((30 <? a_features a) && negb (a_weights a)) eqn:Eg.
          -- exfalso. apply Hu. right. apply andb_true_iff in Eg as [G1 G2]. apply Nat.ltb_lt in G1. apply negb_true_iff in G2. auto.
          -- cbn [bind] in E6. destruct (a_knn_k a), (a_weights a); try discriminate; injection E6 as <-; reflexivity.
        * destruct (a_weights a); [discriminate|]. cbn [bind] in E6. injection E6 as <-. reflexivity.
        * exfalso. apply Hu. now left.
      + intros [H|(H & H1 & H2)]; rewrite H in E6; cbn [orb] in E6.
        * destruct (a_weights a), (a_pynndescent a); try discriminate; injection E6 as <-; reflexivity.
        * apply Nat.ltb_lt in H1. rewrite H1, H2 in E6. cbn in E6. destruct (a_pynndescent a); try discriminate; injection E6 as <-; reflexivity.
    - split.
      + intro Hu. exfalso. destruct (a_metric a) eqn:Em; cbn [orb] in E6.
        * destruct ((30 <? a_features a) && negb (a_weights a)) eqn:Eg; [|discriminate].
          apply Hu. right. apply andb_true_iff in Eg as [G1 G2]. apply Nat.ltb_lt in G1. apply negb_true_iff in G2. auto.
        * destruct (a_weights a); discriminate.
        * apply Hu. now left.
      + intros [H|(H & H1 & H2)]; rewrite H in E6; cbn [orb] in E6.
        * destruct (a_weights a), (a_pynndescent a); try discriminate; injection E6 as <-; reflexivity.
        * apply Nat.ltb_lt in H1. rewrite H1, H2 in E6. cbn in E6. destruct (a_pynndescent a); try discriminate; injection E6 as <-; reflexivity.
  Qed.

  Lemma plan_follows p : 2 <= a_rows a -> dispatch a = Ok p -> follows_request a p.
  Proof.
    intros Hn. unfold dispatch. destruct (Nat.ltb_spec (a_rows a) 2) as [|_]; [lia|]. intros E.
    destruct (check_metric a) as [u1|] eqn:E1; [|discriminate]. cbn [bind] in E.
    destruct (check_semi_supervised a) as [u2|] eqn:E2; [|discriminate]. cbn [bind] in E.
    destruct (negb (is_none (a_min_samples a) || positive_int (a_min_samples a)) || negb (positive_int (a_min_cluster_size a))) eqn:E3; [discriminate|].
    destruct (check_float (a_epsilon a)) as [u3|] eqn:E4; [|discriminate]. cbn [bind] in E.
    destruct (check_float (a_persistence a)) as [u4|] eqn:E5; [|discriminate]. cbn [bind] in E.
    destruct (choose_algorithm a) as [p'|] eqn:E6; [|discriminate]. cbn [bind] in E.
    assert (p' = p) by (destruct (a_method a); congruence). subst p'. clear E E1 E2 E3 E4 E5.
    unfold choose_algorithm in E6. unfold uses_neighbour_graph.
    destruct (match a_cannot_link a, a_groups a with Some _, Some _ => true | _, _ => false end); [destruct (a_algorithm a); discriminate|].
    destruct (match a_cannot_link a, a_groups a with None, None => false | _, _ => true end), (a_algorithm a) eqn:Ea; try discriminate; cbn [andb] in E6;
      destruct (a_metric a) eqn:Em; cbn [orb] in E6;
      destruct (resolve_cl_params (a_rows a) (a_cannot_link a) (a_validate a) (a_groups a)) as [cl|]; cbn [bind] in E6;
      destruct (Nat.ltb_spec 30 (a_features a)) as [F|F], (a_weights a) eqn:Ew; cbn [andb negb] in E6; try discriminate;
      destruct (a_pynndescent a), (a_knn_k a) eqn:Ek; try discriminate; injection E6 as <-;
      (constructor; auto; unfold uses_neighbour_graph; rewrite ?Ew, ?Em, ?Ea, ?Ek; intuition (try discriminate; try congruence; try lia)).
  Qed.

  Lemma dispatch_degenerate : a_rows a < 2 -> dispatch a = Ok Degenerate <-> values_ok a /\ check_metric a = Ok tt.
  Proof.
    intro Hn. unfold dispatch. destruct (Nat.ltb_spec (a_rows a) 2) as [_|]; [|lia]. split.
    - intro E. destruct (check_metric a) as [[]|] eqn:E1; [|discriminate]. cbn [bind] in E.
      destruct (check_semi_supervised a) as [u2|] eqn:E2; [|discriminate]. cbn [bind] in E.
      destruct (negb (is_none (a_min_samples a) || positive_int (a_min_samples a)) || negb (positive_int (a_min_cluster_size a))) eqn:E3; [discriminate|].
      destruct (check_float (a_epsilon a)) as [u3|] eqn:E4; [|discriminate]. cbn [bind] in E.
      destruct (check_float (a_persistence a)) as [u4|] eqn:E5; [|discriminate].
      apply orb_false_iff in E3 as [E3 E3']. apply negb_false_iff in E3, E3'. apply orb_true_iff in E3. split; auto.
      constructor.
      + destruct E3 as [E3|E3]; [left; destruct (a_min_samples a); cbn in E3; congruence|right; now apply positive_int_ok].
      + now apply positive_int_ok.
      + now apply (proj2 (check_float_ok _) u3).
      + now apply (proj2 (check_float_ok _) u4).
      + intro Hs. unfold check_semi_supervised in E2. rewrite Hs in E2. destruct (a_labels a), (a_ss_known a); cbn in E2; try discriminate; auto.
    - intros [[V1 V2 V3 V4 V5] E1].
      assert (E2 : check_semi_supervised a = Ok tt).
      { unfold check_semi_supervised. destruct (a_semi_supervised a); auto. destruct (V5 eq_refl) as [-> ->]. reflexivity. }
      rewrite E1, E2. cbn [bind]. rewrite (proj2 (positive_int_ok _) V2).
      replace (is_none (a_min_samples a) || positive_int (a_min_samples a)) with true.
      2: { symmetry. apply orb_true_iff. destruct V1 as [->|V1]; [now left|right; now apply positive_int_ok]. }
      cbn [negb orb]. rewrite (proj2 (proj1 (check_float_ok _)) V3), (proj2 (proj1 (check_float_ok _)) V4). reflexivity.
  Qed.
End Accepted.
