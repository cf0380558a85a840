(** Proofs about Boruvka on stored graphs. *)
From Coq Require Import List Arith Lia Bool Permutation Relations Sorted.
From Verif Require Import Prelude Order Graph UF M_DisjointSet P_DisjointSet M_Precomputed M_Linkage M_Select
  M_CoreGraph S_Kruskal S_Precomputed S_CoreGraph P_Sort P_Forest P_Precomputed2 P_KruskalRun P_Boruvka.
Import ListNotations.

Section Select.
  Context {W : WOrd}.
  Implicit Types D C : list (nat * edge W).

  Definition note_all C D : list (nat * edge W) :=
    fold_left (fun D ce => note_edge D (fst ce) (snd ce)) C D.

  Lemma dict_get_in {A} (d : list (nat * A)) k v : dict_get d k = Ok v -> In (k, v) d.
  Proof.
    induction d as [|[k' v'] d IH]; simpl; [discriminate|].
    destruct (Nat.eqb_spec k k') as [->|H]; [intros [= ->]; auto|auto].
  Qed.

  Lemma dict_get_none {A} (d : list (nat * A)) k e : dict_get d k = Err e -> ~ In k (map fst d).
  Proof.
    induction d as [|[k' v'] d IH]; simpl; [tauto|].
    destruct (Nat.eqb_spec k k') as [->|H]; [discriminate|]. intros K [->|Hi]; [auto|]. now apply IH.
  Qed.

  Lemma dict_set_in {A} (d : list (nat * A)) k v k' v' :
    In (k', v') (dict_set d k v) -> (k' = k /\ v' = v) \/ In (k', v') d.
  Proof.
    induction d as [|[k1 v1] d IH]; simpl.
    - intros [[= -> ->]|[]]; auto.
    - destruct (Nat.eqb_spec k k1) as [->|H]; simpl.
      + intros [[= -> ->]|Hi]; auto.
      + intros [[= -> ->]|Hi]; auto. destruct (IH Hi); auto.
  Qed.

  Lemma dict_set_self {A} (d : list (nat * A)) k v : In (k, v) (dict_set d k v).
  Proof.
    induction d as [|[k1 v1] d IH]; simpl; auto.
    destruct (Nat.eqb_spec k k1) as [->|H]; simpl; auto.
  Qed.

  Lemma dict_set_other {A} (d : list (nat * A)) k v k' v' :
    k' <> k -> In (k', v') d -> In (k', v') (dict_set d k v).
  Proof.
    induction d as [|[k1 v1] d IH]; simpl; auto.
    intros Hne Hi. destruct (Nat.eqb_spec k k1) as [->|H]; simpl;
      destruct Hi as [[= E1 E2]|Hi]; subst; auto; congruence.
  Qed.

  Lemma dict_set_keys {A} (d : list (nat * A)) k v :
    NoDup (map fst d) -> NoDup (map fst (dict_set d k v)).
  Proof.
    induction d as [|[k1 v1] d IH]; simpl; intro H.
    - constructor; auto.
    - inversion_clear H as [|? ? Hx Hn]. destruct (Nat.eqb_spec k k1) as [->|Hne]; simpl; constructor; auto.
      intro K. apply in_map_iff in K as ([k2 v2] & E & Hi). simpl in E. subst k2.
      apply dict_set_in in Hi as [[-> _]|Hi]; [auto|].
      apply Hx. apply in_map_iff. exists (k1, v2). auto.
  Qed.

  Lemma keys_unique {A} (d : list (nat * A)) c u v :
    NoDup (map fst d) -> In (c, u) d -> In (c, v) d -> u = v.
  Proof.
    induction d as [|[k w] d IH]; simpl; [tauto|]. intros H Hu Hv.
    inversion_clear H as [|? ? Hx Hn].
    assert (No : forall x, In (c, x) d -> k <> c).
    { intros x Hg ->. apply Hx. apply in_map_iff. exists (c, x). auto. }
    destruct Hu as [Hu|Hu], Hv as [Hv|Hv]; auto.
    - congruence.
    - injection Hu as E1 E2. exfalso. now apply (No v).
    - injection Hv as E1 E2. exfalso. now apply (No u).
  Qed.

  Record best_of C D : Prop := {
    bo_keys : NoDup (map fst D);
    bo_from : forall c e, In (c, e) D -> In (c, e) C;
    bo_least : forall c e, In (c, e) C -> exists f, In (c, f) D /\ wle (ewt f) (ewt e) = true
  }.

  Lemma note_edge_best C D c e : best_of C D -> best_of (C ++ [(c, e)]) (note_edge D c e).
  Proof.
    intros [H1 H2 H3]. unfold note_edge.
    destruct (dict_get D c) as [old|er] eqn:Eg.
    - apply dict_get_in in Eg. destruct (wlt (ewt e) (ewt old)) eqn:El.
      + split.
        * now apply dict_set_keys.
        * intros c' e' Hi. apply in_app_iff. apply dict_set_in in Hi as [[-> ->]|Hi]; simpl; auto.
        * intros c' e' Hi. apply in_app_iff in Hi as [Hi|[[= <- <-]|[]]].
          -- destruct (H3 c' e' Hi) as (f & Hf & Hle).
             destruct (Nat.eq_dec c' c) as [->|Hne].
             ++ exists e. split; [apply dict_set_self|].
                rewrite (keys_unique _ _ _ _ H1 Hf Eg) in Hle.
                eapply wle_trans; [apply wlt_le, El|auto].
             ++ exists f. split; auto. now apply dict_set_other.
          -- exists e. split; [apply dict_set_self|apply wle_refl].
      + apply wlt_false in El. split; auto.
        * intros c' e' Hi. apply in_app_iff. auto.
        * intros c' e' Hi. apply in_app_iff in Hi as [Hi|[[= <- <-]|[]]]; eauto.
    - apply dict_get_none in Eg. split.
      + now apply dict_set_keys.
      + intros c' e' Hi. apply in_app_iff. apply dict_set_in in Hi as [[-> ->]|Hi]; simpl; auto.
      + intros c' e' Hi. apply in_app_iff in Hi as [Hi|[[= <- <-]|[]]].
        * destruct (H3 c' e' Hi) as (f & Hf & Hle). exists f. split; auto.
          apply dict_set_other; auto. intros ->. apply Eg. apply in_map_iff. exists (c, f). auto.
        * exists e. split; [apply dict_set_self|apply wle_refl].
  Qed.

  Lemma note_all_best C : forall C0 D, best_of C0 D -> best_of (C0 ++ C) (note_all C D).
  Proof.
    induction C as [|[c e] C IH]; intros C0 D H; simpl.
    - now rewrite app_nil_r.
    - replace (C0 ++ (c, e) :: C) with ((C0 ++ [(c, e)]) ++ C) by (rewrite <- app_assoc; auto).
      apply IH. now apply note_edge_best.
  Qed.

  Lemma best_nil : best_of [] [].
  Proof. split; simpl; try tauto. constructor. Qed.

  (** Chosen edges are pending choices of the phase. *)
  Lemma best_pending (G : nat -> nat -> W -> Prop) (comp : nat -> nat) (F : list (edge W)) C D :
    best_of C D ->
    (forall c e, In (c, e) C -> c = comp (esrc e) /\ G (esrc e) (edst e) (ewt e)) ->
    (forall e f, In e (map snd C) -> In f (map snd C) -> connected F (esrc e) (esrc f) ->
       comp (esrc e) = comp (esrc f)) ->
    (forall e c d w, In e (map snd C) -> connected F (esrc e) c -> ~ connected F c d -> G c d w ->
       exists f, In (comp (esrc e), f) C /\ wle (ewt f) w = true) ->
    pending G F (map snd D).
  Proof.
    intros [H1 H2 H3] HC Hcomp Hleast. split.
    - intros e He. apply in_map_iff in He as ([c f] & <- & Hi). simpl. now apply (HC c f), H2.
    - intros e He c d w Hc Hn HG. apply in_map_iff in He as ([c1 f] & E & Hi). simpl in E. subst f.
      destruct (HC c1 e (H2 _ _ Hi)) as [E1 _].
      destruct (Hleast e c d w) as (f & Hf & Hle); auto.
      { apply in_map_iff. exists (c1, e). split; auto. }
      rewrite <- E1 in Hf. destruct (H3 c1 f Hf) as (h & Hh & Hle').
      assert (h = e) as ->; [|eapply wle_trans; eauto].
      now apply (keys_unique D c1).
    - assert (Hc : forall c e, In (c, e) D -> c = comp (esrc e)) by (intros c e Hi; apply HC; auto).
      assert (Hin : forall c e, In (c, e) D -> In e (map snd C)).
      { intros c e Hi. apply in_map_iff. exists (c, e). auto. }
      clear H2 H3 HC Hleast. induction D as [|[k v] D IH]; simpl; constructor.
      + inversion_clear H1 as [|? ? Hx Hn]. rewrite Forall_forall. intros f Hf K.
        apply in_map_iff in Hf as ([c f'] & E & Hi). simpl in E. subst f'.
        apply Hx. apply in_map_iff. exists (c, f). split; auto. simpl.
        rewrite (Hc c f) by (right; auto). rewrite (Hc k v) by (left; auto). symmetry.
        apply Hcomp; auto; [apply (Hin k); left; auto|apply (Hin c); right; auto].
      + inversion_clear H1 as [|? ? Hx Hn]. apply IH; auto.
        * intros c e Hi. apply Hc. right. auto.
        * intros c e Hi. apply (Hin c). right. auto.
  Qed.
End Select.

(** ** Rows of the working arrays *)
Section Rows.
  Context {W : WOrd}.
  Implicit Types g : work W.

  Fixpoint rview g (idxs : list nat) : list (nat * W) :=
    match idxs with
    | [] => []
    | i :: idxs' =>
        match w_ind g i with
        | None => []
        | Some c => (c, w_dist g i) :: rview g idxs'
        end
    end.

  Lemma rview_ext g g' idxs :
    (forall i, In i idxs -> w_ind g' i = w_ind g i /\ w_dist g' i = w_dist g i) ->
    rview g' idxs = rview g idxs.
  Proof.
    induction idxs as [|i idxs IH]; simpl; intro H; auto.
    destruct (H i (or_introl eq_refl)) as [-> ->]. destruct (w_ind g i); auto.
    f_equal. apply IH. intros j Hj. apply H. auto.
  Qed.

  Definition crosses (comps : list nat) (point : nat) (cw : nat * W) : bool :=
    negb (nth (fst cw) comps 0 =? nth point comps 0).

  Lemma compact_loop_ok comps point start k : forall m counter g c' g',
    start + counter <= m ->
    compact_loop comps point start (seq m k) counter g = (c', g') ->
    let K := filter (crosses comps point) (rview g (seq m k)) in
    c' = counter + length K /\ w_len g' = w_len g /\
    (forall i, i < start + counter \/ start + c' <= i ->
       w_ind g' i = w_ind g i /\ w_dist g' i = w_dist g i) /\
    (forall j x, nth_error K j = Some x ->
       w_ind g' (start + counter + j) = Some (fst x) /\ w_dist g' (start + counter + j) = snd x).
  Proof.
    induction k as [|k IH]; intros m counter g c' g' Hm; simpl.
    - intros [= <- <-]. split; [simpl; lia|]. split; auto. split; auto.
      intros [|j] x Hj; discriminate.
    - destruct (w_ind g m) as [child|] eqn:Em.
      + destruct (Nat.eqb_spec (nth child comps 0) (nth point comps 0)) as [E|E].
        * intro Hc. apply IH in Hc as (H1 & H2 & H3 & H4); [|lia].
          assert (Ex : crosses comps point (child, w_dist g m) = false)
            by (unfold crosses; simpl; now rewrite (proj2 (Nat.eqb_eq _ _) E)).
          cbn [filter]. rewrite Ex. auto.
        * intro Hc. apply IH in Hc as (H1 & H2 & H3 & H4); [|lia].
          set (g1 := {| w_len := w_len g; w_ind := _; w_dist := _ |}) in *.
          assert (Hv : rview g1 (seq (S m) k) = rview g (seq (S m) k)).
          { apply rview_ext. intros i Hi. apply in_seq in Hi. simpl.
            rewrite !upd_neq by lia. auto. }
          assert (Ex : crosses comps point (child, w_dist g m) = true)
            by (unfold crosses; simpl; now rewrite (proj2 (Nat.eqb_neq _ _) E)).
          rewrite Hv in *. cbn [filter]. rewrite Ex.
          set (K := filter (crosses comps point) (rview g (seq (S m) k))) in *.
          split; [simpl; lia|]. split; auto. split.
          -- intros i Hi. destruct (H3 i) as [P1 P2]; [lia|]. rewrite P1, P2. simpl.
             rewrite !upd_neq by lia. auto.
          -- intros [|j] x Hj.
             ++ simpl in Hj. injection Hj as <-. rewrite Nat.add_0_r.
                destruct (H3 (start + counter)) as [P1 P2]; [lia|]. rewrite P1, P2. simpl.
                rewrite !upd_eq. auto.
             ++ simpl in Hj. apply H4 in Hj. replace (start + counter + S j) with (start + (counter + 1) + j) by lia.
                auto.
      + intros [= <- <-]. split; [simpl; lia|]. split; auto. split; auto.
        intros [|j] x Hj; discriminate.
  Qed.

  Lemma rview_list g K : forall s t,
    s + length K <= t ->
    (forall j x, nth_error K j = Some x -> w_ind g (s + j) = Some (fst x) /\ w_dist g (s + j) = snd x) ->
    (s + length K < t -> w_ind g (s + length K) = None) ->
    rview g (seq s (t - s)) = K.
  Proof.
    induction K as [|x K IH]; intros s t Hl H1 H2; simpl in *.
    - rewrite Nat.add_0_r in *. destruct (Nat.eq_dec s t) as [->|Hne].
      + now rewrite Nat.sub_diag.
      + replace (t - s) with (S (t - s - 1)) by lia. simpl. now rewrite H2 by lia.
    - replace (t - s) with (S (t - S s)) by lia. simpl.
      destruct (H1 0 x eq_refl) as [P1 P2]. rewrite Nat.add_0_r in *. rewrite P1, P2.
      destruct x as [c w]. simpl. f_equal. apply IH; [lia| |].
      + intros j y Hj. replace (S s + j) with (s + S j) by lia. now apply H1.
      + intro Hlt. replace (S s + length K) with (s + S (length K)) by lia. apply H2. lia.
  Qed.

  Lemma rview_length g idxs : length (rview g idxs) <= length idxs.
  Proof.
    induction idxs as [|i idxs IH]; simpl; auto. destruct (w_ind g i); simpl; lia.
  Qed.

  Lemma update_row_ok indptr comps g point :
    let start := nth point indptr 0 in
    let stop := nth (S point) indptr 0 in
    let g' := update_row indptr comps g point in
    start <= stop ->
    w_len g' = w_len g /\
    rview g' (seq start (stop - start)) = filter (crosses comps point) (rview g (seq start (stop - start))) /\
    (forall i, i < start \/ stop <= i -> w_ind g' i = w_ind g i /\ w_dist g' i = w_dist g i).
  Proof.
    intros start stop g' Hle. unfold g', update_row. fold start stop.
    destruct (compact_loop comps point start (seq start (stop - start)) 0 g) as [c' g1] eqn:Ec.
    apply compact_loop_ok in Ec as (H1 & H2 & H3 & H4); [|lia].
    rewrite Nat.add_0_r in H3, H4.
    set (K := filter (crosses comps point) (rview g (seq start (stop - start)))) in *.
    assert (HK : length K <= stop - start).
    { unfold K. rewrite <- countp_filter. eapply Nat.le_trans; [apply countp_le|].
      eapply Nat.le_trans; [apply rview_length|]. now rewrite seq_length. }
    simpl in H1. cbn [w_len w_ind w_dist]. split; auto. split.
    - apply rview_list.
      + lia.
      + intros j x Hj. cbn [w_ind w_dist].
        assert (j < length K) by (apply nth_error_Some; congruence).
        rewrite (proj2 (Nat.leb_gt (start + c') (start + j))) by lia. simpl. now apply H4.
      + intro Hlt. cbn [w_ind]. rewrite (proj2 (Nat.leb_le _ _)) by lia.
        rewrite (proj2 (Nat.ltb_lt _ _)) by lia. reflexivity.
    - intros i Hi. destruct (H3 i) as [P1 P2]; [lia|].
      assert (E : (start + c' <=? i) && (i <? stop) = false).
      { destruct Hi as [Hi|Hi].
        - rewrite (proj2 (Nat.leb_gt _ _)) by lia. reflexivity.
        - rewrite (proj2 (Nat.ltb_ge _ _)) by lia. apply andb_false_r. }
      rewrite E. auto.
  Qed.

  Variable indptr : list nat.
  Variable n : nat.
  Hypothesis mono : forall i, i < n -> nth i indptr 0 <= nth (S i) indptr 0.

  Lemma indptr_mono i j : i <= j -> j <= n -> nth i indptr 0 <= nth j indptr 0.
  Proof.
    intros Hij Hj. induction j as [|j IH].
    - assert (i = 0) as -> by lia. auto.
    - destruct (Nat.eq_dec i (S j)) as [->|Hne]; auto.
      specialize (mono j ltac:(lia)). specialize (IH ltac:(lia) ltac:(lia)). lia.
  Qed.

  Definition row_view g i : list (nat * W) :=
    rview g (seq (nth i indptr 0) (nth (S i) indptr 0 - nth i indptr 0)).

  Lemma update_rows_ok comps : forall points g,
    NoDup points -> (forall p, In p points -> p < n) ->
    let g' := fold_left (update_row indptr comps) points g in
    w_len g' = w_len g /\
    (forall i, i < n -> row_view g' i =
       if in_dec Nat.eq_dec i points then filter (crosses comps i) (row_view g i) else row_view g i).
  Proof.
    induction points as [|p points IH]; intros g Hn Hp; simpl.
    - split; auto.
    - inversion_clear Hn as [|? ? Hx Hn'].
      assert (Hpn : p < n) by (apply Hp; left; auto).
      destruct (update_row_ok indptr comps g p (mono p Hpn)) as (H1 & H2 & H3).
      destruct (IH (update_row indptr comps g p)) as [K1 K2]; auto.
      { intros q Hq. apply Hp. right. auto. }
      split; [congruence|]. intros i Hi. rewrite K2 by auto.
      assert (Hother : i <> p -> row_view (update_row indptr comps g p) i = row_view g i).
      { intro Hne. unfold row_view. apply rview_ext. intros j Hj. apply in_seq in Hj. apply H3.
        pose proof (mono i Hi). destruct (Nat.lt_ge_cases i p) as [Hlt|Hge].
        - left. pose proof (indptr_mono (S i) p ltac:(lia) ltac:(lia)). lia.
        - right. pose proof (indptr_mono (S p) i ltac:(lia) ltac:(lia)). lia. }
      destruct (in_dec Nat.eq_dec i points) as [Hin|Hin].
      + assert (i <> p) by (intros ->; auto). rewrite Hother by auto.
        destruct (Nat.eq_dec p i); [congruence|]. reflexivity.
      + destruct (Nat.eq_dec p i) as [->|Hne]; [exact H2|]. rewrite Hother by auto. reflexivity.
  Qed.

  Lemma update_graph_ok comps g : length comps = n ->
    let g' := update_graph_components indptr comps g in
    w_len g' = w_len g /\
    forall i, i < n -> row_view g' i = filter (crosses comps i) (row_view g i).
  Proof.
    intros HL. unfold update_graph_components. rewrite HL.
    destruct (update_rows_ok comps (seq 0 n) g) as [H1 H2].
    - apply seq_NoDup.
    - intros p Hp. apply in_seq in Hp. lia.
    - split; auto. intros i Hi. rewrite H2 by auto.
      destruct (in_dec Nat.eq_dec i (seq 0 n)) as [_|Hn]; auto.
      exfalso. apply Hn, in_seq. lia.
  Qed.
End Rows.
