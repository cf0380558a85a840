(** Propagation over all clusters, and the branch threshold. *)
From Coq Require Import List Arith Lia Bool ZArith Permutation Sorted Relations.
From Verif Require Import Prelude Order Graph M_Linkage M_Select M_Precomputed S_CoreGraph M_LayerTree S_LayerTree P_LayerTree M_Estimator P_Estimator
  M_SubClusters S_SubClusters P_SubClusters P_Propagate.
Import ListNotations.
Local Open Scope nat_scope.

Section Lead.
  Context {W N : WOrd} (nadd : N -> N -> N) (nzero : N) (E : list (edge W)) (v : nat -> nat -> N).
  Lemma lead_values n a b : in_range n E -> votes_lead nadd nzero E v a b -> forall x, x < n -> exists y, y < n /\ b x = a y.
  Proof.
    intro HR. induction 1 as [a b H|a b x l H1 H2 H3 IH]; intros z Hz.
    - exists z. auto.
    - destruct (IH z Hz) as (y & Hy & ->). destruct (Nat.eq_dec y x) as [->|Hne]; [|exists y; rewrite upd_neq; auto].
      rewrite upd_eq. destruct H2 as (_ & t & (ys & _ & Hys & Hne' & _) & _). destruct ys as [|q ys]; [congruence|].
      destruct (proj1 (Hys q) (or_introl eq_refl)) as [(w & Hw) <-]. exists q. split; auto.
      destruct Hw as [Hw|Hw]; apply HR in Hw; unfold esrc, edst in Hw; cbn in Hw; tauto.
  Qed.
End Lead.

Section Propagate.
  Context {W N : WOrd} (inv : W -> res N) (nadd : N -> N -> N) (nzero : N).

  Definition values (ls : list Z) : nat -> Z := fun i => nth i ls 0%Z.

  Lemma nth_map_seq (f : nat -> Z) n i : i < n -> nth i (map f (seq 0 n)) 0%Z = f i.
  Proof. intro H. rewrite nth_indep with (d' := f 0) by (rewrite map_length, seq_length; auto). rewrite map_nth, seq_nth by auto. reflexivity. Qed.

  Lemma propagate_one (g : csr W) ls v fuel : in_range (length ls) (csr_entries g) -> votes_are inv (csr_entries g) v ->
    reachable (csr_entries g) (length ls) (values ls) -> length ls <= fuel ->
    exists ls', propagate_labels_per_cluster inv nadd nzero fuel g ls = Ok ls' /\ length ls' = length ls /\
      votes_lead nadd nzero (csr_entries g) v (values ls) (values ls') /\
      (forall x, x < length ls -> values ls' x <> (-1)%Z /\ In (values ls' x) ls) /\
      (forall x, x < length ls -> values ls x <> (-1)%Z -> values ls' x = values ls x).
  Proof.
    intros HR Hv Hre Hf. unfold propagate_labels_per_cluster.
    destruct (undirected_ok inv nadd nzero (values ls) v g Hv) as (votes & Ev & HV). unfold values in Ev. rewrite Ev. cbn [bind].
    destruct (vote_loop_ok inv nadd nzero (values ls) (csr_entries g) v votes HV (length ls) HR fuel (values ls)) as (cur & Ec & L1 & L2 & L3); auto.
    { etransitivity; [|exact Hf]. rewrite <- (seq_length (length ls) 0) at 2. unfold noise. rewrite <- countp_filter. clear. induction (seq 0 (length ls)) as [|x l IH]; cbn; auto. destruct (_ =? _)%Z; lia. }
    unfold values in Ec. rewrite Ec. cbn [bind]. eexists. split; [reflexivity|].
    assert (Hlen : length (map cur (seq 0 (length ls))) = length ls) by now rewrite map_length, seq_length.
    assert (Hval : forall x, values (map cur (seq 0 (length ls))) x = cur x).
    { intro x. unfold values. destruct (lt_dec x (length ls)) as [Hx|Hx]; [now apply nth_map_seq|]. rewrite nth_overflow by lia. rewrite L3 by lia. unfold values. now rewrite nth_overflow by lia. }
    split; auto.
    assert (HL : votes_lead nadd nzero (csr_entries g) v (values ls) (values (map cur (seq 0 (length ls))))).
    { eapply lead_trans; [exact L1|]. apply vl_done. intro x. now rewrite Hval. }
    split; auto. split.
    - intros x Hx. split; [rewrite Hval; auto|]. destruct (lead_values nadd nzero (csr_entries g) v (length ls) _ _ HR HL x Hx) as (y & Hy & ->). apply nth_In. auto.
    - intros x Hx Hne. rewrite Hval. apply L3. auto.
  Qed.

  Lemma propagate_forever (g : csr W) ls v x : in_range (length ls) (csr_entries g) -> votes_are inv (csr_entries g) v ->
    x < length ls -> (forall y, connected (csr_entries g) x y -> values ls y = (-1)%Z) ->
    forall fuel, propagate_labels_per_cluster inv nadd nzero fuel g ls = Err OutOfFuel.
  Proof.
    intros HR Hv Hx Hall fuel. unfold propagate_labels_per_cluster.
    destruct (undirected_ok inv nadd nzero (values ls) v g Hv) as (votes & Ev & HV). unfold values in Ev. rewrite Ev. cbn [bind].
    pose proof (vote_loop_forever nadd nzero (values ls) (csr_entries g) v votes HV (length ls) x Hx fuel (values ls) (fun _ H => H) Hall) as E.
    unfold values in E. rewrite E. reflexivity.
  Qed.

  (** ** All clusters *)
  (** What propagation needs of a cluster with unlabelled samples. *)
  Definition good_graph (fuel : nat) (sub : nat -> Z) (c : list nat * csr W) : Prop :=
    let ls := map sub (fst c) in
    gap_free ls /\ (exists l, In l ls /\ l <> (-1)%Z) /\
    (In (-1)%Z ls -> in_range (length ls) (csr_entries (snd c)) /\ (exists v, votes_are inv (csr_entries (snd c)) v) /\
                     reachable (csr_entries (snd c)) (length ls) (values ls) /\ length ls <= fuel).

  Definition voted (sub sub' : nat -> Z) (c : list nat * csr W) : Prop :=
    (forall x, In x (fst c) -> sub' x <> (-1)%Z /\ In (sub' x) (map sub (fst c))) /\
    (forall x, In x (fst c) -> sub x <> (-1)%Z -> sub' x = sub x) /\
    (forall v, votes_are inv (csr_entries (snd c)) v -> votes_lead nadd nzero (csr_entries (snd c)) v (values (map sub (fst c))) (values (map sub' (fst c)))).

  (** The number of sub-clusters. *)
  Definition count_of (ls : list Z) : Z := (width ls - flag_of ls)%Z.

  Lemma propagate_loop_ok fuel clusters : separate (map fst clusters) ->
    forall r labels sub, (forall c, In c clusters -> good_graph fuel sub c) ->
    exists labels' sub', propagate_loop inv nadd nzero fuel clusters r labels sub = Ok (labels', sub') /\
      (forall x, ~ In x (concat (map fst clusters)) -> labels' x = labels x /\ sub' x = sub x) /\
      (forall c, In c clusters -> voted sub sub' c) /\
      (forall k c x, nth_error clusters k = Some c -> In x (fst c) ->
         labels' x = (sub' x + start r (map (fun c => count_of (map sub (fst c))) clusters) k)%Z).
  Proof.
    induction clusters as [|[pts g] clusters IH]; intros [HN Hne] r labels sub HG; cbn [propagate_loop].
    - exists labels, sub. split; [reflexivity|]. split; [auto|]. split; [intros c []|]. intros [|k] c x H; discriminate H.
    - cbn [map concat fst] in *. destruct (nodup_parts _ _ HN) as (HNp & HNr & Hdis).
      destruct (HG _ (or_introl eq_refl)) as (Hg & (l0 & Hl0 & Hl0') & Hnoise). cbn [fst snd] in *. set (ls := map sub pts) in *.
      assert (Hls : ls <> []) by (intro E0; rewrite E0 in Hl0; destruct Hl0).
      destruct (unique_gap_free ls Hg Hls) as (f & m & Ef & Ew & Hf & Hf1 & Hv).
      assert (Hm : (1 <= Z.of_nat m)%Z) by (apply Hv in Hl0; lia).
      assert (Efl : flag_of ls = f) by (unfold flag_of; now rewrite Ef).
      unfold noise_flag in Ef. apply bind_ok in Ef as (u & Eu & Ef). rewrite Eu. cbn [bind].
      assert (Ehas : ((u =? -1)%Z && (1 <? length (unique_Z ls)))%bool = (f =? 1)%Z).
      { injection Ef as Ef. destruct (Z.eqb_spec u (-1)); subst f; cbn [andb]; [|reflexivity]. apply Nat.ltb_lt. lia. }
      rewrite Ehas.
      assert (Hone : exists sub1, (if (f =? 1)%Z then let* new := propagate_labels_per_cluster inv nadd nzero fuel g ls in put sub pts new else Ok sub) = Ok sub1 /\
                 (forall x, ~ In x pts -> sub1 x = sub x) /\ voted sub sub1 (pts, g)).
      { destruct (Z.eqb_spec f 1) as [E1|E1].
        - destruct (Hnoise (proj1 Hf1 E1)) as (HR & (v & Hvo) & Hre & Hfu). destruct (propagate_one g ls v fuel HR Hvo Hre Hfu) as (ls' & E & Hlen & _ & P1 & P2).
          rewrite E. cbn [bind]. assert (Hlp : length pts = length ls) by (unfold ls; now rewrite map_length).
          destruct (put_ok sub pts ls' ltac:(lia) HNp) as (sub1 & Ep & O1 & I1). exists sub1. split; auto. split; auto.
          assert (Hvals : forall i x, nth_error pts i = Some x -> sub1 x = values ls' i /\ sub x = values ls i).
          { intros i x Hi. assert (i < length pts) by (apply nth_error_Some; congruence). split.
            - apply (I1 i x); auto. apply nth_error_nth'. lia.
            - unfold values. symmetry. apply nth_error_nth. unfold ls. rewrite nth_error_map, Hi. reflexivity. }
          split; [|split]; cbn [fst snd].
          + intros x Hx. apply In_nth_error in Hx as (i & Hi). destruct (Hvals i x Hi) as [-> _]. apply P1. rewrite <- Hlp. apply nth_error_Some. congruence.
          + intros x Hx. apply In_nth_error in Hx as (i & Hi). destruct (Hvals i x Hi) as [-> ->]. intro H. apply P2; auto. rewrite <- Hlp. apply nth_error_Some. congruence.
          + intros v' Hvo'. destruct (propagate_one g ls v' fuel HR Hvo' Hre Hfu) as (ls'' & E'' & _ & HL & _). rewrite E in E''. injection E'' as <-.
            replace (map sub1 pts) with ls'; auto. apply nth_ext with (d := 0%Z) (d' := 0%Z); [rewrite map_length; lia|]. intros i Hi.
            destruct (nth_error pts i) as [x|] eqn:Ei; [|apply nth_error_None in Ei; lia]. destruct (Hvals i x Ei) as [Hs _]. unfold values in Hs. rewrite <- Hs. symmetry.
            apply nth_error_nth. rewrite nth_error_map, Ei. reflexivity.
        - exists sub. split; auto. split; auto. assert (Hno : forall x, In x pts -> sub x <> (-1)%Z).
          { intros x Hx Hc. apply E1, Hf1. rewrite <- Hc. now apply in_map. }
          split; [|split]; cbn [fst snd]; auto. intros x Hx. split; auto. now apply in_map.
          intros v' _. apply vl_done. auto. }
      destruct Hone as (sub1 & Es & O1 & V1). fold ls. rewrite Es. cbn [bind].
      destruct (put_map labels pts (fun x => sub1 x + r)%Z HNp) as (lab1 & El & OL & IL). rewrite El. cbn [bind].
      assert (Hsame : forall c, In c clusters -> forall x, In x (fst c) -> sub1 x = sub x).
      { intros c Hc x Hx. apply O1. intro Hp. apply (Hdis x Hp). apply in_concat. exists (fst c). split; auto. now apply in_map. }
      assert (Hmaps : forall c, In c clusters -> map sub1 (fst c) = map sub (fst c)) by (intros c Hc; apply map_ext_in; intros x Hx; eauto).
      assert (Hw : (r + Z.of_nat (length (unique_Z ls)) - (if (f =? 1)%Z then 1 else 0) = r + count_of ls)%Z).
      { unfold count_of, width. rewrite Efl. destruct (Z.eqb_spec f 1); lia. }
      rewrite Hw.
      destruct (IH (conj HNr (fun H => Hne (or_intror H))) (r + count_of ls)%Z lab1 sub1) as (lab' & sub' & E' & O' & V' & I').
      { intros c Hc. unfold good_graph. rewrite (Hmaps c Hc). apply HG. now right. }
      exists lab', sub'. split; auto. split; [|split].
      + intros x Hx. rewrite in_app_iff in Hx. destruct (O' x) as [-> ->]; [tauto|]. split; [apply OL; tauto|apply O1; tauto].
      + intros c [<-|Hc].
        * assert (Hs : forall x, In x pts -> sub' x = sub1 x) by (intros x Hx; apply (O' x); auto).
          destruct V1 as (A & B & C). cbn [fst snd] in *. split; [|split]; cbn [fst snd].
          -- intros x Hx. rewrite Hs; auto.
          -- intros x Hx. rewrite Hs; auto.
          -- intros v' Hv'. replace (map sub' pts) with (map sub1 pts) by (apply map_ext_in; intros; symmetry; auto). auto.
        * destruct (V' c Hc) as (A & B & C). unfold voted. rewrite (Hmaps c Hc) in A, C. split; [auto|split]; auto.
          intros x Hx Hn. rewrite <- (Hsame c Hc x Hx). apply B; auto. rewrite (Hsame c Hc x Hx). auto.
      + intros [|k] c x Hk Hx.
        * injection Hk as <-. cbn [fst start] in *. destruct (O' x (Hdis x Hx)) as [-> ->]. apply IL. auto.
        * cbn [nth_error] in Hk. cbn [start]. rewrite (I' k c x Hk Hx). fold ls. f_equal. f_equal.
          apply map_ext_in. intros c' Hc'. now rewrite (Hmaps c' Hc').
  Qed.

  (** The labels after propagation. *)
  Lemma propagate_ok fuel clusters labels sub : separate (map fst clusters) -> (forall c, In c clusters -> good_graph fuel sub c) ->
    exists labels' sub', propagate_sub_cluster_labels inv nadd nzero fuel labels sub clusters = Ok (labels', sub') /\
      (forall x, ~ In x (concat (map fst clusters)) -> labels' x = labels x /\ sub' x = sub x) /\
      (forall c, In c clusters -> voted sub sub' c) /\
      refines (map fst clusters) (fun _ x y => sub' x = sub' y) labels' /\ consecutive (map fst clusters) labels'.
  Proof.
    intros HS HG. destruct (propagate_loop_ok fuel clusters HS 0%Z labels sub HG) as (labels' & sub' & E & HO & HV & HI).
    exists labels', sub'. split; [exact E|]. split; auto. split; auto.
    set (cl := map fst clusters). set (widths := map (fun c => count_of (map sub (fst c))) clusters).
    assert (Hlen : length widths = length cl) by (unfold widths, cl; now rewrite !map_length).
    assert (Hrange : forall c, In c clusters -> exists m : nat, count_of (map sub (fst c)) = Z.of_nat m /\ forall v, (In v (map sub (fst c)) /\ v <> (-1)%Z) <-> (0 <= v < Z.of_nat m)%Z).
    { intros c Hc. destruct (HG c Hc) as (Hg & (l0 & Hl0 & _) & _). assert (Hne : map sub (fst c) <> []) by (intro E0; rewrite E0 in Hl0; destruct Hl0).
      destruct (unique_gap_free _ Hg Hne) as (f & m & Ef & Ew & Hf & Hf1 & Hv). exists m. split.
      - unfold count_of, width, flag_of. rewrite Ef. lia.
      - intro v. rewrite Hv. lia. }
    assert (Hpos : forall w, In w widths -> (0 <= w)%Z) by (intros w Hw; apply in_map_iff in Hw as (c & <- & Hc); destruct (Hrange c Hc) as (m & -> & _); lia).
    assert (Hplace : forall k i x, at_place cl k i x -> exists c, nth_error clusters k = Some c /\ In c clusters /\ nth_error (fst c) i = Some x /\ nth k widths 0%Z = count_of (map sub (fst c))).
    { intros k i x (pts & Hk & Hi). unfold cl in Hk. rewrite nth_error_map in Hk. destruct (nth_error clusters k) as [c|] eqn:Ek; [|discriminate]. injection Hk as <-.
      exists c. split; auto. split; [eapply nth_error_In; eauto|]. split; auto. apply nth_error_nth. unfold widths. rewrite nth_error_map, Ek. reflexivity. }
    assert (Hloc : forall k i x, at_place cl k i x -> (0 <= sub' x < nth k widths 0)%Z /\ labels' x = (sub' x + start 0 widths k)%Z).
    { intros k i x Hp. destruct (Hplace k i x Hp) as (c & Hk & Hc & Hi & ->). assert (Hx : In x (fst c)) by (eapply nth_error_In; eauto).
      split; [|apply (HI k c x Hk Hx)]. destruct (Hrange c Hc) as (m & -> & Hv). apply Hv. destruct (HV c Hc) as (A & _). destruct (A x Hx). auto. }
    assert (Hall : forall k v, k < length cl -> (0 <= v < nth k widths 0)%Z -> exists i x, at_place cl k i x /\ sub' x = v).
    { intros k v Hk Hv. unfold cl in Hk. rewrite map_length in Hk. destruct (nth_error clusters k) as [c|] eqn:Ek; [|apply nth_error_None in Ek; lia].
      pose proof (nth_error_In _ _ Ek) as Hc. destruct (Hrange c Hc) as (m & Em & Hvs).
      assert (Ew : nth k widths 0%Z = Z.of_nat m) by (rewrite <- Em; apply nth_error_nth; unfold widths; rewrite nth_error_map, Ek; reflexivity).
      rewrite Ew in Hv. destruct (proj2 (Hvs v) Hv) as [Hin Hvne]. apply in_map_iff in Hin as (x & Ex & Hx). destruct (HV c Hc) as (_ & B & _).
      destruct (In_nth_error _ _ Hx) as (i & Hi). exists i, x. split; [exists (fst c); split; auto; unfold cl; rewrite nth_error_map, Ek; reflexivity|].
      rewrite B; auto. congruence. }
    split; [apply (blocks_refine cl widths (fun _ => sub') labels' Hlen Hpos Hloc)|].
    apply (blocks_consecutive cl widths (fun _ => sub') labels' Hlen Hpos Hloc Hall).
  Qed.
End Propagate.
