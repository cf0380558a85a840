(** The branch threshold. *)
From Coq Require Import List Arith Lia Bool ZArith.
From Verif Require Import Prelude M_LayerTree S_LayerTree P_LayerTree M_SubClusters S_SubClusters P_SubClusters P_PropagateTop.
Import ListNotations.
Local Open Scope nat_scope.

Section Branch.
  Context {P : Type}.
  Variables (count : nat) (branch : nat -> Z) (cluster_probabilities : nat -> P).

  Definition merged (c : list nat * bool) : bool := (count_of (map branch (fst c)) <=? Z.of_nat count)%Z && snd c.
  Definition branch_width (c : list nat * bool) : Z := if merged c then 1%Z else width (map branch (fst c)).
  Definition branch_loc (c : list nat * bool) (x : nat) : Z := if merged c then 0%Z else (branch x + flag_of (map branch (fst c)))%Z.

  Lemma branch_loop_ok clusters : separate (map fst clusters) -> (forall c, In c clusters -> gap_free (map branch (fst c))) ->
    forall r labels probs, exists labels' probs', branch_loop count clusters branch cluster_probabilities r labels probs = Ok (labels', probs') /\
      (forall x, ~ In x (concat (map fst clusters)) -> labels' x = labels x /\ probs' x = probs x) /\
      (forall k c x, nth_error clusters k = Some c -> In x (fst c) ->
         labels' x = (branch_loc c x + start r (map branch_width clusters) k)%Z /\
         probs' x = if merged c then cluster_probabilities x else probs x).
  Proof.
    induction clusters as [|[pts tree] clusters IH]; intros [HN Hne] HG r labels probs; cbn [branch_loop].
    - exists labels, probs. split; [reflexivity|]. split; [auto|]. intros [|k] c x H; discriminate H.
    - cbn [map concat fst] in *. destruct (nodup_parts _ _ HN) as (HNp & HNr & Hdis).
      pose proof (HG _ (or_introl eq_refl)) as Hg. cbn [fst] in Hg.
      assert (Hls : map branch pts <> []) by (destruct pts; [exfalso; apply Hne; now left|discriminate]).
      rewrite (gap_free_flag _ Hg Hls). cbn [bind]. fold (width (map branch pts)). change (width (map branch pts) - flag_of (map branch pts))%Z with (count_of (map branch pts)).
      assert (Hrest : separate (map fst clusters)) by (split; [auto|intro; apply Hne; now right]).
      assert (HG' : forall c, In c clusters -> gap_free (map branch (fst c))) by (intros; apply HG; now right).
      destruct ((count_of (map branch pts) <=? Z.of_nat count)%Z && tree) eqn:Em.
      + destruct (put_map labels pts (fun _ => r) HNp) as (lab1 & El & OL & IL). rewrite El. cbn [bind].
        destruct (put_map probs pts cluster_probabilities HNp) as (pr1 & Ep & OP & IP). rewrite Ep. cbn [bind].
        destruct (IH Hrest HG' (r + 1)%Z lab1 pr1) as (lab' & pr' & E' & O' & I'). exists lab', pr'. split; auto. split.
        * intros x Hx. rewrite in_app_iff in Hx. destruct (O' x) as [-> ->]; [tauto|]. split; [apply OL|apply OP]; tauto.
        * intros [|k] c x Hk Hx.
          -- injection Hk as <-. unfold branch_loc, merged. cbn [fst snd start] in *. rewrite Em. destruct (O' x (Hdis x Hx)) as [-> ->]. rewrite IL, IP by auto. split; [lia|auto].
          -- cbn [nth_error] in Hk. cbn [start]. destruct (I' k c x Hk Hx) as [-> ->]. split.
             ++ unfold branch_width at 2. unfold merged. cbn [fst snd]. rewrite Em. reflexivity.
             ++ destruct (merged c); auto. apply OP. intro Hp. apply (Hdis x Hp). apply in_concat. exists (fst c). split; auto. apply in_map. eapply nth_error_In; eauto.
      + destruct (put_map labels pts (fun x => branch x + flag_of (map branch pts) + r)%Z HNp) as (lab1 & El & OL & IL). rewrite El. cbn [bind].
        replace (r + (count_of (map branch pts) + flag_of (map branch pts)))%Z with (r + width (map branch pts))%Z by (unfold count_of; lia).
        destruct (IH Hrest HG' (r + width (map branch pts))%Z lab1 probs) as (lab' & pr' & E' & O' & I'). exists lab', pr'. split; auto. split.
        * intros x Hx. rewrite in_app_iff in Hx. destruct (O' x) as [-> ->]; [tauto|]. split; [apply OL; tauto|auto].
        * intros [|k] c x Hk Hx.
          -- injection Hk as <-. unfold branch_loc, merged. cbn [fst snd start] in *. rewrite Em. destruct (O' x (Hdis x Hx)) as [-> ->]. rewrite IL by auto. split; [lia|auto].
          -- cbn [nth_error] in Hk. cbn [start]. destruct (I' k c x Hk Hx) as [-> ->]. split; auto.
             unfold branch_width at 2. unfold merged. cbn [fst snd]. rewrite Em. reflexivity.
  Qed.

  Lemma few_iff pts : gap_free (map branch pts) -> pts <> [] -> ((count_of (map branch pts) <= Z.of_nat count)%Z <-> few_labels count branch pts).
  Proof.
    intros Hg Hne. assert (Hls : map branch pts <> []) by (destruct pts; [congruence|discriminate]).
    destruct (unique_gap_free _ Hg Hls) as (f & m & Ef & Ew & Hf & Hf1 & Hv).
    assert (Ec : count_of (map branch pts) = Z.of_nat m) by (unfold count_of, width, flag_of; rewrite Ef; lia). rewrite Ec. split.
    - intros Hm ls HN Hin. etransitivity; [|apply Nat2Z.inj_le; exact Hm]. replace m with (length (map Z.of_nat (seq 0 m))) by now rewrite map_length, seq_length.
      apply NoDup_incl_length; auto. intros l Hl. destruct (Hin l Hl) as [H1 H2]. apply Hv in H2. apply in_map_iff. exists (Z.to_nat l). rewrite in_seq. lia.
    - intro H. specialize (H (map Z.of_nat (seq 0 m))). rewrite map_length, seq_length in H. apply Nat2Z.inj_le. apply H.
      + apply FinFun.Injective_map_NoDup; [intros i j; lia|apply seq_NoDup].
      + intros l Hl. apply in_map_iff in Hl as (k & <- & Hk). apply in_seq in Hk. split; [lia|]. apply Hv. lia.
  Qed.

  (** Clusters stay apart; branches are told apart in clusters with enough of
      them. *)
  Lemma branches_ok clusters labels probs : separate (map fst clusters) -> (forall c, In c clusters -> gap_free (map branch (fst c))) ->
    exists labels' probs', branch_loop count clusters branch cluster_probabilities 0 labels probs = Ok (labels', probs') /\
      (forall x, ~ In x (concat (map fst clusters)) -> labels' x = labels x /\ probs' x = probs x) /\
      (forall c x, In c clusters -> In x (fst c) ->
         (snd c = true /\ few_labels count branch (fst c) -> probs' x = cluster_probabilities x) /\
         (~ (snd c = true /\ few_labels count branch (fst c)) -> probs' x = probs x)) /\
      refines (map fst clusters) (fun k x y => (exists c, nth_error clusters k = Some c /\ snd c = true /\ few_labels count branch (fst c)) \/ branch x = branch y) labels' /\
      consecutive (map fst clusters) labels'.
  Proof.
    intros HS HG. destruct (branch_loop_ok clusters HS HG 0%Z labels probs) as (lab' & pr' & E & HO & HI). exists lab', pr'. split; auto. split; auto.
    assert (Hmer : forall c, In c clusters -> (merged c = true <-> snd c = true /\ few_labels count branch (fst c))).
    { intros c Hc. unfold merged. rewrite andb_true_iff, Z.leb_le, few_iff; [tauto|auto|]. intro E0. destruct HS as [_ HS]. apply HS. apply in_map_iff. exists c. auto. }
    split.
    { intros c x Hc Hx. pose proof (Hmer c Hc) as Hm. apply In_nth_error in Hc as (k & Hk). destruct (HI k c x Hk Hx) as [_ ->]. destruct (merged c); split; intro H; auto.
      - exfalso. apply H, Hm. auto.
      - apply Hm in H. discriminate. }
    set (cl := map fst clusters). set (widths := map branch_width clusters).
    assert (Hlen : length widths = length cl) by (unfold widths, cl; now rewrite !map_length).
    assert (Hpos : forall w, In w widths -> (0 <= w)%Z) by (intros w Hw; apply in_map_iff in Hw as (c & <- & Hc); unfold branch_width, width; destruct (merged c); lia).
    set (loc := fun (k x : nat) => match nth_error clusters k with Some c => branch_loc c x | None => 0%Z end).
    assert (Hplace : forall k i x, at_place cl k i x -> exists c, nth_error clusters k = Some c /\ In c clusters /\ nth_error (fst c) i = Some x /\ nth k widths 0%Z = branch_width c).
    { intros k i x (pts & Hk & Hi). unfold cl in Hk. rewrite nth_error_map in Hk. destruct (nth_error clusters k) as [c|] eqn:Ek; [|discriminate]. injection Hk as <-.
      exists c. split; auto. split; [eapply nth_error_In; eauto|]. split; auto. apply nth_error_nth. unfold widths. rewrite nth_error_map, Ek. reflexivity. }
    assert (Hfacts : forall c, In c clusters -> exists f m, flag_of (map branch (fst c)) = f /\ width (map branch (fst c)) = (Z.of_nat m + f)%Z /\ forall v, In v (map branch (fst c)) <-> (- f <= v < Z.of_nat m)%Z).
    { intros c Hc. assert (Hls : map branch (fst c) <> []). { intro E0. apply map_eq_nil in E0. destruct HS as [_ HS]. apply HS. apply in_map_iff. exists c. auto. }
      destruct (unique_gap_free _ (HG c Hc) Hls) as (f & m & Ef & Ew & _ & _ & Hv). exists f, m. unfold flag_of, width. rewrite Ef. auto. }
    assert (Hloc : forall k i x, at_place cl k i x -> (0 <= loc k x < nth k widths 0)%Z /\ lab' x = (loc k x + start 0 widths k)%Z).
    { intros k i x Hp. destruct (Hplace k i x Hp) as (c & Hk & Hc & Hi & ->). assert (Hx : In x (fst c)) by (eapply nth_error_In; eauto).
      unfold loc. rewrite Hk. split; [|apply (HI k c x Hk Hx)]. unfold branch_loc, branch_width. destruct (merged c); [lia|].
      destruct (Hfacts c Hc) as (f & m & -> & -> & Hv). assert (H : In (branch x) (map branch (fst c))) by now apply in_map. apply Hv in H. lia. }
    assert (Hall : forall k v, k < length cl -> (0 <= v < nth k widths 0)%Z -> exists i x, at_place cl k i x /\ loc k x = v).
    { intros k v Hk Hv. unfold cl in Hk. rewrite map_length in Hk. destruct (nth_error clusters k) as [c|] eqn:Ek; [|apply nth_error_None in Ek; lia].
      pose proof (nth_error_In _ _ Ek) as Hc.
      assert (Ew : nth k widths 0%Z = branch_width c) by (apply nth_error_nth; unfold widths; rewrite nth_error_map, Ek; reflexivity). rewrite Ew in Hv.
      assert (Hat : forall i x, nth_error (fst c) i = Some x -> at_place cl k i x) by (intros i x Hi; exists (fst c); split; auto; unfold cl; rewrite nth_error_map, Ek; reflexivity).
      unfold loc. rewrite Ek. unfold branch_loc, branch_width in *. destruct (merged c).
      - destruct (fst c) as [|x0 l0] eqn:E0; [exfalso; destruct HS as [_ HS]; apply HS; apply in_map_iff; exists c; auto|]. exists 0, x0. split; [apply Hat; auto|lia].
      - destruct (Hfacts c Hc) as (f & m & Ef & Ewd & Hvs). assert (Hin : In (v - f)%Z (map branch (fst c))) by (apply Hvs; lia).
        apply in_map_iff in Hin as (x & Ex & Hx). apply In_nth_error in Hx as (i & Hi). exists i, x. split; [apply Hat; auto|lia]. }
    split; [|apply (blocks_consecutive cl widths loc lab' Hlen Hpos Hloc Hall)].
    pose proof (blocks_refine cl widths loc lab' Hlen Hpos Hloc) as HR. intros k i x k' i' x' H H'. rewrite (HR k i x k' i' x' H H').
    destruct (Hplace k i x H) as (c & Hk & Hc & _ & _). split; intros [<- Hs]; split; auto; unfold loc in *; rewrite Hk in *; unfold branch_loc in *; destruct (merged c) eqn:Em.
    - left. exists c. split; auto. apply Hmer; auto.
    - right. lia.
    - reflexivity.
    - destruct Hs as [(c' & E' & Hc')|Hs]; [|lia]. injection E' as <-. apply Hmer in Hc'; auto. congruence.
  Qed.
End Branch.
