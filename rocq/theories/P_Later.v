(** Propagating labels after the fit. *)
From Coq Require Import List Arith Bool ZArith Permutation Lia.
From Verif Require Import Prelude Order Graph Size Num M_Precomputed M_Condense M_Estimator M_LayerTree S_Estimator
  M_SubClusters M_LensGraph M_Detector S_Detector P_Estimator P_LayerTree P_SubRun P_Detector.
Import ListNotations.
Local Open Scope nat_scope.

Section Rename.
  Variables (D : nat -> Prop) (pos : nat -> nat).
  Hypothesis Hinj : forall i j, D i -> D j -> pos i = pos j -> i = j.

  Lemma assign_rename {A} (idx : list nat) : (forall i, In i idx -> D i) -> forall (a a' : nat -> A) vals i, D i -> a' (pos i) = a i ->
    assign_at a' (map pos idx) vals (pos i) = assign_at a idx vals i.
  Proof.
    induction idx as [|x idx IH]; intros Hd a a' [|v vals] i Hi E; cbn [map assign_at]; auto. apply IH; auto; [intros j Hj; apply Hd; now right|].
    unfold upd. destruct (Nat.eqb_spec i x) as [->|N]; [now rewrite Nat.eqb_refl|]. destruct (Nat.eqb_spec (pos i) (pos x)) as [E'|_]; auto.
    exfalso. apply N. apply Hinj; auto. apply Hd. now left.
  Qed.
  Lemma assign_over {A} (idx : list nat) : forall (a b : nat -> A) vals i, length vals = length idx -> In i idx -> assign_at a idx vals i = assign_at b idx vals i.
  Proof.
    induction idx as [|x idx IH]; intros a b [|v vals] i Hl Hi; try discriminate; [destruct Hi|]. cbn [assign_at].
    destruct (in_dec Nat.eq_dec i idx) as [H|H]; [apply IH; auto|]. rewrite !assign_out by auto. destruct Hi as [->|Hi]; [|contradiction].
    unfold upd. now rewrite Nat.eqb_refl.
  Qed.
  Lemma assign_outside {A} (idx : list nat) (a : nat -> A) vals p : (forall i, In i idx -> pos i <> p) -> assign_at a (map pos idx) vals p = a p.
  Proof. intro H. apply assign_out. intro Hp. apply in_map_iff in Hp as (i & E & Hi). now apply (H i). Qed.

  Definition ren {B} (c : list nat * B) : list nat * B := (map pos (fst c), snd c).

  (** [f'] and [f] agree on the samples of [xs]; elsewhere they are as before. *)
  Definition moved (xs : list nat) (f f' g g' : nat -> Z) : Prop :=
    (forall i, In i xs -> g' (pos i) = g i) /\ (forall i, ~ In i xs -> g i = f i) /\
    (forall p, (forall i, In i xs -> pos i <> p) -> g' p = f' p).

  Section Propagate.
    Context {W N : WOrd} (inv : W -> res N) (nadd : N -> N -> N) (nzero : N) (fuel : nat).
    Notation loop := (propagate_loop inv nadd nzero fuel).

    Lemma propagate_rename clusters : (forall c, In c clusters -> forall i, In i (fst c) -> D i) -> forall rid l s l' s',
      (forall i, D i -> s' (pos i) = s i) ->
      match loop clusters rid l s with
      | Ok (l1, s1) => exists l1' s1', loop (map ren clusters) rid l' s' = Ok (l1', s1') /\
          (forall i, D i -> s1' (pos i) = s1 i) /\ (forall p, (forall i, D i -> pos i <> p) -> s1' p = s' p) /\
          moved (concat (map fst clusters)) l l' l1 l1'
      | Err e => loop (map ren clusters) rid l' s' = Err e
      end.
    Proof.
      induction clusters as [|[pts g] cl IH]; intros Hd rid l s l' s' Hs; cbn [propagate_loop map ren fst snd].
      - exists l', s'. split; auto. split; auto. split; auto. split; [intros i []|]. split; auto.
      - assert (Hp : forall i, In i pts -> D i) by (intros i Hi; apply (Hd (pts, g)); auto; now left).
        assert (Em : map s' (map pos pts) = map s pts) by (rewrite map_map; apply map_ext_in; intros i Hi; auto).
        rewrite Em. destruct (first_unique (unique_Z (map s pts))) as [u|]; cbn [bind]; [|reflexivity].
        set (noise := ((u =? -1)%Z && (1 <? length (unique_Z (map s pts))))).
        set (step := fun (t : nat -> Z) q => if noise then let* new := propagate_labels_per_cluster inv nadd nzero fuel g (map s pts) in put t q new else Ok t).
        change (match (let* sub := step s pts in let* labels := put l pts (map (fun x => (sub x + rid)%Z) pts) in
                         loop cl (rid + Z.of_nat (length (unique_Z (map s pts))) - (if noise then 1 else 0))%Z labels sub) with
                | Ok (l1, s1) => exists l1' s1', (let* sub := step s' (map pos pts) in
                    let* labels := put l' (map pos pts) (map (fun x => (sub x + rid)%Z) (map pos pts)) in
                    loop (map ren cl) (rid + Z.of_nat (length (unique_Z (map s pts))) - (if noise then 1 else 0))%Z labels sub) = Ok (l1', s1') /\
                    (forall i, D i -> s1' (pos i) = s1 i) /\ (forall p, (forall i, D i -> pos i <> p) -> s1' p = s' p) /\
                    moved (concat (map fst ((pts, g) :: cl))) l l' l1 l1'
                | Err e => (let* sub := step s' (map pos pts) in
                    let* labels := put l' (map pos pts) (map (fun x => (sub x + rid)%Z) (map pos pts)) in
                    loop (map ren cl) (rid + Z.of_nat (length (unique_Z (map s pts))) - (if noise then 1 else 0))%Z labels sub) = Err e
                end).
        assert (HS : match step s pts with
                     | Ok s1 => exists s1', step s' (map pos pts) = Ok s1' /\ (forall i, D i -> s1' (pos i) = s1 i) /\
                                  (forall p, (forall i, D i -> pos i <> p) -> s1' p = s' p)
                     | Err e => step s' (map pos pts) = Err e
                     end).
        { unfold step. destruct noise; [|eauto]. destruct (propagate_labels_per_cluster _ _ _ _ _ _) as [new|]; cbn [bind]; [|reflexivity].
          unfold put. rewrite map_length. destruct (length pts =? length new); [|reflexivity]. eexists. split; [reflexivity|]. split.
          - intros i Hi. apply assign_rename; auto.
          - intros p Hp'. apply assign_outside. auto. }
        clearbody step noise. destruct (step s pts) as [s1|]; cbn [bind]; [|rewrite HS; reflexivity]. destruct HS as (s1' & -> & HS1 & HS2). cbn [bind].
        unfold put. rewrite !map_length, Nat.eqb_refl. cbn [bind].
        assert (Em' : map (fun x => (s1' x + rid)%Z) (map pos pts) = map (fun x => (s1 x + rid)%Z) pts)
          by (rewrite map_map; apply map_ext_in; intros i Hi; now rewrite HS1 by auto).
        rewrite Em'. set (vals := map (fun x => (s1 x + rid)%Z) pts).
        specialize (IH (fun c Hc => Hd c (or_intror Hc)) (rid + Z.of_nat (length (unique_Z (map s pts))) - (if noise then 1 else 0))%Z
                       (assign_at l pts vals) s1 (assign_at l' (map pos pts) vals) s1' HS1).
        destruct (loop cl _ (assign_at l pts vals) s1) as [[l2 s2]|]; [|exact IH]. destruct IH as (l2' & s2' & -> & I1 & I2 & I3 & I4 & I5).
        exists l2', s2'. split; auto. split; auto. split; [intros p Hp'; rewrite I2 by auto; auto|]. cbn [map fst concat].
        assert (Hdc : forall i, In i (concat (map fst cl)) -> D i).
        { intros i Hi. apply in_concat in Hi as (q & Hq & Hi). apply in_map_iff in Hq as (c & <- & Hc). apply (Hd c); auto. now right. }
        split; [|split].
        + intros i Hi. apply in_app_or in Hi. destruct (in_dec Nat.eq_dec i (concat (map fst cl))) as [Hc|Hc]; [auto|]. destruct Hi as [Hi|]; [|contradiction].
          rewrite I4 by auto. rewrite I5.
          * rewrite (assign_over (map pos pts) l' (fun p => l' p) vals (pos i)) by (unfold vals; rewrite ?map_length; auto; now apply in_map).
            transitivity (assign_at (fun p => if p =? pos i then l i else l' p) (map pos pts) vals (pos i)).
            { apply assign_over; [unfold vals; now rewrite !map_length|now apply in_map]. }
            apply assign_rename; auto. now rewrite Nat.eqb_refl.
          * intros j Hj E. apply Hinj in E; auto. subst. contradiction.
        + intros i Hi. rewrite I4 by (intro; apply Hi; apply in_or_app; auto). apply assign_out. intro. apply Hi. apply in_or_app. auto.
        + intros p Hp'. rewrite I5 by (intros i Hi; apply Hp'; apply in_or_app; auto). apply assign_outside. intros i Hi. apply Hp'. apply in_or_app. auto.
    Qed.
  End Propagate.
End Rename.

Lemma nth_map_seq' {A} (f : nat -> A) n i d : i < n -> nth i (map f (seq 0 n)) d = f i.
Proof. intro H. rewrite (nth_indep _ d (f 0)) by (rewrite map_length, seq_length; auto). rewrite map_nth, seq_nth; auto. Qed.
Lemma combine_maps {A B C} (f : A -> B) (g : A -> C) l : combine (map f l) (map g l) = map (fun x => (f x, g x)) l.
Proof. induction l; simpl; congruence. Qed.
Lemma combine_ren {B} pos (ps : list (list nat)) (bs : list B) : combine (map (map pos) ps) bs = map (ren pos) (combine ps bs).
Proof. revert bs. induction ps as [|p ps IH]; intros [|b bs]; simpl; auto. now rewrite IH. Qed.
Lemma gather_ok {A} (a : list A) idx : (forall p, In p idx -> p < length a) -> exists a0, gather a idx = Ok a0.
Proof.
  induction idx as [|p idx IH]; intro H; cbn [gather]; [eauto|]. destruct (nth_error a p) as [x|] eqn:E.
  - destruct IH as (a0 & ->); [intros q Hq; apply H; now right|]. cbn [bind]. eauto.
  - apply nth_error_None in E. specialize (H p (or_introl eq_refl)). lia.
Qed.

Section Later.
  Context {W V N : WOrd} {Sz : SOrd} {Row : Type}.
  Variables (round : W -> W) (sort_row : list (nat * W) -> list (nat * W)) (average : V -> V -> V) (zero one : V) (no_lens : W)
    (cluster_of : list (edge W) -> res (list Z * list V))
    (inv : W -> res N) (nadd : N -> N -> N) (nzero : N) (fuel : nat).
  Notation prop := (propagated (W := W) (V := V) inv nadd nzero fuel).
  Notation later := (propagated_labels (W := W) (V := V) inv nadd nzero fuel).
  Notation detect_rows := (detect_rows (Row := Row) round sort_row average zero one no_lens cluster_of prop).
  Notation detect := (detect (Sz := Sz) (Row := Row) round sort_row average zero one no_lens cluster_of prop).

  Lemma later_rows data labels probs neighbors mst lens : length labels = length data ->
    detect_rows true data labels probs neighbors mst lens =
    let* d := detect_rows false data labels probs neighbors mst lens in let* ls := later d in Ok (with_labels d ls).
  Proof.
    intro Hl. unfold M_Detector.detect_rows. destruct (num_clusters labels); [|reflexivity]. destruct (check_endpoints labels mst); [|reflexivity]. cbn [bind].
    destruct (find_sub_clusters _ _ _ _ _ _ _ _ _ _ _ _) as [[s cs]|] eqn:EF; [|reflexivity]. cbn [bind maybe_propagate fst snd].
    unfold propagated, propagated_labels, propagate_sub_cluster_labels. cbn [d_labels d_sub d_points d_parts fst snd].
    rewrite map_map, combine_maps. set (cl := map (fun c => (fst c, sr_graph (snd c))) cs). rewrite map_length, seq_length. set (n := length data).
    assert (Hpt : forall c, In c cl -> forall i, In i (fst c) -> i < n).
    { intros c Hc i Hi. unfold find_sub_clusters in EF. destruct (sub_clusters_per_cluster _ _ _ _ _ _ _ _) as [rs|]; [|discriminate]. cbn [bind] in EF.
      destruct (update_labels _ _ _ _ _); [|discriminate]. cbn [bind] in EF. injection EF as <- <-. unfold cl in Hc. rewrite map_map in Hc.
      apply in_map_iff in Hc as (kr & <- & _). cbn [fst] in Hi. apply filter_In in Hi as [Hi _]. apply in_seq in Hi. unfold n. lia. }
    pose proof (propagate_rename (fun i => i < n) (fun i => i) (fun i j _ _ E => E) inv nadd nzero fuel cl Hpt 0%Z (j_labels s) (j_sub s)
                  (fun x => nth x (map (j_labels s) (seq 0 n)) (-1)%Z) (fun x => nth x (map (j_sub s) (seq 0 n)) 0%Z)
                  (fun i Hi => nth_map_seq' (j_sub s) n i 0%Z Hi)) as H.
    assert (Er : map (ren (fun i => i)) cl = cl).
    { rewrite <- (map_id cl) at 2. apply map_ext. intros [p g]. unfold ren. cbn [fst snd]. now rewrite map_id. }
    rewrite Er in H. destruct (propagate_loop inv nadd nzero fuel cl 0 (j_labels s) (j_sub s)) as [[l1 s1]|].
    - destruct H as (l1' & s1' & E & H1 & _ & H2 & H3 & H4). rewrite E. cbn [bind fst snd].
      assert (E1 : map l1 (seq 0 n) = map l1' (seq 0 n)).
      { apply map_ext_in. intros i Hi. apply in_seq in Hi. destruct (in_dec Nat.eq_dec i (concat (map fst cl))) as [Hc|Hc]; [symmetry; auto|].
        rewrite H3 by auto. rewrite H4 by (intros j Hj; intro; now subst). symmetry. apply nth_map_seq'. lia. }
      assert (E2 : map s1 (seq 0 n) = map s1' (seq 0 n)).
      { apply map_ext_in. intros i Hi. apply in_seq in Hi. symmetry. apply H1. lia. }
      rewrite E1, E2. reflexivity.
    - rewrite H. reflexivity.
  Qed.

  Lemma nth_of {A} (a a0 : list A) p i d : nth_error a p = nth_error a0 i -> nth p a d = nth i a0 d.
  Proof. intro H. destruct (nth_error a0 i) as [x|] eqn:E; [rewrite (nth_error_nth _ _ d H), (nth_error_nth _ _ d E); auto|].
    apply nth_error_None in H, E. now rewrite !nth_overflow by auto. Qed.
  Lemma list_ext_nth {A} (a b : list A) : length a = length b -> (forall p, p < length a -> nth_error a p = nth_error b p) -> a = b.
  Proof.
    revert b. induction a as [|x a IH]; intros [|y b] Hl H; try discriminate; auto. f_equal.
    - specialize (H 0 ltac:(simpl; lia)). now injection H.
    - apply IH; [now injection Hl|]. intros p Hp. exact (H (S p) ltac:(simpl; lia)).
  Qed.
  Lemma map_seq_nth {A} (f : nat -> A) n p : p < n -> nth_error (map f (seq 0 n)) p = Some (f p).
  Proof. intro H. rewrite nth_error_map, (nth_error_nth' _ 0) by now rewrite seq_length. now rewrite seq_nth. Qed.

  Section Remap.
    Variables (F : list nat) (n : nat).
    Hypothesis HN : NoDup F.
    Hypothesis HF : forall p, In p F -> p < n.
    Notation m := (length F).
    Notation pos := (fun i => nth i F 0).
    Notation remap := (remap_results zero one no_lens).

    Definition fits (d : detected W V) : Prop :=
      length (d_labels d) = m /\ length (d_probs d) = m /\ length (d_cluster d) = m /\ length (d_cluster_probs d) = m /\
      length (d_sub d) = m /\ length (d_sub_probs d) = m /\ length (d_lens d) = m /\
      (forall pts p, In pts (d_points d) -> In p pts -> p < m).

    Lemma remap_facts d : fits d -> exists d', remap d F n = Ok d' /\
      scatter n (-1)%Z F (d_labels d) = Ok (d_labels d') /\ scatter n 0%Z F (d_sub d) = Ok (d_sub d') /\
      d_points d' = map (map pos) (d_points d) /\ d_parts d' = d_parts d /\
      forall ls, length (fst ls) = m -> length (snd ls) = m -> remap (with_labels d ls) F n =
        let* a := scatter n (-1)%Z F (fst ls) in let* b := scatter n 0%Z F (snd ls) in Ok (with_labels d' (a, b)).
    Proof.
      intros (L1 & L2 & L3 & L4 & L5 & L6 & L7 & L8). unfold remap_results.
      destruct (scatter_ok n (-1)%Z F (d_labels d) (eq_sym L1) HN HF) as (a1 & -> & _).
      destruct (scatter_ok n zero F (d_probs d) (eq_sym L2) HN HF) as (a2 & E2 & _).
      destruct (scatter_ok n (-1)%Z F (d_cluster d) (eq_sym L3) HN HF) as (a3 & E3 & _).
      destruct (scatter_ok n zero F (d_cluster_probs d) (eq_sym L4) HN HF) as (a4 & E4 & _).
      destruct (scatter_ok n 0%Z F (d_sub d) (eq_sym L5) HN HF) as (a5 & -> & _).
      destruct (scatter_ok n one F (d_sub_probs d) (eq_sym L6) HN HF) as (a6 & E6 & _).
      destruct (scatter_ok n no_lens F (d_lens d) (eq_sym L7) HN HF) as (a7 & E7 & _).
      rewrite E2, E3, E4, E6, E7. cbn [bind]. eexists. split; [reflexivity|]. cbn [d_labels d_sub d_points d_parts]. repeat (split; [reflexivity|]).
      intros ls H1 H2. cbn [with_labels d_labels d_probs d_cluster d_cluster_probs d_sub d_sub_probs d_lens d_points d_parts].
      destruct (scatter_ok n (-1)%Z F (fst ls) (eq_sym H1) HN HF) as (b1 & -> & _). destruct (scatter_ok n 0%Z F (snd ls) (eq_sym H2) HN HF) as (b2 & -> & _).
      cbn [bind]. rewrite E2, E3, E4, E6, E7. reflexivity.
    Qed.

    Lemma later_remap d : fits d ->
      (let* r := (let* ls := later d in Ok (with_labels d ls)) in remap r F n) =
      (let* d' := remap d F n in let* ls := later d' in Ok (with_labels d' ls)).
    Proof.
      intro Hfit. destruct (remap_facts d Hfit) as (d' & -> & E1 & E2 & E3 & E4 & H). cbn [bind]. destruct Hfit as (L1 & _ & _ & _ & L5 & _ & _ & L8).
      destruct (scatter_ok n (-1)%Z F (d_labels d) (eq_sym L1) HN HF) as (a1 & E1' & A1 & A2 & A3). rewrite E1 in E1'. injection E1' as E1'. rewrite <- E1' in *. clear a1 E1'.
      destruct (scatter_ok n 0%Z F (d_sub d) (eq_sym L5) HN HF) as (a5 & E5' & B1 & B2 & B3). rewrite E2 in E5'. injection E5' as E5'. rewrite <- E5' in *. clear a5 E5'.
      unfold propagated_labels, propagate_sub_cluster_labels. rewrite E3, E4, combine_ren, A1, L1. set (cl := combine (d_points d) (map sr_graph (d_parts d))).
      assert (Hinj : forall i j, i < m -> j < m -> pos i = pos j -> i = j) by (intros i j Hi Hj E; now apply (proj1 (NoDup_nth F 0) HN)).
      assert (Hpt : forall c, In c cl -> forall i, In i (fst c) -> i < m).
      { intros [pts g] Hc i Hi. apply in_combine_l in Hc. eauto. }
      pose proof (propagate_rename (fun i => i < m) pos Hinj inv nadd nzero fuel cl Hpt 0%Z (fun x => nth x (d_labels d) (-1)%Z) (fun x => nth x (d_sub d) 0%Z)
                    (fun x => nth x (d_labels d') (-1)%Z) (fun x => nth x (d_sub d') 0%Z) (fun i Hi => nth_of _ _ _ _ _ (B2 i Hi))) as HR.
      destruct (propagate_loop inv nadd nzero fuel cl 0 _ _) as [[l1 s1]|]; [|rewrite HR; reflexivity]. destruct HR as (l1' & s1' & -> & H1 & H2 & H3 & H4 & H5). cbn [bind fst snd].
      rewrite H by (cbn [fst snd]; rewrite map_length, seq_length; auto). cbn [fst snd].
      destruct (scatter_ok n (-1)%Z F (map l1 (seq 0 m)) ltac:(now rewrite map_length, seq_length) HN HF) as (a & -> & C1 & C2 & C3). cbn [bind].
      destruct (scatter_ok n 0%Z F (map s1 (seq 0 m)) ltac:(now rewrite map_length, seq_length) HN HF) as (b & -> & D1 & D2 & D3). cbn [bind].
      assert (Hc : forall i, In i (concat (map fst cl)) -> i < m).
      { intros i Hi. apply in_concat in Hi as (q & Hq & Hi). apply in_map_iff in Hq as (c & <- & Hc). eauto. }
      assert (Hcase : forall p, p < n -> (exists i, i < m /\ pos i = p) \/ (~ In p F)).
      { intros p Hp. destruct (in_dec Nat.eq_dec p F) as [Hin|]; auto. left. apply In_nth_error in Hin as (i & Hi). exists i. split; [apply nth_error_Some; congruence|].
        now apply nth_error_nth. }
      assert (Ea : a = map l1' (seq 0 n)).
      { apply list_ext_nth; [now rewrite map_length, seq_length|]. rewrite C1. intros p Hp. rewrite map_seq_nth by auto.
        destruct (Hcase p Hp) as [(i & Hi & <-)|Hn].
        - rewrite C2, map_seq_nth by auto. f_equal. destruct (in_dec Nat.eq_dec i (concat (map fst cl))) as [Hin|Hin]; [symmetry; auto|].
          rewrite H4 by auto. rewrite H5; [symmetry; apply nth_of; auto|]. intros j Hj E. apply Hinj in E; auto. now subst.
        - rewrite C3 by auto. f_equal. rewrite H5; [symmetry; now apply nth_error_nth, A3|]. intros j Hj E. apply Hn. rewrite <- E. apply nth_In. auto. }
      assert (Eb : b = map s1' (seq 0 n)).
      { apply list_ext_nth; [now rewrite map_length, seq_length|]. rewrite D1. intros p Hp. rewrite map_seq_nth by auto.
        destruct (Hcase p Hp) as [(i & Hi & <-)|Hn].
        - rewrite D2, map_seq_nth by auto. f_equal. symmetry. auto.
        - rewrite D3 by auto. f_equal. rewrite H2; [symmetry; now apply nth_error_nth, B3|]. intros j Hj E. apply Hn. rewrite <- E. now apply nth_In. }
      now rewrite Ea, Eb.
    Qed.
  End Remap.

  (** Propagating later gives what propagating at once gives. *)
  Theorem later_ok (data : list Row) (T : list (crow V Sz)) labels probs neighbors mst lens : length labels = length data -> length probs = length data ->
    detect true data T labels probs neighbors mst lens =
    let* d := detect false data T labels probs neighbors mst lens in let* ls := later d in Ok (with_labels d ls).
  Proof.
    intros Hl Hp. unfold M_Detector.detect. destruct (forallb _ labels); [reflexivity|]. destruct (_ =? 0).
    - destruct (lens_of no_lens lens (length data) None data probs) as [ln|]; [|reflexivity]. cbn [bind]. now apply later_rows.
    - set (F := all_but (length data) _).
      assert (HF : forall p, In p F -> p < length data) by (intros p Hp'; apply filter_In in Hp' as [H _]; apply in_seq in H; lia).
      assert (HN : NoDup F) by apply NoDup_filter, seq_NoDup.
      destruct (gather_ok data F HF) as (d0 & E0). destruct (gather_ok labels F ltac:(now rewrite Hl)) as (l0 & E1).
      destruct (gather_ok probs F ltac:(now rewrite Hp)) as (p0 & E2). rewrite E0, E1, E2. cbn [bind].
      apply gather_length in E0, E1, E2. destruct (lens_of no_lens lens (length data) (Some F) d0 p0) as [ln|]; [|reflexivity]. cbn [bind].
      rewrite later_rows by congruence. destruct (detect_rows false d0 l0 p0 neighbors mst ln) as [d|] eqn:ED; [|reflexivity]. cbn [bind].
      apply later_remap; auto. pose proof (detect_rows_shape _ _ _ _ _ _ _ _ _ _ _ _ _ _ _ _ (eq_trans E1 (eq_sym E0)) (eq_trans E2 (eq_sym E0)) ED) as H. rewrite E0 in H. exact H.
  Qed.

  (** ** Branches *)
  Lemma update_nonempty {P Lens : Type} (av : P -> P -> P) pieces : forall rid (s : joined P Lens) s', update_loop av pieces rid s = Ok s' ->
    forall c, In c pieces -> pc_points c <> [].
  Proof.
    induction pieces as [|c0 pieces IH]; intros rid s s' H c Hc; [destruct Hc|]. cbn [update_loop] in H.
    destruct (noise_flag (unique_Z (pc_labels c0))) as [fl|] eqn:Ef; [|discriminate]. cbn [bind] in H.
    destruct (put (j_labels s) _ _) as [a1|] eqn:E1; [|discriminate]. cbn [bind] in H.
    destruct (put (j_sub s) _ _) as [a2|]; [|discriminate]. cbn [bind] in H. destruct (put (j_sub_probs s) _ _) as [a3|]; [|discriminate]. cbn [bind] in H.
    destruct (put (j_probs s) _ _) as [a4|]; [|discriminate]. cbn [bind] in H. destruct (put (j_lens s) _ _) as [a5|]; [|discriminate]. cbn [bind] in H.
    destruct Hc as [<-|Hc]; [|eapply IH; eauto]. intro E. unfold put in E1. rewrite E, map_length in E1. destruct (pc_labels c0); [discriminate Ef|discriminate].
  Qed.

  Lemma rows_nonempty' flag data labels probs neighbors mst lens d : detect_rows flag data labels probs neighbors mst lens = Ok d ->
    forall pts, In pts (d_points d) -> pts <> [].
  Proof.
    unfold M_Detector.detect_rows. destruct (num_clusters labels); [|discriminate]. destruct (check_endpoints labels mst); [|discriminate]. cbn [bind].
    destruct (find_sub_clusters _ _ _ _ _ _ _ _ _ _ _ _) as [found|] eqn:EF; [|discriminate]. cbn [bind].
    destruct (maybe_propagate prop flag found) as [final|]; [|discriminate]. cbn [bind]. intros [= <-]. cbn [d_points]. intros pts Hin.
    unfold find_sub_clusters in EF. destruct (sub_clusters_per_cluster _ _ _ _ _ _ _ _) as [rs|]; [|discriminate]. cbn [bind] in EF.
    destruct (update_labels _ _ _ _ _) as [s|] eqn:EU; [|discriminate]. cbn [bind] in EF. injection EF as <-. cbn [snd] in Hin.
    rewrite map_map in Hin. apply in_map_iff in Hin as (kr & <- & Hk). cbn [fst].
    exact (update_nonempty _ _ _ _ _ EU (piece_of labels _ kr) (in_map _ _ _ Hk)).
  Qed.
  Lemma detect_facts flag (data : list Row) (T : list (crow V Sz)) labels probs neighbors mst lens d : length labels = length data -> length probs = length data ->
    detect flag data T labels probs neighbors mst lens = Ok d ->
    length (d_labels d) = length data /\ length (d_sub d) = length data /\
    forall pts, In pts (d_points d) -> pts <> [] /\ forall p, In p pts -> p < length data.
  Proof.
    intros Hl Hp. unfold M_Detector.detect. destruct (forallb _ labels); [discriminate|]. destruct (_ =? 0).
    - destruct (lens_of no_lens lens (length data) None data probs) as [ln|]; [|discriminate]. cbn [bind]. intro ED.
      pose proof (rows_nonempty' _ _ _ _ _ _ _ _ ED) as Hne. apply detect_rows_shape in ED as (L1 & _ & _ & _ & L5 & _ & _ & L8); auto.
      split; auto. split; auto. intros pts Hpts. eauto.
    - set (F := all_but (length data) _).
      assert (HF : forall p, In p F -> p < length data) by (intros p Hp'; apply filter_In in Hp' as [H _]; apply in_seq in H; lia).
      assert (HN : NoDup F) by apply NoDup_filter, seq_NoDup.
      destruct (gather data F) as [d0|] eqn:E0; [|discriminate]. destruct (gather labels F) as [l0|] eqn:E1; [|discriminate].
      destruct (gather probs F) as [p0|] eqn:E2; [|discriminate]. cbn [bind].
      apply gather_length in E0, E1, E2. destruct (lens_of no_lens lens (length data) (Some F) d0 p0) as [ln|]; [|discriminate]. cbn [bind].
      destruct (detect_rows flag d0 l0 p0 neighbors mst ln) as [r|] eqn:ED; [|discriminate]. cbn [bind].
      pose proof (rows_nonempty' _ _ _ _ _ _ _ _ ED) as Hne.
      apply detect_rows_shape in ED; [|congruence|congruence]. rewrite E0 in ED. destruct (remap_facts F (length data) HN HF r ED) as (d' & -> & S1 & S2 & S3 & _).
      intros [= <-]. destruct ED as (L1 & _ & _ & _ & L5 & _ & _ & L8).
      destruct (scatter_ok (length data) (-1)%Z F (d_labels r) (eq_sym L1) HN HF) as (a1 & E1' & A1 & _). rewrite S1 in E1'. injection E1' as E1'.
      destruct (scatter_ok (length data) 0%Z F (d_sub r) (eq_sym L5) HN HF) as (a5 & E5' & B1 & _). rewrite S2 in E5'. injection E5' as E5'.
      split; [congruence|]. split; [congruence|]. rewrite S3. intros pts Hpts. apply in_map_iff in Hpts as (q & <- & Hq). split.
      + specialize (Hne q Hq). destruct q; [congruence|discriminate].
      + intros p Hp'. apply in_map_iff in Hp' as (i & <- & Hi). apply HF, nth_In. eauto.
  Qed.

  (** Branch labels do not depend on probabilities, nor on the labels of the
      samples in clusters. *)
  Lemma branch_loop_same {P Q : Type} count (sub : nat -> Z) (cp : nat -> P) (cp' : nat -> Q) clusters : (forall c, In c clusters -> fst c <> []) ->
    forall rid l l' p p', exists l1 l1' p1 p1', branch_loop count clusters sub cp rid l p = Ok (l1, p1) /\ branch_loop count clusters sub cp' rid l' p' = Ok (l1', p1') /\
      (forall x, In x (concat (map fst clusters)) -> l1 x = l1' x) /\ (forall x, ~ In x (concat (map fst clusters)) -> l1 x = l x /\ l1' x = l' x).
  Proof.
    induction clusters as [|[pts tr] cl IH]; intros Hne rid l l' p p'; cbn [branch_loop].
    - exists l, l', p, p'. split; auto. split; auto. split; [intros x []|auto].
    - assert (Hp : pts <> []) by (apply (Hne (pts, tr)); now left).
      destruct (unique_Z (map sub pts)) as [|u us] eqn:EU.
      { exfalso. destruct pts as [|x pts]; [congruence|].
        assert (Hin : In (sub x) (unique_Z (map sub (x :: pts)))). { apply unique_Z_in. now left. }
        rewrite EU in Hin. destruct Hin. }
      cbn [noise_flag first_unique bind]. set (has := if (u =? -1)%Z then 1%Z else 0%Z).
      assert (G : forall vals rid', length vals = length pts -> forall (q : nat -> P) (q' : nat -> Q), exists l1 l1' p1 p1',
                branch_loop count cl sub cp rid' (assign_at l pts vals) q = Ok (l1, p1) /\
                branch_loop count cl sub cp' rid' (assign_at l' pts vals) q' = Ok (l1', p1') /\
                (forall x, In x (concat (map fst ((pts, tr) :: cl))) -> l1 x = l1' x) /\
                (forall x, ~ In x (concat (map fst ((pts, tr) :: cl))) -> l1 x = l x /\ l1' x = l' x)).
      { intros vals rid' Hv q q'. destruct (IH (fun c Hc => Hne c (or_intror Hc)) rid' (assign_at l pts vals) (assign_at l' pts vals) q q')
          as (l1 & l1' & p1 & p1' & E1 & E2 & H1 & H2).
        exists l1, l1', p1, p1'. split; auto. split; auto. cbn [map concat fst]. split.
        - intros x Hx. destruct (in_dec Nat.eq_dec x (concat (map fst cl))) as [Hc|Hc]; auto. destruct (H2 x Hc) as [-> ->]. apply in_app_or in Hx as [Hx|]; [|contradiction].
          now apply assign_over.
        - intros x Hx. destruct (H2 x) as [-> ->]; [intro; apply Hx, in_or_app; auto|]. rewrite !assign_out by (intro; apply Hx, in_or_app; auto). auto. }
      destruct ((Z.of_nat (length (u :: us)) - has <=? Z.of_nat count)%Z && tr).
      + unfold put. rewrite !map_length, Nat.eqb_refl. cbn [bind]. apply G. now rewrite map_length.
      + unfold put. rewrite !map_length, Nat.eqb_refl. cbn [bind]. apply G. now rewrite map_length.
  Qed.

  Lemma combine_fst {A B} (l : list A) (l' : list B) x : In x (map fst (combine l l')) -> In x l.
  Proof. intro H. apply in_map_iff in H as ([a b] & <- & H). now apply in_combine_l in H. Qed.

  Theorem branch_later (data : list Row) (T : list (crow V Sz)) labels probs neighbors mst lens sides0 sides :
    length labels = length data -> length probs = length data ->
    (let* d := detect false data T labels probs neighbors mst lens in let* b := branch_fit zero sides0 d in branch_propagated_labels zero inv nadd nzero fuel sides b) =
    (let* d := detect true data T labels probs neighbors mst lens in let* b := branch_fit zero sides d in Ok (d_labels b, d_sub b)).
  Proof.
    intros Hl Hp. rewrite later_ok by auto. destruct (detect false data T labels probs neighbors mst lens) as [d|] eqn:ED; [|reflexivity]. cbn [bind].
    destruct (detect_facts _ _ _ _ _ _ _ _ _ Hl Hp ED) as (F1 & F2 & F3). set (n := length data) in *. clear ED.
    assert (Hne : forall c, In c (combine (d_points d) (map sr_tree (d_parts d))) -> fst c <> []).
    { intros [pts t] Hc. apply in_combine_l in Hc. now apply F3. }
    set (cl := combine (d_points d) (map sr_tree (d_parts d))) in *.
    unfold branch_fit at 1. fold cl. unfold apply_branch_threshold at 1.
    destruct (branch_loop_same (if sides0 then 1 else 2) (fun x => nth x (d_sub d) 0%Z) (fun x => nth x (d_cluster_probs d) zero) (fun _ => zero) cl Hne 0
                (fun x => nth x (d_labels d) (-1)%Z) (fun x => nth x (d_labels d) (-1)%Z) (fun x => nth x (d_probs d) zero) (fun _ => zero))
      as (l1 & l1x & p1 & p1x & -> & _ & _ & H2). cbn [bind fst snd]. rewrite F1.
    set (b := {| d_labels := map l1 (seq 0 n); d_probs := _; d_cluster := _; d_cluster_probs := _; d_sub := _; d_sub_probs := _; d_lens := _; d_points := _; d_parts := _ |}).
    assert (Hcl : forall x, In x (concat (map fst cl)) -> exists pts, In pts (d_points d) /\ In x pts).
    { intros x Hx. apply in_concat in Hx as (pts & H & Hx). apply combine_fst in H. eauto. }
    assert (EL : later b = later d).
    { unfold propagated_labels, propagate_sub_cluster_labels. cbn [b d_labels d_sub d_points d_parts]. rewrite map_length, seq_length, F1.
      set (gl := combine (d_points d) (map sr_graph (d_parts d))).
      assert (Hgl : forall c, In c gl -> forall i, In i (fst c) -> i < n).
      { intros [pts g] Hc i Hi. apply in_combine_l in Hc. now apply (F3 pts). }
      pose proof (propagate_rename (fun i => i < n) (fun i => i) (fun i j _ _ E => E) inv nadd nzero fuel gl Hgl 0%Z (fun x => nth x (d_labels d) (-1)%Z)
                    (fun x => nth x (d_sub d) 0%Z) (fun x => nth x (map l1 (seq 0 n)) (-1)%Z) (fun x => nth x (d_sub d) 0%Z) (fun i _ => eq_refl)) as H.
      assert (Er : map (ren (fun i => i)) gl = gl).
      { rewrite <- (map_id gl) at 2. apply map_ext. intros [p g]. unfold ren. cbn [fst snd]. now rewrite map_id. }
      rewrite Er in H. destruct (propagate_loop inv nadd nzero fuel gl 0 (fun x => nth x (d_labels d) (-1)%Z) _) as [[l2 s2]|]; [|rewrite H; reflexivity].
      destruct H as (l2' & s2' & -> & H1 & _ & H3 & H4 & H5). cbn [bind fst snd].
      assert (E1 : map l2' (seq 0 n) = map l2 (seq 0 n)).
      { apply map_ext_in. intros i Hi. apply in_seq in Hi. destruct (in_dec Nat.eq_dec i (concat (map fst gl))) as [Hc|Hc]; auto.
        rewrite H4 by auto. rewrite H5 by (intros j Hj; intro; now subst). rewrite nth_map_seq' by lia. apply H2.
        intro Hin. apply Hc. apply in_concat in Hin as (pts & Hq & Hin). apply in_concat. exists pts. split; auto.
        unfold gl, cl in *. clear - Hq. revert Hq. generalize (d_parts d). induction (d_points d) as [|q ps IH]; intros [|t ts]; simpl; auto. intros [->|H]; eauto. }
      assert (E2 : map s2' (seq 0 n) = map s2 (seq 0 n)).
      { apply map_ext_in. intros i Hi. apply in_seq in Hi. apply H1. lia. }
      now rewrite E1, E2. }
    unfold branch_propagated_labels. rewrite EL. cbn [b d_points d_parts d_labels]. fold cl.
    destruct (later d) as [ls|] eqn:ELd; [|reflexivity]. cbn [bind]. unfold branch_fit. cbn [with_labels d_labels d_sub d_points d_parts d_probs d_cluster_probs]. fold cl.
    unfold apply_branch_threshold.
    destruct (branch_loop_same (if sides then 1 else 2) (fun x => nth x (snd ls) 0%Z) (fun _ => zero) (fun x => nth x (d_cluster_probs d) zero) cl Hne 0
                (fun x => nth x (fst ls) (-1)%Z) (fun x => nth x (fst ls) (-1)%Z) (fun _ => zero) (fun x => nth x (d_probs d) zero))
      as (l3 & l3' & p3 & p3' & -> & -> & G1 & G2). cbn [bind fst snd d_labels d_sub].
    assert (Hls : length (fst ls) = n).
    { unfold propagated_labels in ELd. destruct (propagate_sub_cluster_labels _ _ _ _ _ _ _) as [r|]; [|discriminate]. cbn [bind] in ELd. injection ELd as <-.
      cbn [fst]. now rewrite map_length, seq_length. }
    rewrite map_length, seq_length, Hls. do 2 f_equal. apply map_ext_in. intros x _.
    destruct (in_dec Nat.eq_dec x (concat (map fst cl))) as [Hx|Hx]; auto. destruct (G2 x Hx) as [-> ->]. reflexivity.
  Qed.
End Later.
