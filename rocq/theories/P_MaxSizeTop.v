(** max_cluster_size for spanning trees and for fit. *)
From Coq Require Import List Arith Lia Bool ZArith Permutation Sorted.
From Verif Require Import Prelude Order Graph Size Num P_Sort S_Kruskal M_Linkage S_Linkage M_Condense S_Condense
  M_Select S_Select M_Labels S_Labels P_LabelsEx M_Pipeline S_Pipeline P_PipelineRun P_PipelineEx M_Estimator P_Estimator P_Dbscan S_MaxSize P_MaxSize.
Import ListNotations.
Local Open Scope nat_scope.

Section Plain.
  Context {W V : WOrd}.
  Variables (lam : W -> V) (LA : LamArith V) (A : Arith V NatSize) (garbage : nat -> V)
    (by_parent : list (crow V NatSize) -> list (crow V NatSize)) (st : settings V NatSize) (n : nat) (M : list (edge W)) (m : nat).
  Hypothesis HK : setting_ok lam LA A by_parent (unbounded st).
  Hypothesis HM : spanning_tree n M.
  Hypothesis Hn : 2 <= n.
  Hypothesis Hmeth : cluster_selection_method st = Eom.
  Hypothesis Heps : cluster_selection_epsilon st = None.
  Hypothesis Hmax : max_cluster_size st = Some m.
  Notation run st := (clusters_from_spanning_tree lam LA A garbage by_parent st M).

  Lemma plain_link : exists L, linkage_facts n (fun _ => 1 : NatSize) M L /\
    forall s, run s = clusters_from_linkage_tree lam LA A garbage by_parent s (fun _ => 1 : NatSize) n L.
  Proof.
    destruct (linkage_plain n M HM) as (L & EL & HL). exists L. split; auto. intro s. unfold clusters_from_spanning_tree. rewrite EL. cbn [bind]. now rewrite (facts_length n M HM).
  Qed.
  Lemma plain_small (x : nat) : x < n -> sle (min_cluster_size st) (1 : NatSize) = false.
  Proof. intros _. pose proof (us_size _ _ (so_usable _ _ _ _ _ HK)) as H. apply slt_true in H. exact H. Qed.
  Lemma ones k : @ssum NatSize (repeat (1 : NatSize) k) = k.
  Proof. induction k; auto. cbn [repeat]. change (1 + @ssum NatSize (repeat (1 : NatSize) k) = S k). now rewrite IHk. Qed.
  Lemma plain_root : (allow_single_cluster st = false \/ m + 1 < n) -> allow_single_cluster st = false \/ sle (@ssum NatSize (repeat (sone (s := NatSize)) (n - 1))) m = false.
  Proof. intros [H|H]; auto. right. change (sone (s := NatSize)) with 1. rewrite ones. apply Nat.leb_gt. lia. Qed.

  Lemma plain_bounded ls ps T : run st = Ok (ls, ps, T) -> (allow_single_cluster st = false \/ m + 1 <> n) -> bounded_clusters n (fun _ => 1 : NatSize) m ls.
  Proof.
    intros ER Hs. destruct plain_link as (L & HL & EQ). rewrite EQ in ER.
    assert (H : (allow_single_cluster st = false \/ m + 1 < n) \/ n <= m) by (clear - Hs; destruct Hs as [->|Hs]; [auto|]; lia). destruct H as [H|H].
    - eapply (run_bounded lam LA A garbage by_parent st n (fun _ => 1 : NatSize) M L); eauto.
      + apply plain_small. + now apply plain_root.
    - intros x Hx Hl. exists (members n ls (nth x ls 0%Z)). split; [apply members_nodup|]. split; [apply members_in|].
      apply (sle_trans NatSize _ n); [|now apply Nat.leb_le]. rewrite ssum_ones. apply Nat.leb_le. unfold members. rewrite <- (seq_length n 0) at 2. clear. induction (seq 0 n) as [|a l IH]; cbn; [lia|]. destruct (_ =? _)%Z; cbn; lia.
  Qed.
  Lemma plain_length ls ps T : run st = Ok (ls, ps, T) -> length ls = n.
  Proof. intro ER. destruct plain_link as (L & HL & EQ). rewrite EQ in ER. eapply (run_length lam LA A garbage by_parent st n (fun _ => 1 : NatSize) M L); eauto. apply plain_small. Qed.
  Section Outcomes.
    Variables (ls0 : list Z) (ps0 : list V) (T : list (crow V NatSize)).
    Hypothesis ER : run (unbounded st) = Ok (ls0, ps0, T).
    Hypothesis Hper : cluster_selection_persistence st = None.
    Hypothesis Hpos : forall e, In e M -> wlt (la_zero LA) (lam (ewt e)) = true.
    Hypothesis Hroot : allow_single_cluster st = false \/ m + 1 < n.
    Lemma plain_outcomes :
      (run st = Err KeyError \/ exists ls ps, run st = Ok (ls, ps, T) /\ clustering (la_zero LA) (la_one LA) n ls ps /\
         numbered n ls /\ large_clusters n (fun _ => 1 : NatSize) (min_cluster_size st) ls /\ bounded_clusters n (fun _ => 1 : NatSize) m ls /\ from_fitting n T m ls) /\
      ((forall c, ~ fitting n T m c) -> exists ps, run st = Ok (repeat (-1)%Z n, ps, T)) /\
      ((exists c, fitting n T m c) -> (forall c d, fitting n T m c -> fitting n T m d -> within n T c d \/ within n T d c) -> run st = Err KeyError) /\
      (forall a b, fitting n T m a -> fitting n T m b -> (forall c, fitting n T m c -> ~ (within n T c a /\ within n T c b)) ->
         exists ls ps, run st = Ok (ls, ps, T) /\ exists x y, below n T a x /\ below n T b y /\ nth x ls 0%Z <> (-1)%Z /\ nth y ls 0%Z <> (-1)%Z /\ nth x ls 0%Z <> nth y ls 0%Z).
    Proof.
      destruct plain_link as (L & HL & EQ). rewrite !EQ in *. pose proof plain_small as Hsm. pose proof (plain_root Hroot) as Hr.
      pose proof (unbounded_tree lam LA A garbage by_parent st n (fun _ => 1 : NatSize) L ls0 ps0 T ER) as HT.
      assert (Hw : forall x : nat, x < n -> sle (szero (s := NatSize)) (1 : NatSize) = true) by reflexivity.
      split; [eapply max_total; eauto|]. split; [intro; eapply max_none; eauto|]. split; [intros; eapply max_chain; eauto|]. intros. eapply max_two; eauto.
    Qed.
  End Outcomes.
End Plain.

Section Weighted.
  Context {W V : WOrd} {Sz : SOrd}.
  Variables (lam : W -> V) (LA : LamArith V) (A : Arith V Sz) (garbage : nat -> V)
    (by_parent : list (crow V Sz) -> list (crow V Sz)) (st : settings V Sz) (n : nat) (M : list (edge W)) (ws : list Sz) (m : Sz).
  Hypothesis HK : setting_ok lam LA A by_parent (unbounded st).
  Hypothesis HM : spanning_tree n M.
  Hypothesis Hn : 2 <= n.
  Hypothesis Hlen : length ws = n.
  Hypothesis Hone : sle (s := Sz) szero sone = true.
  Hypothesis Hws : forall w, In w ws -> sle szero w = true /\ slt w (min_cluster_size st) = true.
  Hypothesis Hmeth : cluster_selection_method st = Eom.
  Hypothesis Heps : cluster_selection_epsilon st = None.
  Hypothesis Hmax : max_cluster_size st = Some m.
  Hypothesis Hroot : allow_single_cluster st = false.
  Notation wt := (fun x => nth x ws szero).
  Notation run st := (clusters_from_spanning_tree_weighted lam LA A garbage by_parent st M ws).

  Lemma weighted_link : exists L, linkage_facts n wt M L /\ forall s, run s = clusters_from_linkage_tree lam LA A garbage by_parent s wt n L.
  Proof.
    destruct (linkage_weighted n M ws HM Hlen) as (L & EL & HL). exists L. split; auto. intro s. unfold clusters_from_spanning_tree_weighted. rewrite EL. cbn [bind]. now rewrite (facts_length n M HM).
  Qed.
  Lemma w_small x : x < n -> sle (min_cluster_size st) (wt x) = false.
  Proof. intro Hx. destruct (Hws (wt x)) as [_ H]; [apply nth_In; lia|]. apply slt_true in H. exact H. Qed.
  Lemma w_nonneg x : x < n -> sle szero (wt x) = true.
  Proof. intro Hx. apply Hws, nth_In. lia. Qed.

  Lemma weighted_bounded ls ps T : run st = Ok (ls, ps, T) -> bounded_clusters n wt m ls.
  Proof.
    intro ER. destruct weighted_link as (L & HL & EQ). rewrite EQ in ER. eapply (run_bounded lam LA A garbage by_parent st n wt M L); eauto; [apply w_small|apply w_nonneg].
  Qed.
  Lemma weighted_outcomes ls0 ps0 T : run (unbounded st) = Ok (ls0, ps0, T) -> cluster_selection_persistence st = None ->
    (forall e, In e M -> wlt (la_zero LA) (lam (ewt e)) = true) ->
    (run st = Err KeyError \/ exists ls ps, run st = Ok (ls, ps, T) /\ clustering (la_zero LA) (la_one LA) n ls ps /\
       numbered n ls /\ large_clusters n wt (min_cluster_size st) ls /\ bounded_clusters n wt m ls /\ from_fitting n T m ls) /\
    ((forall c, ~ fitting n T m c) -> exists ps, run st = Ok (repeat (-1)%Z n, ps, T)) /\
    ((exists c, fitting n T m c) -> (forall c d, fitting n T m c -> fitting n T m d -> within n T c d \/ within n T d c) -> run st = Err KeyError) /\
    (forall a b, fitting n T m a -> fitting n T m b -> (forall c, fitting n T m c -> ~ (within n T c a /\ within n T c b)) ->
       exists ls ps, run st = Ok (ls, ps, T) /\ exists x y, below n T a x /\ below n T b y /\ nth x ls 0%Z <> (-1)%Z /\ nth y ls 0%Z <> (-1)%Z /\ nth x ls 0%Z <> nth y ls 0%Z).
  Proof.
    intros ER Hper Hpos. destruct weighted_link as (L & HL & EQ). rewrite !EQ in *. pose proof w_small as Hsm. pose proof w_nonneg as Hnn.
    pose proof (unbounded_tree lam LA A garbage by_parent st n wt L ls0 ps0 T ER) as HT.
    split; [eapply max_total; eauto|]. split; [intro; eapply max_none; eauto|]. split; [intros; eapply max_chain; eauto|]. intros. eapply max_two; eauto.
  Qed.
End Weighted.

(** ** fit *)
Section Fit.
  Context {W V : WOrd} {Row : Type}.
  Variables (lam : W -> V) (LA : LamArith V) (garbage : nat -> V) (mst_of : list Row -> res (list (edge W)))
    (finite : Row -> bool) (set_list : list nat -> list nat) (X : list Row) (A : Arith V NatSize)
    (by_parent : list (crow V NatSize) -> list (crow V NatSize)) (st : settings V NatSize) (m : nat).
  Hypothesis HK : setting_ok lam LA A by_parent (unbounded st).
  Notation F := (filter finite X).
  Hypothesis HM : forall M, 2 <= length F -> mst_of F = Ok M -> spanning_tree (length F) M.
  Hypothesis Hmeth : cluster_selection_method st = Eom.
  Hypothesis Heps : cluster_selection_epsilon st = None.
  Hypothesis Hmax : max_cluster_size st = Some m.
  Hypothesis Hroot : allow_single_cluster st = false \/ m + 1 <> length F.

  Lemma fast_shape r : fast_hdbscan lam LA garbage mst_of A by_parent st F = Ok r -> length (f_labels r) = length F /\
    bounded_clusters (length F) (fun _ => 1 : NatSize) m (f_labels r).
  Proof.
    unfold fast_hdbscan. destruct (Nat.eqb_spec (length F) 0) as [|H0]; [discriminate|]. destruct (Nat.ltb_spec (length F) 2) as [H1|H1].
    - intros E. injection E as <-. cbn [degenerate f_labels]. split; [apply repeat_length|]. intros x Hx Hl. exfalso. apply Hl. apply (repeat_spec (length F)), nth_In. now rewrite repeat_length.
    - destruct (mst_of F) as [M|] eqn:EM; [|discriminate]. cbn [bind]. specialize (HM M H1 eq_refl).
      destruct (mst_to_linkage_tree (sort_mst M)) as [L|] eqn:EL; [|discriminate]. cbn [bind].
      destruct (clusters_from_linkage_tree lam LA A garbage by_parent st (fun _ => 1) (length M + 1) L) as [[[ls ps] T]|] eqn:EC; [|discriminate]. cbn [bind]. intros E. injection E as <-. cbn [f_labels fst].
      assert (ER : clusters_from_spanning_tree lam LA A garbage by_parent st M = Ok (ls, ps, T)) by (unfold clusters_from_spanning_tree; rewrite EL; exact EC).
      split; [eapply plain_length; eauto|]. eapply plain_bounded; eauto.
  Qed.
  Lemma fast_length r : fast_hdbscan lam LA garbage mst_of A by_parent st F = Ok r -> length (f_labels r) = length F.
  Proof. intro E. now apply fast_shape. Qed.
  Lemma fast_bounded r : fast_hdbscan lam LA garbage mst_of A by_parent st F = Ok r -> bounded_clusters (length F) (fun _ => 1 : NatSize) m (f_labels r).
  Proof. intro E. now apply fast_shape. Qed.

  Lemma fit_bounded r : fit (la_zero LA) finite set_list (fast_hdbscan lam LA garbage mst_of A by_parent st) X = Ok r ->
    forall p, p < length X -> nth p (f_labels r) 0%Z <> (-1)%Z ->
    exists ys, NoDup ys /\ (forall q, In q ys <-> q < length X /\ nth q (f_labels r) 0%Z = nth p (f_labels r) 0%Z) /\ length ys <= m.
  Proof.
    intros EF p Hp Hl.
    assert (HB : forall ls, length ls = length F -> bounded_clusters (length F) (fun _ => 1 : NatSize) m ls -> forall a pos, length a = length X ->
      (forall i j, i < length F -> j < length F -> pos i = pos j -> i = j) -> (forall i, i < length F -> pos i < length X /\ nth_error a (pos i) = nth_error ls i) ->
      (forall q, q < length X -> (exists i, i < length F /\ pos i = q) \/ nth_error a q = Some (-1)%Z) -> nth p a 0%Z <> (-1)%Z ->
      exists ys, NoDup ys /\ (forall q, In q ys <-> q < length X /\ nth q a 0%Z = nth p a 0%Z) /\ length ys <= m).
    { clear r EF Hl. intros ls Hls HBd a pos Ha Hinj Hat Hout Hl.
      assert (Hnth : forall i, i < length F -> nth (pos i) a 0%Z = nth i ls 0%Z).
      { intros i Hi. destruct (Hat i Hi) as [_ E]. rewrite (nth_error_nth' ls 0%Z) in E by lia. now apply nth_error_nth. }
      destruct (Hout p Hp) as [(i & Hi & <-)|E]; [|exfalso; apply Hl; now apply nth_error_nth]. rewrite Hnth in * by auto.
      destruct (HBd i Hi Hl) as (ys & N & U & Hm). rewrite ssum_ones in Hm. apply Nat.leb_le in Hm. exists (map pos ys). split; [|split].
      - clear -N U Hinj. assert (K : forall y, In y ys -> y < length F) by (intros y Hy; now apply U in Hy). clear U. induction N as [|y ys Hy N IH]; cbn; constructor.
        + intro Hin. apply in_map_iff in Hin as (z & E & Hz). apply Hinj in E; [|apply K; now right|apply K; now left]. congruence.
        + apply IH. intros z Hz. apply K. now right.
      - intro q. rewrite in_map_iff. split.
        + intros (y & <- & Hy). apply U in Hy as [Hy Ey]. split; [apply Hat; auto|]. rewrite Hnth; auto.
        + intros [Hq Eq]. destruct (Hout q Hq) as [(j & Hj & <-)|E]; [|exfalso; apply Hl; rewrite <- Eq; now apply nth_error_nth].
          exists j. split; auto. apply U. split; auto. rewrite <- Hnth by auto. auto.
      - now rewrite map_length. }
    unfold fit in EF. assert (HF : forallb finite X = true \/ forallb finite X = false) by (destruct (forallb finite X); auto). destruct HF as [HF|HF]; rewrite HF in EF.
    - pose proof (all_finite_filter _ _ HF) as EX. rewrite <- EX in EF at 1. pose proof (fast_length r EF) as Hlen.
      apply (HB (f_labels r) Hlen (fast_bounded r EF) (f_labels r) (fun i => i)); auto; rewrite ?EX in *; auto.
      intros q Hq. left. eauto.
    - rewrite take_index in EF. destruct (fast_hdbscan lam LA garbage mst_of A by_parent st F) as [r0|] eqn:E0; [|discriminate]. cbn [bind] in EF.
      destruct (remap_condensed_tree (la_zero LA) (f_condensed r0) (finite_index_of finite X) _) as [T|]; [|discriminate]. cbn [bind] in EF.
      destruct (remap_single_linkage_tree (f_linkage r0) (finite_index_of finite X) _) as [L|]; [|discriminate]. cbn [bind] in EF.
      pose proof (fast_length r0 E0) as Hlen.
      destruct (scatter_ok (length X) (-1)%Z (finite_index_of finite X) (f_labels r0)) as (a & Ea & La & H1 & H2).
      + rewrite index_len. auto. + apply NoDup_filter, seq_NoDup. + apply index_lt.
      + rewrite Ea in EF. cbn [bind] in EF. destruct (scatter (length X) (la_zero LA) (finite_index_of finite X) (f_probabilities r0)) as [ps|]; [|discriminate]. cbn [bind] in EF.
        injection EF as <-. cbn [f_labels] in *. rewrite index_len in H1.
        apply (HB (f_labels r0) Hlen (fast_bounded r0 E0) a (fun i => nth i (finite_index_of finite X) 0)); auto.
        * intros i j Hi Hj E. rewrite <- index_len in Hi, Hj. assert (N : NoDup (finite_index_of finite X)) by apply NoDup_filter, seq_NoDup. now apply (proj1 (NoDup_nth _ 0) N).
        * intros i Hi. split; auto. apply (index_lt finite X). apply nth_In. now rewrite index_len.
        * intros q Hq. destruct (in_dec Nat.eq_dec q (finite_index_of finite X)) as [Hin|Hin]; [left|right; auto].
          apply (In_nth _ _ 0) in Hin as (i & Hi & Ei). rewrite index_len in Hi. eauto.
  Qed.

  (** An error of the clustering is an error of fit. *)
  Lemma fit_error e : fast_hdbscan lam LA garbage mst_of A by_parent st F = Err e ->
    fit (la_zero LA) finite set_list (fast_hdbscan lam LA garbage mst_of A by_parent st) X = Err e.
  Proof.
    intro E. unfold fit. assert (HF : forallb finite X = true \/ forallb finite X = false) by (destruct (forallb finite X); auto). destruct HF as [HF|HF]; rewrite HF.
    - now rewrite (all_finite_filter _ _ HF) in E.
    - now rewrite take_index, E.
  Qed.

  (** Without missing rows: fit with a maximum, from the condensed tree of fit
      without one. *)
  Section Complete.
    Hypothesis HF : forallb finite X = true.
    Hypothesis H2 : 2 <= length X.
    Hypothesis Hper : cluster_selection_persistence st = None.
    Hypothesis Hpos : forall M, mst_of X = Ok M -> forall e, In e M -> wlt (la_zero LA) (lam (ewt e)) = true.
    Hypothesis Hone : allow_single_cluster st = false \/ m + 1 < length X.
    Notation n := (length X).
    Notation go st := (fit (la_zero LA) finite set_list (fast_hdbscan lam LA garbage mst_of A by_parent st) X).

    Lemma go_eq s : go s = fast_hdbscan lam LA garbage mst_of A by_parent s X.
    Proof. unfold fit. now rewrite HF. Qed.
    Lemma fast_eq s M L : mst_of X = Ok M -> mst_to_linkage_tree (sort_mst M) = Ok L -> fast_hdbscan lam LA garbage mst_of A by_parent s X =
      let* (r, T) := clusters_from_spanning_tree lam LA A garbage by_parent s M in
      Ok {| f_labels := fst r; f_probabilities := snd r; f_linkage := L; f_condensed := T; f_mst := sort_mst M |}.
    Proof.
      clear Hroot Hone. intros EM EL. unfold fast_hdbscan, clusters_from_spanning_tree. destruct (Nat.eqb_spec n 0) as [|_]; [lia|]. destruct (Nat.ltb_spec n 2) as [|_]; [lia|].
      rewrite EM. cbn [bind]. rewrite EL. cbn [bind]. destruct (clusters_from_linkage_tree lam LA A garbage by_parent s (fun _ => 1) (length M + 1) L) as [[r T]|]; reflexivity.
    Qed.
    Lemma fit_outcomes r0 : go (unbounded st) = Ok r0 ->
      (go st = Err KeyError \/ exists r, go st = Ok r /\ f_condensed r = f_condensed r0 /\ clustering (la_zero LA) (la_one LA) n (f_labels r) (f_probabilities r) /\
         numbered n (f_labels r) /\ large_clusters n (fun _ => 1 : NatSize) (min_cluster_size st) (f_labels r) /\ bounded_clusters n (fun _ => 1 : NatSize) m (f_labels r) /\
         from_fitting n (f_condensed r0) m (f_labels r)) /\
      ((forall c, ~ fitting n (f_condensed r0) m c) -> exists r, go st = Ok r /\ f_labels r = repeat (-1)%Z n) /\
      ((exists c, fitting n (f_condensed r0) m c) ->
       (forall c d, fitting n (f_condensed r0) m c -> fitting n (f_condensed r0) m d -> within n (f_condensed r0) c d \/ within n (f_condensed r0) d c) -> go st = Err KeyError) /\
      (forall a b, fitting n (f_condensed r0) m a -> fitting n (f_condensed r0) m b ->
         (forall c, fitting n (f_condensed r0) m c -> ~ (within n (f_condensed r0) c a /\ within n (f_condensed r0) c b)) ->
         exists r, go st = Ok r /\ exists x y, below n (f_condensed r0) a x /\ below n (f_condensed r0) b y /\
           nth x (f_labels r) 0%Z <> (-1)%Z /\ nth y (f_labels r) 0%Z <> (-1)%Z /\ nth x (f_labels r) 0%Z <> nth y (f_labels r) 0%Z).
    Proof.
      clear Hroot. rewrite !go_eq. intro E0. pose proof (all_finite_filter _ _ HF) as EX. rewrite EX in HM.
      assert (HX : exists M L, mst_of X = Ok M /\ mst_to_linkage_tree (sort_mst M) = Ok L).
      { unfold fast_hdbscan in E0. destruct (Nat.eqb_spec n 0) as [|_]; [lia|]. destruct (Nat.ltb_spec n 2) as [|_]; [lia|].
        destruct (mst_of X) as [M|]; [|discriminate]. cbn [bind] in E0. destruct (mst_to_linkage_tree (sort_mst M)) as [L|] eqn:EL; [|discriminate]. eauto. }
      destruct HX as (M & L & EM & EL). rewrite (fast_eq (unbounded st) M L EM EL) in E0. rewrite (fast_eq st M L EM EL). specialize (HM M H2 EM).
      destruct (clusters_from_spanning_tree lam LA A garbage by_parent (unbounded st) M) as [[[ls0 ps0] T]|] eqn:ER; [|discriminate]. cbn [bind] in E0. injection E0 as <-. cbn [f_condensed].
      destruct (plain_outcomes lam LA A garbage by_parent st n M m HK HM H2 Hmeth Heps Hmax ls0 ps0 T ER Hper (Hpos M EM) Hone) as (O1 & O2 & O3 & O4).
      split; [|split; [|split]].
      - destruct O1 as [->|(ls & ps & -> & O1)]; [now left|right]. cbn [bind]. eexists. split; [reflexivity|]. cbn [f_condensed f_labels f_probabilities fst snd]. auto.
      - intro K. destruct (O2 K) as (ps & ->). cbn [bind]. eexists. split; reflexivity.
      - intros K1 K2. now rewrite (O3 K1 K2).
      - intros a b Ha Hb K. destruct (O4 a b Ha Hb K) as (ls & ps & -> & K2). cbn [bind]. eexists. split; [reflexivity|]. cbn [f_labels fst]. exact K2.
    Qed.
  End Complete.
End Fit.

(** Listing the clusters that fit. *)
Definition fit_list {V} (n : nat) (T : list (crow V NatSize)) (m : nat) : list nat :=
  map c_child (filter (fun r => (n <? c_child r) && (c_size r <=? m)) T).
Lemma fit_list_iff {V : WOrd} n (T : list (crow V NatSize)) m c : fitting (Sz := NatSize) n T m c <-> In c (fit_list n T m).
Proof.
  unfold fit_list. rewrite in_map_iff. split.
  - intros (r & Hr & Hn & E & H). exists r. split; auto. apply filter_In. split; auto. apply andb_true_iff. split; [apply Nat.ltb_lt; subst c; exact Hn|exact H].
  - intros (r & E & Hr). apply filter_In in Hr as [Hr H]. apply andb_true_iff in H as [H1 H2]. apply Nat.ltb_lt in H1. exists r. split; auto. split; [congruence|]. split; auto.
Qed.
