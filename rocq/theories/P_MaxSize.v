(** max_cluster_size: which clusters are reported, and when labelling fails. *)
From Coq Require Import List Arith Lia Bool ZArith Permutation Sorted.
From Verif Require Import Prelude Order Graph Size Num Forest P_Pairs P_Sort S_Kruskal M_Linkage S_Linkage M_Condense S_Condense
  P_CondenseTop M_Select S_Select P_CTree P_Below P_Eom P_EomTop P_SelectTop M_Labels S_Labels P_Labels P_LabelsTop P_LabelsProps P_LabelsEx
  M_Epsilon S_Epsilon P_EpsilonTop M_Simplify S_Simplify P_SimplifyTop P_Faithful M_Pipeline S_Pipeline P_Pipeline P_PipelineTop P_PipelineRun P_PipelineEx S_MaxSize.
Import ListNotations.
Local Open Scope nat_scope.

Lemma map_res_inv {A B} (f : A -> res B) l : forall ys, map_res f l = Ok ys -> Forall2 (fun x y => f x = Ok y) l ys.
Proof.
  induction l as [|x l IH]; intros ys E; cbn [map_res] in E; [injection E as <-; constructor|].
  destruct (f x) as [y|] eqn:Ex; [|discriminate]. cbn [bind] in E. destruct (map_res f l) as [ys'|]; [|discriminate]. cbn [bind] in E. injection E as <-. constructor; auto.
Qed.

Lemma Forall2_nth_both {A B} (R : A -> B -> Prop) d1 d2 : forall l1 l2 i, Forall2 R l1 l2 -> i < length l1 -> R (nth i l1 d1) (nth i l2 d2).
Proof.
  intros l1 l2 i HF. revert i. induction HF as [|x y l1 l2 Hxy _ IH]; intros i Hi; cbn [length] in Hi; [lia|]. destruct i; cbn [nth]; auto. apply IH. lia.
Qed.

Lemma Forall2_same_length {A B} (R : A -> B -> Prop) l1 l2 : Forall2 R l1 l2 -> length l1 = length l2.
Proof. induction 1; cbn; auto. Qed.

Definition members (n : nat) (ls : list Z) (l : Z) : list nat := filter (fun y => (nth y ls 0 =? l)%Z) (seq 0 n).
Lemma members_in n ls l y : In y (members n ls l) <-> y < n /\ nth y ls 0%Z = l.
Proof. unfold members. rewrite filter_In, in_seq, Z.eqb_eq. split; intros [? ?]; split; auto; lia. Qed.
Lemma members_nodup n ls l : NoDup (members n ls l).
Proof. apply NoDup_filter, seq_NoDup. Qed.

Section Tree.
  Context {V : WOrd} {Sz : SOrd} (LA : LamArith V).
  Variables (n : nat) (wt : nat -> Sz) (mcs : Sz) (T : list (crow V Sz)).
  Notation zero := (la_zero LA).
  Hypothesis HT : condensed n wt mcs T.
  Hypothesis Hn : 0 < n.
  Let HOT := condensed_ordered n wt mcs T HT.

  Section Selected.
    Variable S : list nat.
    Hypothesis HC : forall s, In s S -> is_cluster n T s.
    Hypothesis HN : NoDup S.

    (** Labels are right whenever there are any. *)
    Lemma labels_right eps ls : S <> [] -> get_cluster_label_vector LA T S eps n = Ok ls ->
      length ls = n /\ forall r, In r T -> c_child r < n -> right_label zero n T S eps r (nth (c_child r) ls 0%Z).
    Proof.
      intros Hne E. destruct (labels_loop LA n T S HOT Hn HC eps Hne) as (reps & Hlen & Hrep & EL). rewrite EL in E. apply map_res_inv in E.
      assert (Hll : length ls = n) by (apply Forall2_same_length in E; rewrite combine_length, seq_length in E; lia).
      split; auto. intros r Hr Hx. pose proof (Forall2_nth_both _ (0, 0) 0%Z _ _ (c_child r) E) as K.
      rewrite combine_length, seq_length, Hlen, Nat.min_id in K. specialize (K Hx). rewrite combine_nth, seq_nth in K by (rewrite ?seq_length; auto). cbn [fst snd Nat.add] in K.
      destruct (Nat.eq_dec (length S) 1) as [H1|H1].
      - destruct S as [|c0 [|]] eqn:ES; try discriminate. rewrite <- ES in *. clear H1. destruct (Nat.eq_dec c0 n) as [E0|E0].
        + destruct (label_of_ok LA n T S HOT Hn HC HN eps r (nth (c_child r) reps 0) Hr Hx ltac:(intros _; congruence) (Hrep r Hr Hx)) as (l & El & HR). rewrite El in K. injection K as <-. auto.
        + destruct (label_of_alone LA n T S HOT Hn HC HN c0 eps ES E0 r (nth (c_child r) reps 0) Hr Hx (Hrep r Hr Hx)) as [(l & El & HR & _)|(El & _)]; rewrite El in K; [injection K as <-; auto|discriminate].
      - destruct (label_of_ok LA n T S HOT Hn HC HN eps r (nth (c_child r) reps 0) Hr Hx ltac:(tauto) (Hrep r Hr Hx)) as (l & El & HR). rewrite El in K. injection K as <-. auto.
    Qed.

    (** The members of a cluster are below it. *)
    Lemma members_below eps ls : get_cluster_label_vector LA T S eps n = Ok ls ->
      forall x, x < n -> nth x ls 0%Z <> (-1)%Z -> exists s, In s S /\ nth x ls 0%Z = Z.of_nat (position S s) /\
        forall y, y < n -> nth y ls 0%Z = nth x ls 0%Z -> below n T s y.
    Proof.
      intros E x Hx Hl. destruct (list_eq_dec Nat.eq_dec S []) as [E0|Hne].
      { exfalso. apply Hl. rewrite E0, (labels_nothing LA n T) in E. injection E as <-. apply (repeat_spec n). apply nth_In. now rewrite repeat_length. }
      destruct (labels_right eps ls Hne E) as [Hlen HR].
      destruct (sample_row n wt mcs T HT x Hx) as (r & Hr & <-).
      destruct (label_case LA n T S HOT Hn HC eps ls HR r Hr Hx) as [|(c & Hc & Ec & _)]; [contradiction|].
      exists c. split; auto. split; auto. intros y Hy Ey. destruct (sample_row n wt mcs T HT y Hy) as (q & Hq & <-).
      destruct (label_case LA n T S HOT Hn HC eps ls HR q Hq Hy) as [|(c' & Hc' & Ec' & Hh & _)]; [lia|].
      rewrite Ey, Ec in Ec'. apply Nat2Z.inj in Ec'. apply position_inj in Ec'; auto. subst c'. eapply home_sample_below; eauto.
    Qed.

    (** All samples below a cluster are its members, if densities are positive. *)
    Lemma below_members eps ls : get_cluster_label_vector LA T S eps n = Ok ls -> disjoint_clusters n T S -> (forall r, In r T -> wlt zero (c_lam r) = true) ->
      forall s x, In s S -> s <> n -> below n T s x -> nth x ls 0%Z = Z.of_nat (position S s).
    Proof.
      intros E HD Hp s x Hs Hsn Hb. assert (Hne : S <> []) by (intros ->; destruct Hs). destruct (labels_right eps ls Hne E) as [_ HR].
      pose proof (below_lt n T s x Hb) as Hx. destruct (sample_row n wt mcs T HT x Hx) as (r & Hr & <-).
      destruct (HR r Hr Hx) as [_ Hnz]. destruct Hnz as (t & Ht & Ha & _).
      { intros [K _]. specialize (Hp r Hr). apply wlt_nle in Hp. congruence. }
      assert (t = s) as -> by (eapply (home_det n T S HOT (S_ge n T S HC)); eauto; now apply (disjoint_home n T S HOT Hn HC)). auto.
    Qed.
  End Selected.

  (** No more than the maximum size. *)
  Lemma size_bound mx m single S eps ls : (forall c, In c S -> admissible n T mx single c) -> NoDup S -> mx = Some m -> (forall x, x < n -> sle szero (wt x) = true) ->
    get_cluster_label_vector LA T S eps n = Ok ls ->
    forall x, x < n -> nth x ls 0%Z <> (-1)%Z -> (exists s, In s S /\ s <> n /\ sle (ssum (map wt (members n ls (nth x ls 0%Z)))) m = true) \/ (In n S /\ sle (ssum (repeat sone (n - 1))) m = true).
  Proof.
    intros HA HN Em Hw E x Hx Hl. assert (HC : forall c, In c S -> is_cluster n T c) by (intros c Hc; apply (HA c Hc)).
    destruct (members_below S HC HN eps ls E x Hx Hl) as (s & Hs & _ & HB). destruct (HA s Hs) as (Hcl & _ & Hm).
    destruct (Nat.eq_dec s n) as [->|Hsn]; [right; split; auto; apply (Hm m _ Em); left; auto|]. left. exists s. split; auto. split; auto.
    destruct Hcl as [|(Hge & q & Hq & Eq)]; [contradiction|]. destruct (ct_sizes _ _ _ _ HT q Hq ltac:(lia)) as (_ & xs & Hxs & Hb & Esz).
    apply (sle_trans Sz _ (c_size q)).
    - rewrite Esz. apply ssum_incl; auto.
      + apply members_nodup.
      + intros y Hy. apply members_in in Hy as [Hy Ey]. apply Hb. rewrite Eq. auto.
      + intros y Hy. apply Hb, below_lt in Hy. auto.
    - apply (Hm m _ Em). right. exists q. split; auto. split; [lia|auto].
  Qed.
  Lemma size_enough mx single S eps ls : (forall c, In c S -> admissible n T mx single c) -> NoDup S -> disjoint_clusters n T S -> ~ In n S -> (forall x, x < n -> sle szero (wt x) = true) ->
    (forall r, In r T -> wlt zero (c_lam r) = true) -> get_cluster_label_vector LA T S eps n = Ok ls ->
    forall x, x < n -> nth x ls 0%Z <> (-1)%Z -> sle mcs (ssum (map wt (members n ls (nth x ls 0%Z)))) = true.
  Proof.
    intros HA HN HD Hr Hw Hp E x Hx Hl. assert (HC : forall c, In c S -> is_cluster n T c) by (intros c Hc; apply (HA c Hc)).
    destruct (members_below S HC HN eps ls E x Hx Hl) as (s & Hs & Es & _). destruct (HC s Hs) as [->|(Hge & q & Hq & Eq)]; [contradiction|].
    destruct (ct_sizes _ _ _ _ HT q Hq ltac:(lia)) as (Hm & xs & Hxs & Hb & Esz). apply (sle_trans Sz _ (c_size q)); auto. rewrite Esz. apply ssum_incl; auto.
    - intros y Hy. apply Hb in Hy. rewrite Eq in Hy. apply members_in. split; [now apply below_lt in Hy|]. rewrite Es. eapply below_members; eauto. intros ->. contradiction.
    - intros y Hy. apply members_in in Hy as [Hy _]. auto.
    - apply members_nodup.
  Qed.

  (** A sole cluster below the root: labelling fails. *)
  Section Alone.
    Variable c : nat.
    Hypothesis Hc : is_cluster n T c.
    Hypothesis Hcn : c <> n.
    Hypothesis Hp : forall r, In r T -> wlt zero (c_lam r) = true.
    Hypothesis Hsz : sle (s := Sz) szero sone = true.
    Hypothesis Hone : slt sone mcs = true.
    Hypothesis Hdense : forall q q0, In q T -> In q0 T -> n <= c_child q0 -> c_parent q = n -> c_parent q0 = n -> wle (c_lam q) (c_lam q0) = true.

    Lemma child_sample q : In q T -> n <= c_child q -> exists x, below n T (c_child q) x.
    Proof.
      intros Hq Hge. destruct (ct_sizes _ _ _ _ HT q Hq Hge) as (Hm & xs & _ & Hb & Esz). destruct xs as [|x xs]; [|exists x; apply Hb; now left].
      exfalso. rewrite Esz in Hm. cbn in Hm. apply slt_true in Hone. rewrite (sle_trans Sz mcs szero sone) in Hone; auto. discriminate.
    Qed.

    Lemma two_sides : exists a b, In a (cluster_rows n T) /\ In b (cluster_rows n T) /\ c_parent a = n /\ c_parent b = n /\ c_child a <> c_child b.
    Proof.
      assert (Hne : cluster_rows n T <> []).
      { destruct Hc as [|(Hge & q & Hq & Eq)]; [contradiction|]. intro E. assert (K : In q (cluster_rows n T)) by (apply filter_In; split; auto; apply Nat.leb_le; lia). rewrite E in K. destruct K. }
      destruct (even_length n wt mcs T HT) as (k & Hk). destruct (two_exists k _ Hk) as (PL & HPL).
      destruct (root_children n wt mcs T HT Hne) as (r & Hr & Er). rewrite HPL in Hr. apply in_two in Hr as (p & Hpp & Hrp).
      exists (fst p), (snd p). assert (Hf : In (fst p) (cluster_rows n T)) by (rewrite HPL; apply in_two; eauto). assert (Hs : In (snd p) (cluster_rows n T)) by (rewrite HPL; apply in_two; eauto).
      split; auto. split; auto. apply In_nth_error in Hpp as (j & Hj).
      destruct (ct_pairs _ _ _ _ HT j (fst p) (snd p)) as [E _]; [rewrite HPL, two_nth0, Hj; auto|rewrite HPL, two_nth1, Hj; auto|].
      split; [destruct Hrp as [->| ->]; congruence|]. split; [destruct Hrp as [->| ->]; congruence|].
      pose proof (ct_child_NoDup n wt mcs T HT) as Hnd. rewrite HPL in Hnd. intro E'.
      assert (E1 : nth_error (map c_child (two PL)) (2 * j) = nth_error (map c_child (two PL)) (2 * j + 1)) by (rewrite !nth_error_map, two_nth0, two_nth1, Hj; simpl; congruence).
      rewrite NoDup_nth_error in Hnd. apply Hnd in E1; [lia|]. apply nth_error_Some. rewrite nth_error_map, two_nth0, Hj. discriminate.
    Qed.

    Lemma alone_fails : get_cluster_label_vector LA T [c] None n = Err KeyError.
    Proof.
      destruct two_sides as (a & b & Ha & Hb & Ea & Eb & Hab).
      pose proof (ct_up _ _ _ _ HT) as up. pose proof (ct_bound _ _ _ _ HT) as bound. pose proof (ct_one _ _ _ _ HT) as cone.
      assert (Hside : exists q, In q (cluster_rows n T) /\ c_parent q = n /\ ~ In c (sub (children_of (cluster_rows n T)) (top_id n T) (c_child q))).
      { destruct (in_dec Nat.eq_dec c (sub (children_of (cluster_rows n T)) (top_id n T) (c_child a))) as [K|K]; [|eauto].
        exists b. split; auto. split; auto. intro K'. apply Hab. apply (sub_siblings _ _ up bound cone n _ _ c); auto; apply (ch_in n T); eauto. }
      destruct Hside as (q & Hq & Eq & Hnot). pose proof (ct_child_in n wt mcs T HT q Hq) as Hqn. assert (HqT : In q T) by now apply (ct_in n T).
      destruct (child_sample q HqT ltac:(lia)) as [x Hx]. pose proof (below_lt n T _ _ Hx) as Hxn. destruct (sample_row n wt mcs T HT x Hxn) as (r & Hr & Er).
      assert (HC : forall s, In s [c] -> is_cluster n T s) by (intros s [<-|[]]; auto).
      assert (HND : NoDup [c]) by (constructor; [intros []|constructor]).
      apply (labels_alone_fail LA n T [c] HOT Hn HC HND c None eq_refl Hcn r); auto; rewrite ?Er; auto.
      - intros [K _]. specialize (Hp r Hr). apply wlt_nle in Hp. congruence.
      - apply (below_home n T [c] HOT Hn HC _ _ Hx).
        + intros d Hd [<-|[]]. apply Hnot. now apply (descends_sub n wt mcs T HT) in Hd.
        + apply home_up; auto.
          * intros [E|[]]. apply Hnot. rewrite E. apply (sub_self _ _ up bound).
          * lia.
          * rewrite Eq. apply home_root.
      - intros p Hpp Ep. apply (wle_trans V _ (c_lam q)); [apply Hdense; auto; lia|]. apply (lambda_below n wt mcs T HT (c_child q) x Hx q HqT eq_refl ltac:(lia) r Hr Er).
    Qed.
  End Alone.
End Tree.

(** ** Runs *)
Section Run.
  Context {W V : WOrd} {Sz : SOrd}.
  Variables (lam : W -> V) (LA : LamArith V) (A : Arith V Sz) (garbage : nat -> V)
    (by_parent : list (crow V Sz) -> list (crow V Sz)) (st : settings V Sz).
  Variables (n : nat) (wt : nat -> Sz) (M : list (edge W)) (L : list (lrow W Sz)).
  Notation zero := (la_zero LA).
  Notation mcs := (min_cluster_size st).
  Notation eps := (option_map snd (cluster_selection_epsilon st)).
  Hypothesis HK : setting_ok lam LA A by_parent (unbounded st).
  Hypothesis HL : linkage_facts n wt M L.
  Hypothesis Hn : 2 <= n.
  Hypothesis Hsz : sle (s := Sz) szero sone = true.
  Hypothesis Hwt : forall x, x < n -> sle mcs (wt x) = false.
  Hypothesis Hwn : forall x, x < n -> sle szero (wt x) = true.
  Notation run st := (clusters_from_linkage_tree lam LA A garbage by_parent st wt n L).

  Definition tree_good (T : list (crow V Sz)) : Prop :=
    condensed n wt mcs T /\ splits_once n T /\ (forall r, In r T -> wle zero (c_lam r) = true) /\
    ((forall e, In e M -> wlt zero (lam (ewt e)) = true) -> forall r, In r T -> wlt zero (c_lam r) = true) /\
    (cluster_selection_persistence st = None -> faithful n L wt mcs None lam T).

  Lemma mcs_one : slt sone mcs = true.
  Proof. exact (us_size _ _ (so_usable _ _ _ _ _ HK)). Qed.

  Lemma tree_cases : (exists T, condensed_tree_of lam garbage st wt L = Ok T /\ tree_good T) \/
    (cluster_selection_persistence st <> None /\ condensed_tree_of lam garbage st wt L = Err IndexError).
  Proof.
    destruct HK as [H1 H2 H3 H4 H5 H6]. pose proof HL as (L1 & L2 & L3 & _).
    destruct (linkage_cases lam LA (plain_sel A (unbounded st) n) garbage by_parent (unbounded st) n wt L H2 H1 H3 (plain_selects LA A (unbounded st) n wt H1 H4 Hn) Hsz Hn H5 H6 L1 L2 L3 Hwt)
      as [(T & S & E & ls & ps & ET & _ & _ & HT & HO & Hp & HF & Hfa)|(Hper & _ & T0 & ET0 & ECT)].
    - left. exists T. split; [exact ET|]. split; auto. split; auto. split; auto. split; auto.
      intro HM. apply HF. apply (facts_heights n wt M L (fun w => wlt zero (lam w) = true) HL HM).
    - right. split; auto. cbn [unbounded min_cluster_size cluster_selection_persistence] in *.
      destruct (c24 W V Sz n L wt mcs None lam L1 L2 L3 H5 Hwt Hn) as (T0' & ET0' & HT0 & _). assert (T0' = T0) by congruence. subst T0'.
      unfold condensed_tree_of. rewrite ET0. cbn [bind]. destruct (cluster_selection_persistence st) as [p|]; [|congruence].
      rewrite (c31_empty V Sz p garbage n wt mcs T0 HT0 mcs_one ECT). destruct T0; [|reflexivity].
      exfalso. apply (rows_nonempty n wt mcs [] HT0); auto; lia.
  Qed.

  Definition tree_of : list (crow V Sz) -> Prop := fun T => condensed_tree_of lam garbage st wt L = Ok T.
  Lemma tree_ok T : tree_of T -> tree_good T.
  Proof. intro E. destruct tree_cases as [(T' & E' & H)|[_ E']]; unfold tree_of in E; rewrite E in E'; [|discriminate]. injection E' as <-. auto. Qed.

  (** The selected clusters of an 'eom' run. *)
  Definition eom_selects (T : list (crow V Sz)) (S : list nat) : Prop :=
    selected_clusters_of A st T n = Ok S /\ NoDup S /\ (forall c, In c S -> admissible n T (max_cluster_size st) (allow_single_cluster st) c) /\
    disjoint_clusters n T S /\ (cluster_rows n T = [] -> S = []) /\
    (cluster_rows n T <> [] -> forall c, leaf_cluster n T c -> (forall m s, max_cluster_size st = Some m -> recorded_size n T c s -> sle s m = true) ->
      exists s, In s S /\ (s = c \/ descends n T s c)).
  Lemma eom_run T : cluster_selection_method st = Eom -> condensed n wt mcs T -> exists S, eom_selects T S.
  Proof.
    intros Hm HT. destruct (c25_structure V Sz A n wt mcs T (max_cluster_size st) (allow_single_cluster st) HT mcs_one ltac:(lia) (so_irrefl _ _ _ _ _ HK)) as (S & E & H1 & H2 & H3 & H4 & H5).
    exists S. split; [unfold selected_clusters_of; now rewrite Hm|]. split; [now apply sorted_NoDup|]. auto.
  Qed.

  Lemma run_inv ls ps T : run st = Ok (ls, ps, T) -> cluster_selection_method st = Eom -> cluster_selection_epsilon st = None ->
    tree_good T /\ exists S, eom_selects T S /\ get_cluster_label_vector LA T S None n = Ok ls.
  Proof.
    intros ER Hm He. unfold clusters_from_linkage_tree in ER. destruct (condensed_tree_of lam garbage st wt L) as [T'|] eqn:ET; [|discriminate]. cbn [bind] in ER.
    pose proof (tree_ok T' ET) as HG. destruct (eom_run T' Hm (proj1 HG)) as (S & HS). rewrite (proj1 HS) in ER. cbn [bind] in ER.
    unfold epsilon_clusters_of in ER. rewrite He in ER. cbn [bind] in ER. unfold labels_and_strengths_of in ER. rewrite He in ER. cbn [option_map] in ER.
    destruct (get_cluster_label_vector LA T' S None n) as [ls'|] eqn:EL; [|discriminate]. cbn [bind] in ER.
    destruct (get_point_membership_strength_vector LA T' S ls') as [ps'|]; [|discriminate]. cbn [bind] in ER. injection ER as <- <- <-.
    split; auto. exists S. auto.
  Qed.

  (** No cluster has more than the maximum size. *)
  Lemma run_bounded ls ps T m : run st = Ok (ls, ps, T) -> cluster_selection_method st = Eom -> cluster_selection_epsilon st = None ->
    max_cluster_size st = Some m -> allow_single_cluster st = false \/ sle (ssum (repeat sone (n - 1))) m = false -> bounded_clusters n wt m ls.
  Proof.
    intros ER Hm He Hx Hs. destruct (run_inv ls ps T ER Hm He) as ((HT & _) & S & (_ & HN & HA & _) & EL). intros x Hxn Hl. assert (Hn0 : 0 < n) by lia.
    exists (members n ls (nth x ls 0%Z)). split; [apply members_nodup|]. split; [apply members_in|].
    pose proof (size_bound LA n wt mcs T HT Hn0 _ m _ S None ls HA HN Hx Hwn EL x Hxn Hl) as HB. destruct HB as [(s & _ & _ & H)|[Hr H]]; [exact H|].
    exfalso. destruct Hs as [Hs|Hs]; [destruct (HA n Hr) as (_ & K & _); now apply K|].
    congruence.
  Qed.

  Lemma run_length ls ps T : run st = Ok (ls, ps, T) -> cluster_selection_method st = Eom -> cluster_selection_epsilon st = None -> length ls = n.
  Proof.
    intros ER Hm He. destruct (run_inv ls ps T ER Hm He) as ((HT & _) & S & (_ & HN & HA & _) & EL). destruct (list_eq_dec Nat.eq_dec S []) as [->|Hne].
    - rewrite labels_nothing in EL. injection EL as <-. apply repeat_length.
    - destruct (labels_right LA n wt mcs T HT ltac:(lia) S (fun s Hs => proj1 (HA s Hs)) HN None ls Hne EL). auto.
  Qed.

  (** A maximum that excludes nothing changes nothing in the condensed tree. *)
  Lemma unbounded_tree ls ps T : run (unbounded st) = Ok (ls, ps, T) -> tree_of T.
  Proof.
    intro ER. unfold tree_of. unfold clusters_from_linkage_tree in ER. change (condensed_tree_of lam garbage (unbounded st) wt L) with (condensed_tree_of lam garbage st wt L) in ER.
    destruct (condensed_tree_of lam garbage st wt L) as [T'|]; [|discriminate]. cbn [bind] in ER.
    destruct (selected_clusters_of A (unbounded st) T' n) as [S|]; [|discriminate]. cbn [bind] in ER.
    destruct (epsilon_clusters_of by_parent (unbounded st) T' S) as [E|]; [|discriminate]. cbn [bind] in ER.
    destruct (labels_and_strengths_of LA (unbounded st) T' n E) as [[a b]|]; [|discriminate]. cbn [bind] in ER. injection ER as _ _ <-. auto.
  Qed.

  Section Total.
    Variable T : list (crow V Sz).
    Hypothesis HT : tree_of T.
    Hypothesis Hmeth : cluster_selection_method st = Eom.
    Hypothesis Heps : cluster_selection_epsilon st = None.
    Hypothesis Hper : cluster_selection_persistence st = None.
    Hypothesis Hpos : forall e, In e M -> wlt zero (lam (ewt e)) = true.
    Let HG := tree_ok T HT.
    Let HC : condensed n wt mcs T := proj1 HG.
    Let HP : forall r, In r T -> wlt zero (c_lam r) = true := proj1 (proj2 (proj2 (proj2 HG))) Hpos.
    Let HD : forall q q0, In q T -> In q0 T -> n <= c_child q0 -> c_parent q = n -> c_parent q0 = n -> wle (c_lam q) (c_lam q0) = true.
    Proof. intros q q0 Hq Hq0 Hc E1 E2. pose proof HL as (L1 & L2 & L3 & _). apply (split_densest n L wt mcs lam T L1 L3 (so_antitone _ _ _ _ _ HK) (proj2 (proj2 (proj2 (proj2 HG))) Hper)); auto. congruence. Qed.

    Lemma run_with_selection S : eom_selects T S -> run st = let* ls := get_cluster_label_vector LA T S None n in let* ps := get_point_membership_strength_vector LA T S ls in Ok (ls, ps, T).
    Proof.
      intro HS. unfold clusters_from_linkage_tree. rewrite HT. cbn [bind]. rewrite (proj1 HS). cbn [bind]. unfold epsilon_clusters_of, labels_and_strengths_of. rewrite Heps. cbn [bind option_map].
      destruct (get_cluster_label_vector LA T S None n) as [ls|]; cbn [bind]; auto. destruct (get_point_membership_strength_vector LA T S ls) as [ps|]; reflexivity.
    Qed.

    (** One cluster selected, and it is not the root. *)
    Lemma alone_error c : eom_selects T [c] -> c <> n -> run st = Err KeyError.
    Proof.
      intros HS Hc. rewrite (run_with_selection _ HS), (alone_fails LA n wt mcs T HC ltac:(lia) c); auto.
      - apply HS. now left.
      - apply mcs_one.
    Qed.
    Lemma others_ok S : eom_selects T S -> (length S = 1 -> S = [n]) -> exists ls ps, run st = Ok (ls, ps, T) /\ clustering zero (la_one LA) n ls ps /\
      get_cluster_label_vector LA T S None n = Ok ls.
    Proof.
      intros HS H1. rewrite (run_with_selection _ HS). destruct HS as (_ & HN & HA & HDj & _). assert (HCl : forall s, In s S -> is_cluster n T s) by (intros s Hs; apply (HA s Hs)).
      assert (HOT := condensed_ordered _ _ _ _ HC). assert (Hn0 : 0 < n) by lia. assert (Hlaws := so_laws _ _ _ _ _ HK).
      destruct (list_eq_dec Nat.eq_dec S []) as [->|Hne].
      - rewrite labels_nothing. cbn [bind]. rewrite (strengths_empty LA st n wt T HC Hn0). cbn [bind]. eexists _, _. split; [reflexivity|]. split; auto.
        assert (Hl : forall x, x < n -> nth x (repeat (-1)%Z n) 0%Z = (-1)%Z) by (intros x Hx; apply (repeat_spec n), nth_In; now rewrite repeat_length).
        assert (Hp : forall x, nth x (repeat zero n) zero = zero) by (intro x; apply nth_repeat).
        constructor; try (now rewrite repeat_length).
        * intros x Hx. rewrite Hl by auto. lia.
        * intros x _. rewrite Hp. split; [apply wle_refl|apply (ll_01 _ Hlaws)].
        * intros x _ _. apply Hp.
        * intros x Hx H. rewrite Hl in H by auto. congruence.
      - destruct (labels_ok LA n T S HOT Hn0 HCl HN None Hne H1) as (ls & El & Hlen & Hr).
        destruct (c29_condensed V Sz LA n wt mcs T S None ls Hlaws HC mcs_one Hn0 HCl HN (proj1 (proj2 (proj2 HG))) Hne H1 El) as (ps & Ep & P1 & P2 & P3 & P4).
        rewrite El. cbn [bind]. rewrite Ep. cbn [bind]. exists ls, ps. split; auto. split; auto. constructor; auto.
        intros x Hx. destruct (sample_row n wt mcs T HC x Hx) as (r & Hr' & <-).
        destruct (label_case LA n T S HOT Hn0 HCl None ls Hr r Hr' Hx) as [->|(c & _ & -> & _)]; lia.
    Qed.

    Section Max.
      Variable m : Sz.
      Hypothesis Hmax : max_cluster_size st = Some m.
      Hypothesis Hroot : allow_single_cluster st = false \/ sle (ssum (repeat sone (n - 1))) m = false.
      Let Hn0 : 0 < n. Proof. lia. Qed.
      Let Hone := mcs_one.

      Lemma fit_admissible c : admissible n T (max_cluster_size st) (allow_single_cluster st) c <-> fitting n T m c.
      Proof.
        split.
        - intros (Hc & Hs & Hsize). assert (Hne : c <> n).
          { intros ->. destruct Hroot as [K|K]; [now apply Hs|]. rewrite (Hsize m _ Hmax (or_introl (conj eq_refl eq_refl))) in K. discriminate. }
          destruct Hc as [|(Hge & q & Hq & Eq)]; [contradiction|]. exists q. split; auto. split; [lia|]. split; auto. apply (Hsize m _ Hmax). right. exists q. split; auto. split; [lia|auto].
        - intros (r & Hr & Hlt & Er & Hle). split; [right; split; [lia|eauto]|]. split; [lia|]. intros m' s Em Hs. assert (m' = m) as -> by congruence.
          destruct Hs as [[-> _]|(r' & Hr' & _ & Er' & <-)]; [lia|]. assert (r' = r) as -> by (eapply row_eq; eauto; congruence). auto.
      Qed.
      Lemma fit_cluster c : fitting n T m c -> is_cluster n T c.
      Proof. intros (r & Hr & Hlt & Er & _). right. split; [lia|eauto]. Qed.
      Lemma fit_rows c : fitting n T m c -> cluster_rows n T <> [].
      Proof. intros (r & Hr & Hlt & Er & _) E. assert (K : In r (cluster_rows n T)) by (apply filter_In; split; auto; apply Nat.leb_le; lia). rewrite E in K. destruct K. Qed.
      Lemma fit_sample c : fitting n T m c -> exists x, below n T c x.
      Proof. intros (r & Hr & Hlt & <- & _). apply (child_sample n wt mcs T HC); auto. lia. Qed.
      Lemma within_sub c d : within n T c d <-> In d (sub (children_of (cluster_rows n T)) (top_id n T) c).
      Proof.
        unfold within. rewrite (descends_sub n wt mcs T HC). pose proof (ct_up _ _ _ _ HC) as up. pose proof (ct_bound _ _ _ _ HC) as bound. split.
        - intros [->|[H _]]; auto. apply (sub_self _ _ up bound).
        - intro H. destruct (Nat.eq_dec c d); auto.
      Qed.
      Lemma within_below c d x : within n T c d -> below n T d x -> below n T c x.
      Proof. intros H Hb. apply within_sub in H. eapply below_up; eauto. Qed.
      Lemma nested_at c d x : below n T c x -> below n T d x -> within n T c d \/ within n T d c.
      Proof. intros H1 H2. rewrite !within_sub. destruct (below_nested n wt mcs T HC c d x H1 H2); auto. Qed.
      Lemma fit_part c d : fitting n T m c -> descends n T c d -> fitting n T m d.
      Proof.
        intros (r & Hr & Hlt & Er & Hle) Hd.
        assert (Hdc : In d (sub (children_of (cluster_rows n T)) (top_id n T) c)) by (apply within_sub; now right).
        destruct (sub_range n wt mcs T HC c d Hdc) as [E|Hd'].
        { exfalso. subst d. apply (descends_sub n wt mcs T HC) in Hd as [_ Hd]. auto. }
        assert (K : is_cluster n T d) by (apply (is_cluster_iff n wt mcs T HC); lia). destruct K as [|(Hge & q & Hq & Eq)]; [lia|].
        exists q. split; auto. split; [lia|]. split; auto. apply (sle_trans Sz _ (c_size r)); auto.
        destruct (ct_sizes _ _ _ _ HC q Hq ltac:(lia)) as (_ & xs & Nx & Bx & ->). destruct (ct_sizes _ _ _ _ HC r Hr ltac:(lia)) as (_ & ys & Ny & By & ->).
        apply ssum_incl; auto.
        - intros x Hx. apply By. apply Bx in Hx. rewrite Er. rewrite Eq in Hx. eapply within_below; eauto. now right.
        - intros y Hy. apply By, below_lt in Hy. auto.
      Qed.
      Lemma fit_leaf c : fitting n T m c -> exists l, leaf_cluster n T l /\ within n T c l /\ fitting n T m l.
      Proof.
        intro Hf. destruct (P_SelectTop.leaf_below n wt mcs T HC c (fit_cluster c Hf)) as (l & Hl & [->|Hd]).
        - exists c. split; auto. split; [now left|auto].
        - exists l. split; auto. split; [now right|]. eapply fit_part; eauto.
      Qed.

      Section Chosen.
        Variable S : list nat.
        Hypothesis HS : eom_selects T S.
        Lemma chosen_fit s : In s S -> fitting n T m s.
        Proof. intro Hs. apply fit_admissible. apply HS. auto. Qed.
        Lemma chosen_noroot : ~ In n S.
        Proof. intro Hs. apply chosen_fit in Hs as (r & _ & Hlt & _). lia. Qed.
        Lemma chosen_nodup : NoDup S. Proof. apply HS. Qed.
        Lemma chosen_cluster s : In s S -> is_cluster n T s. Proof. intro Hs. now apply fit_cluster, chosen_fit. Qed.
        Lemma chosen_disjoint : disjoint_clusters n T S. Proof. apply HS. Qed.
        (** Every fitting cluster contains or is part of a chosen one, at some sample. *)
        Lemma chosen_covers c : fitting n T m c -> exists s x, In s S /\ below n T s x /\ below n T c x.
        Proof.
          intro Hf. destruct (fit_leaf c Hf) as (l & Hl & Hw & Hfl). destruct HS as (_ & _ & _ & _ & _ & Hcov).
          destruct (Hcov (fit_rows c Hf) l Hl) as (s & Hs & Hsl).
          { apply fit_admissible in Hfl. apply Hfl. }
          destruct (fit_sample l Hfl) as (x & Hx). exists s, x. split; auto. split; [|eapply within_below; eauto].
          apply (within_below s l); auto.
        Qed.
        Lemma chosen_same s t x : In s S -> In t S -> below n T s x -> below n T t x -> s = t.
        Proof.
          intros Hs Ht Bs Bt. destruct (nested_at s t x Bs Bt) as [[|H]|[|H]]; auto; exfalso; [apply (chosen_disjoint s t)|apply (chosen_disjoint t s)]; auto.
        Qed.
        Lemma chosen_sole : length S = 1 -> exists c, S = [c] /\ c <> n.
        Proof. intro H. pose proof chosen_noroot as K. clear HS. destruct S as [|c [|]]; try discriminate. exists c. split; auto. intros ->. apply K. now left. Qed.
        Lemma chosen_labels ls : get_cluster_label_vector LA T S None n = Ok ls -> forall s x, In s S -> below n T s x -> nth x ls 0%Z = Z.of_nat (position S s).
        Proof.
          intros EL s x Hs Hb. eapply (below_members LA n wt mcs T HC Hn0 S chosen_cluster chosen_nodup None ls EL chosen_disjoint HP); eauto. intros ->. now apply chosen_noroot.
        Qed.
        Lemma chosen_facts ls : get_cluster_label_vector LA T S None n = Ok ls ->
          numbered n ls /\ large_clusters n wt mcs ls /\ bounded_clusters n wt m ls /\ from_fitting n T m ls.
        Proof.
          intro EL. destruct HS as (_ & HN & HA & HDj & _).
          assert (HM : forall x, x < n -> nth x ls 0%Z <> (-1)%Z -> exists s, In s S /\ nth x ls 0%Z = Z.of_nat (position S s) /\ forall y, y < n -> (nth y ls 0%Z = nth x ls 0%Z <-> below n T s y)).
          { intros x Hx Hl. destruct (members_below LA n wt mcs T HC Hn0 S chosen_cluster HN None ls EL x Hx Hl) as (s & Hs & Es & HB). exists s. split; auto. split; auto.
            intros y Hy. split; [auto|]. intro Hb. rewrite Es. now apply chosen_labels. }
          assert (HX : forall x, x < n -> nth x ls 0%Z <> (-1)%Z -> NoDup (members n ls (nth x ls 0%Z)) /\ (forall y, In y (members n ls (nth x ls 0%Z)) <-> y < n /\ nth y ls 0%Z = nth x ls 0%Z)).
          { intros x _ _. split; [apply members_nodup|apply members_in]. }
          split; [|split; [|split]].
          - exists (length S). intro l. split.
            + intro Hl. split; [lia|]. destruct (position_all S (Z.to_nat l) HN ltac:(lia)) as (s & Hs & Ep). destruct (fit_sample s (chosen_fit s Hs)) as (x & Hx).
              exists x. split; [now apply below_lt in Hx|]. rewrite (chosen_labels ls EL s x Hs Hx). lia.
            + intros [Hl (x & Hx & <-)]. destruct (HM x Hx Hl) as (s & Hs & -> & _). pose proof (position_lt S s HN Hs). lia.
          - intros x Hx Hl. destruct (HX x Hx Hl). eexists. split; [eassumption|]. split; [eassumption|]. eapply (size_enough LA n wt mcs T HC Hn0); eauto. apply chosen_noroot.
          - intros x Hx Hl. destruct (HX x Hx Hl). eexists. split; [eassumption|]. split; [eassumption|].
            destruct (size_bound LA n wt mcs T HC Hn0 _ m _ S None ls HA HN Hmax Hwn EL x Hx Hl) as [(s & _ & _ & K)|[Hr _]]; auto. exfalso. now apply chosen_noroot.
          - split.
            + intros x Hx Hl. destruct (HM x Hx Hl) as (s & Hs & _ & K). exists s. split; auto. now apply chosen_fit.
            + intros c Hc. destruct (chosen_covers c Hc) as (s & x & Hs & Bs & Bc). exists x. split; auto. rewrite (chosen_labels ls EL s x Hs Bs). lia.
        Qed.
      End Chosen.

      Lemma max_total : run st = Err KeyError \/ exists ls ps, run st = Ok (ls, ps, T) /\ clustering zero (la_one LA) n ls ps /\
        numbered n ls /\ large_clusters n wt mcs ls /\ bounded_clusters n wt m ls /\ from_fitting n T m ls.
      Proof.
        destruct (eom_run T Hmeth HC) as (S & HS). destruct (Nat.eq_dec (length S) 1) as [H1|H1].
        - left. destruct (chosen_sole S HS H1) as (c & -> & Hc). now apply (alone_error c).
        - right. destruct (others_ok S HS ltac:(tauto)) as (ls & ps & ER & Hcl & EL). exists ls, ps. split; auto. split; auto. now apply (chosen_facts S HS).
      Qed.
      (** No cluster fits: noise. *)
      Lemma max_none : (forall c, ~ fitting n T m c) -> exists ps, run st = Ok (repeat (-1)%Z n, ps, T).
      Proof.
        intro Hno. destruct (eom_run T Hmeth HC) as (S & HS). assert (S = []) as -> by (destruct S as [|s S]; auto; exfalso; apply (Hno s), (chosen_fit (s :: S) HS); now left).
        destruct (others_ok [] HS ltac:(discriminate)) as (ls & ps & ER & Hcl & EL). rewrite labels_nothing in EL. injection EL as <-. eauto.
      Qed.
      (** Fitting clusters inside each other: failure. *)
      Lemma max_chain : (exists c, fitting n T m c) -> (forall c d, fitting n T m c -> fitting n T m d -> within n T c d \/ within n T d c) -> run st = Err KeyError.
      Proof.
        intros (c & Hc) Hch. destruct (eom_run T Hmeth HC) as (S & HS). destruct (chosen_covers S HS c Hc) as (s & x & Hs & _).
        assert (S = [s]) as ->.
        { assert (Hall : forall t, In t S -> t = s).
          { intros t Ht. destruct (Hch s t (chosen_fit S HS s Hs) (chosen_fit S HS t Ht)) as [[|K]|[|K]]; auto; exfalso; [apply (chosen_disjoint S HS s t)|apply (chosen_disjoint S HS t s)]; auto. }
          pose proof (chosen_nodup S HS) as HN. destruct S as [|a [|b l]]; [destruct Hs|rewrite (Hall a (or_introl eq_refl)); auto|].
          exfalso. inversion_clear HN. apply H. rewrite (Hall a (or_introl eq_refl)), (Hall b (or_intror (or_introl eq_refl))). now left. }
        apply (alone_error s); auto. intros ->. now apply (chosen_noroot [n] HS).
      Qed.
      (** Two fitting clusters with no common fitting superset: at least two clusters. *)
      Lemma max_two a b : fitting n T m a -> fitting n T m b -> (forall c, fitting n T m c -> ~ (within n T c a /\ within n T c b)) ->
        exists ls ps, run st = Ok (ls, ps, T) /\ exists x y, below n T a x /\ below n T b y /\ nth x ls 0%Z <> (-1)%Z /\ nth y ls 0%Z <> (-1)%Z /\ nth x ls 0%Z <> nth y ls 0%Z.
      Proof.
        intros Ha Hb Hno. destruct (eom_run T Hmeth HC) as (S & HS).
        destruct (chosen_covers S HS a Ha) as (s & x & Hs & Bs & Ba). destruct (chosen_covers S HS b Hb) as (t & y & Ht & Bt & Bb).
        assert (Hst : s <> t).
        { intros <-. pose proof (chosen_fit S HS s Hs) as Hf. destruct (nested_at s a x Bs Ba) as [H1|H1], (nested_at s b y Bt Bb) as [H2|H2].
          - apply (Hno s); auto.
          - apply (Hno b); auto. split; [|now left]. apply within_sub. apply within_sub in H1, H2. eapply (sub_trans _ _ (ct_up _ _ _ _ HC) (ct_bound _ _ _ _ HC)); eauto.
          - apply (Hno a); auto. split; [now left|]. apply within_sub. apply within_sub in H1, H2. eapply (sub_trans _ _ (ct_up _ _ _ _ HC) (ct_bound _ _ _ _ HC)); eauto.
          - destruct (nested_at a b x Ba (within_below b s x H2 Bs)) as [H3|H3]; [apply (Hno a)|apply (Hno b)]; auto; split; auto; now left. }
        assert (H1 : length S <> 1) by (intro H1; destruct S as [|c [|]]; try discriminate; destruct Hs as [<-|[]], Ht as [<-|[]]; auto).
        destruct (others_ok S HS ltac:(tauto)) as (ls & ps & ER & Hcl & EL). exists ls, ps. split; auto. exists x, y. split; auto. split; auto.
        rewrite (chosen_labels S HS ls EL s x Hs Bs), (chosen_labels S HS ls EL t y Ht Bt). split; [lia|]. split; [lia|].
        intro E. apply Hst. apply Nat2Z.inj in E. apply position_inj in E; auto. apply (chosen_nodup S HS).
      Qed.
    End Max.
  End Total.
End Run.
