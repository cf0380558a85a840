(** The clustering of a spanning tree is determined by the tree and the settings. *)
From Coq Require Import List Arith Lia Bool ZArith Permutation Sorted.
From Verif Require Import Prelude Order Graph Size Num UF M_Linkage S_Linkage M_Condense S_Condense M_Select S_Select M_Labels S_Labels
  M_Epsilon S_Epsilon M_Simplify S_Simplify M_Pipeline S_Pipeline P_CTree P_Sort Forest P_Below P_CondenseTop P_Epsilon P_EpsilonTop P_BCTop
  P_Pipeline P_PipelineTop P_PipelineRun P_SimplifyTop P_Labels.
Import ListNotations.

Section Det.
  Context {V : WOrd} {Sz : SOrd}.

  (** ** Uninitialised memory *)
  Section Garbage.
    Variables (persists : V -> V -> bool) (g1 g2 : nat -> V) (T : list (crow V Sz)).
    Notation ct := (cluster_tree_from_condensed_tree T).
    Hypothesis Hrows : forall r, In r ct -> exists q, In q T /\ c_parent q = c_child r.
    Hypothesis Hct : forall r, In r ct -> In r T.
    Definition is_parent (c : nat) : Prop := exists q, In q T /\ c_parent q = c.
    Definition agree (a b : @sstate V) : Prop :=
      leaf_indicator a = leaf_indicator b /\ parent_map a = parent_map b /\ lambda_map a = lambda_map b /\
      forall c, is_parent c -> max_births a c = max_births b c.

    Lemma pair_agree r q a b : In r ct -> In q ct -> agree a b -> agree (simplify_pair persists r q a) (simplify_pair persists r q b).
    Proof.
      intros Hr Hq (E1 & E2 & E3 & E4). unfold simplify_pair.
      rewrite (E4 (c_child r)) by (apply Hrows; auto). rewrite (E4 (c_child q)) by (apply Hrows; auto).
      rewrite (E4 (c_parent q)) by (exists q; auto). rewrite E1, E2, E3.
      destruct (persists _ _); (split; [|split; [|split]]; try reflexivity); intros c Hc; cbn [max_births]; unfold upd; destruct (c =? c_parent q); auto.
    Qed.
    Lemma pairs_agree n : forall l, length l <= n -> (forall r, In r l -> In r ct) -> forall a b, agree a b ->
      agree (simplify_pairs persists l a) (simplify_pairs persists l b).
    Proof.
      induction n as [|n IH]; intros [|q [|r l]] Hl Hi a b H; simpl in Hl; auto; try lia. cbn [simplify_pairs]. apply IH; [lia|intros; apply Hi; simpl; auto|].
      apply pair_agree; auto; apply Hi; simpl; auto.
    Qed.
    Lemma births_agree l : forall b1 b2 c, (In c (map c_parent l) \/ b1 c = b2 c) ->
      fold_left (fun births (r : crow V Sz) => upd births (c_parent r) (c_lam r)) l b1 c =
      fold_left (fun births (r : crow V Sz) => upd births (c_parent r) (c_lam r)) l b2 c.
    Proof.
      induction l as [|r l IH]; intros b1 b2 c H; simpl in *; [tauto|]. apply IH. unfold upd.
      destruct (Nat.eqb_spec c (c_parent r)); auto. destruct H as [[H|H]|H]; auto. congruence.
    Qed.
    Lemma simplify_garbage : simplify_hierarchy persists g1 T = simplify_hierarchy persists g2 T.
    Proof.
      unfold simplify_hierarchy.
      set (s0 := fun g => {| leaf_indicator := fun c => negb (existsb (fun r => c_parent r =? c) ct);
                 max_births := fold_left (fun births (r : crow V Sz) => upd births (c_parent r) (c_lam r)) T g;
                 parent_map := fun c => c; lambda_map := [] |}).
      assert (HA : agree (simplify_pairs persists (rev ct) (s0 g1)) (simplify_pairs persists (rev ct) (s0 g2))).
      { apply (pairs_agree _ _ (le_n _)).
        - intros r Hr. apply in_rev. auto.
        - repeat split. intros c (x & Hx & <-). unfold s0. cbn [max_births]. apply births_agree. left. now apply in_map. }
      fold (s0 g1) (s0 g2). clearbody s0. revert HA. generalize (rev ct). intros l HA.
      destruct T as [|r0 T0]; [reflexivity|]. destruct l as [|q l]; [reflexivity|].
      destruct HA as (_ & -> & -> & _). reflexivity.
    Qed.
  End Garbage.

  (** ** The order of equal parents *)
  Section Sorted.
    Variables (n : nat) (wt : nat -> Sz) (mcs : Sz) (T : list (crow V Sz)).
    Hypothesis HT : condensed n wt mcs T.
    Hypothesis HO : splits_once n T.
    Notation CT := (cluster_rows n T).
    Variables B1 B2 : list (crow V Sz).
    Hypothesis HP1 : Permutation B1 CT.
    Hypothesis HB1 : StronglySorted (fun r q => c_parent r <= c_parent q) B1.
    Hypothesis HP2 : Permutation B2 CT.
    Hypothesis HB2 : StronglySorted (fun r q => c_parent r <= c_parent q) B2.
    Variable lt_eps : V -> bool.
    Hypothesis Hmono : forall x y, wle x y = true -> lt_eps x = true -> lt_eps y = true.

    Definition eps_rel (r1 r2 : res (list nat * list nat)) : Prop :=
      match r1, r2 with
      | Ok (e1, p1), Ok (e2, p2) => e1 = e2 /\ forall x, In x p1 <-> In x p2
      | Err a, Err b => a = b
      | _, _ => False
      end.
    Lemma in_set_same p1 p2 c : (forall x, In x p1 <-> In x p2) -> in_set p1 c = in_set p2 c.
    Proof.
      intro H. destruct (in_set p1 c) eqn:E1, (in_set p2 c) eqn:E2; auto.
      - apply in_set_true in E1. apply in_set_false in E2. exfalso. apply E2, H, E1.
      - apply in_set_false in E1. apply in_set_true in E2. exfalso. apply E1, H, E2.
    Qed.
    Lemma step_same c e p1 p2 : n < c < top_id n T -> (forall x, In x p1 <-> In x p2) ->
      eps_rel (epsilon_step lt_eps CT B1 n c (e, p1)) (epsilon_step lt_eps CT B2 n c (e, p2)).
    Proof.
      intros Hc Hp. unfold epsilon_step. destruct (lookup n wt mcs T HT c Hc) as (r & Hr & Ec & ->). cbn [bind].
      destruct (lt_eps (c_lam r)) eqn:El; [|simpl; auto]. rewrite (in_set_same p1 p2 c Hp). destruct (in_set p2 c); [simpl; auto|].
      destruct (traverse_ok n wt mcs T HT lt_eps (Datatypes.S (length CT)) c Hc) as (P & u & -> & HPr & _);
        [unfold top_id in Hc; lia|exists r; auto|]. cbn [bind].
      destruct (segments_ok n wt mcs T HT HO B1 HP1 HB1 P HPr) as (R1 & -> & HR1).
      destruct (segments_ok n wt mcs T HT HO B2 HP2 HB2 P HPr) as (R2 & -> & HR2). cbn [bind eps_rel]. split; auto.
      intro x. rewrite !set_union_in, HR1, HR2, Hp. tauto.
    Qed.
    Lemma fold_same cs : (forall c, In c cs -> n < c < top_id n T) -> forall e p1 p2, (forall x, In x p1 <-> In x p2) ->
      eps_rel (fold_res (epsilon_step lt_eps CT B1 n) cs (e, p1)) (fold_res (epsilon_step lt_eps CT B2 n) cs (e, p2)).
    Proof.
      induction cs as [|c cs IH]; intros Hc e p1 p2 Hp; cbn [fold_res]; [simpl; auto|].
      pose proof (step_same c e p1 p2 (Hc c (or_introl eq_refl)) Hp) as H. unfold eps_rel in H.
      destruct (epsilon_step lt_eps CT B1 n c (e, p1)) as [[e1 q1]|x1], (epsilon_step lt_eps CT B2 n c (e, p2)) as [[e2 q2]|x2]; try contradiction.
      - destruct H as [-> H]. cbn [bind]. apply IH; auto. intros; apply Hc; simpl; auto.
      - subst. reflexivity.
    Qed.
    Lemma search_same cs : CT <> [] -> (forall c, In c cs -> n < c < top_id n T) -> 
      cluster_epsilon_search lt_eps cs CT B1 = cluster_epsilon_search lt_eps cs CT B2.
    Proof.
      intros Hne Hc. unfold cluster_epsilon_search. rewrite (ct_min n wt mcs T HT Hne). cbn [bind].
      pose proof (fold_same cs Hc [] [] [] (fun x => iff_refl _)) as H. unfold eps_rel in H.
      destruct (fold_res (epsilon_step lt_eps CT B1 n) cs ([], [])) as [[e1 q1]|x1], (fold_res (epsilon_step lt_eps CT B2 n) cs ([], [])) as [[e2 q2]|x2]; try contradiction; cbn [bind].
      - now destruct H as [-> _].
      - now subst.
    Qed.
  End Sorted.
End Det.

Section Same.
  Context {W V : WOrd} {Sz : SOrd}.
  Variables (lam : W -> V) (LA : LamArith V) (sel : list (crow V Sz) -> res (list nat)) (g1 g2 : nat -> V)
    (by1 by2 : list (crow V Sz) -> list (crow V Sz)) (st : settings V Sz).
  Variables (n : nat) (wt : nat -> Sz) (L : list (lrow W Sz)).
  Notation zero := (la_zero LA).
  Notation mcs := (min_cluster_size st).
  Hypothesis HL : LamLaws LA.
  Hypothesis HU : usable zero st.
  Hypothesis HB1 : sorts_by_parent by1.
  Hypothesis HB2 : sorts_by_parent by2.
  Hypothesis Hsel : forall T, condensed n wt mcs T -> (forall r, In r T -> wle zero (c_lam r) = true) ->
    exists S, sel T = Ok S /\ selects st n T S.
  Hypothesis Hsz : sle (s := Sz) szero sone = true.
  Hypothesis Hn : 2 <= n.
  Hypothesis Hlam : forall x y, wle x y = true -> wle (lam y) (lam x) = true.
  Hypothesis Hpos : forall w, wle zero (lam w) = true.
  Hypothesis HD : dendrogram n L.
  Hypothesis HS : sizes_are n wt L.
  Hypothesis HH : heights_sorted L.
  Hypothesis Hwt : forall x, x < n -> sle mcs (wt x) = false.

  Lemma tree_same : condensed_tree_of lam g1 st wt L = condensed_tree_of lam g2 st wt L.
  Proof.
    destruct (c24 W V Sz n L wt mcs None lam HD HS HH Hlam Hwt Hn) as (T0 & ET0 & HT0 & _).
    unfold condensed_tree_of. rewrite ET0. cbn [bind]. destruct (cluster_selection_persistence st) as [p|]; [|reflexivity].
    destruct T0 as [|r0 T0]; [reflexivity|]. apply simplify_garbage; rewrite (mask_ok n wt mcs _ HT0 (us_size _ _ HU)).
    - intros r Hr. apply filter_In in Hr as [Hr Hc]. apply Nat.leb_le in Hc. apply (has_rows n wt mcs _ (repeat 0%Z n) HT0 (us_size _ _ HU) Hsz ltac:(lia) (repeat_length _ _)); auto.
    - intros r Hr. apply filter_In in Hr. apply Hr.
  Qed.

  Lemma epsilon_same T S : condensed n wt mcs T -> splits_once n T -> NoDup S -> (forall s, In s S -> is_cluster n T s) ->
    disjoint_clusters n T S -> (cluster_rows n T = [] -> S = []) ->
    (cluster_rows n T <> [] -> forall l, leaf_cluster n T l -> exists s, In s S /\ (s = l \/ descends n T s l)) ->
    epsilon_clusters_of by1 st T S = epsilon_clusters_of by2 st T S.
  Proof.
    intros HT HO H1 H2 H3 H4 H5. unfold epsilon_clusters_of. rewrite (mask_ok n wt mcs T HT (us_size _ _ HU)).
    destruct (cluster_selection_epsilon st) as [[lt_eps inv]|] eqn:Ee; auto.
    destruct (1 <? length S) eqn:El; auto. apply Nat.ltb_lt in El.
    assert (Hne : cluster_rows n T <> []) by (intro E; rewrite (H4 E) in El; simpl in El; lia).
    destruct (cover_single LA st n wt T HU HT ltac:(lia) S Hne H1 H2 H3 (H5 Hne)) as [->|[Hout _]]; [simpl in El; lia|].
    destruct (HB1 (cluster_rows n T)) as [P1 S1]. destruct (HB2 (cluster_rows n T)) as [P2 S2].
    apply (search_same n wt mcs T HT HO _ _ P1 S1 P2 S2); auto.
    intros c Hc. pose proof (H2 c Hc) as H. apply (is_cluster_iff n wt mcs T HT) in H. assert (c <> n) by (intros ->; contradiction). lia.
  Qed.

  Lemma run_same : run_with lam LA sel g1 by1 st n wt L = run_with lam LA sel g2 by2 st n wt L.
  Proof.
    destruct (linkage_cases lam LA sel g1 by1 st n wt L HL HU HB1 Hsel Hsz Hn Hlam Hpos HD HS HH Hwt)
      as [(T & S & E & ls & ps & ET & ER & HX & HT & HO & Hp & _)|(_ & ER & T0 & ET0 & _)].
    - destruct (Hsel T HT Hp) as (S' & ES & S1 & S2 & S3 & S4 & S5 & _).
      unfold run_with. rewrite <- tree_same, ET. cbn [bind]. rewrite ES. cbn [bind]. now rewrite (epsilon_same T S').
    - destruct (linkage_cases lam LA sel g2 by2 st n wt L HL HU HB2 Hsel Hsz Hn Hlam Hpos HD HS HH Hwt)
        as [(T & S & E & ls & ps & ET & ER2 & HX & HT & HO & Hp & _)|(_ & ER2 & _)]; [|congruence].
      exfalso. destruct (Hsel T HT Hp) as (S' & ES & S1 & S2 & S3 & S4 & S5 & _).
      unfold run_with in ER, ER2. rewrite tree_same, ET in ER. rewrite ET in ER2. cbn [bind] in ER, ER2. rewrite ES in ER, ER2. cbn [bind] in ER, ER2.
      rewrite (epsilon_same T S') in ER by auto. rewrite ER in ER2. discriminate.
  Qed.
End Same.
