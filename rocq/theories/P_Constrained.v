(** Fitting with cannot-link constraints when rows are missing. *)
From Coq Require Import List Arith Lia Bool ZArith Permutation QArith Qcanon.
From Verif Require Import Prelude Order Graph Size Num S_Kruskal S_Precomputed M_Kruskal M_KruskalEntry P_KruskalRun P_PrecomputedTop M_Linkage S_Linkage M_Condense S_Condense
  M_Select S_Select P_EomValue M_Labels P_LabelsEx P_EpsilonTop M_Pipeline S_Pipeline P_PipelineTop P_PipelineRun P_PipelineEx M_Estimator S_Estimator P_Estimator P_EstimatorEx
  M_SubClusters M_Detector S_Detector P_Detector P_DetectorTop P_Dbscan M_Constrained.
Import ListNotations.
Local Open Scope nat_scope.

(** A Kruskal variant that respects the constraints it is given. *)
Definition respects {W : WOrd} {Row} (tree_of : cl_params -> list Row -> res (list (edge W))) (F : list Row) : Prop :=
  forall X g cl, valid_constraints (length F) X g -> resolve_cl_params (length F) X true g = Ok cl ->
  exists M E, tree_of cl F = Ok M /\ bridged_result (length F) (user_constraints (option_map sp_entries X) g) E M.

Lemma brute_respects {W : WOrd} {Row} (zero : W) (dist : Row -> Row -> W) ms F : 0 < length F -> respects (brute_tree zero dist ms) F.
Proof.
  intros Hn X g cl HV Ecl. unfold brute_tree. set (D := fun i j => _).
  destruct (c09_brute zero D (length F) ms X g Hn HV) as (cl' & M & nbrs & core & E1 & E2 & HB).
  assert (cl' = cl) by congruence. subst cl'. rewrite E2. cbn [bind fst]. eauto.
Qed.

Lemma knn_respects {W : WOrd} {Row} (zero : W) query ms knn_k (F : list Row) :
  let k := if 1 <? ms then Nat.max knn_k ms + 1 else knn_k + 1 in
  0 < length F -> length (query F k) = length F -> (forall row j d, In row (query F k) -> In (Some j, d) row -> j < length F) ->
  respects (knn_tree zero query ms knn_k) F.
Proof.
  intros k Hn HL Hr X g cl HV Ecl. unfold knn_tree.
  destruct (c09_knn zero (query F) ms knn_k X g (length F) Hn HL Hr HV) as (cl' & M & nbrs & core & E1 & E2 & HB).
  assert (cl' = cl) by congruence. subst cl'. rewrite E2. cbn [bind fst]. eauto.
Qed.

Section Fit.
  Context {W V : WOrd} {Row : Type}.
  Variables (lam : W -> V) (LA : LamArith V) (garbage : nat -> V) (ok : Row -> bool) (set_list : list nat -> list nat).
  Variable tree_of : cl_params -> list Row -> res (list (edge W)).
  Variables (A : Arith V NatSize) (by_parent : list (crow V NatSize) -> list (crow V NatSize)) (st : settings V NatSize).
  Variable X : list Row.
  Hypothesis Hset : forall l, Permutation (set_list l) l.
  Hypothesis HK : setting_ok lam LA A by_parent st.
  Notation F := (filter ok X).
  Notation run CL val g := (fast_hdbscan lam LA garbage (constrained_mst tree_of CL val g) A by_parent st).
  Notation zero := (la_zero LA).

  Lemma constraints_respected CL g Z N P :
    ScoreLaws lam A zero Z N P -> cluster_selection_persistence st = None -> wlt zero (lam winf) = false ->
    (if forallb ok X then 2 else 3) <= length F -> valid_constraints (length F) CL g -> respects tree_of F ->
    exists r, fit zero ok set_list (run CL true g) X = Ok r /\ length (f_labels r) = length X /\
      forall pos, places ok X pos -> forall i j, i < length F -> j < length F -> user_constraints (option_map sp_entries CL) g i j ->
      nth (pos i) (f_labels r) 0%Z = nth (pos j) (f_labels r) 0%Z -> nth (pos i) (f_labels r) 0%Z = (-1)%Z.
  Proof.
    intros HS Hp Hi Hn HV HR. destruct (resolve_all (length F) CL g HV) as (cl & Ecl & _).
    destruct (HR CL g cl HV Ecl) as (M & E & EM & HB).
    assert (EM' : constrained_mst tree_of CL true g F = Ok M) by (unfold constrained_mst; rewrite Ecl; exact EM).
    pose proof HB as (M0 & B & _ & _ & HM & _).
    assert (H2 : 2 <= length F) by (destruct (forallb ok X); lia).
    assert (Core : forall r0, run CL true g F = Ok r0 -> length (f_labels r0) = length F /\ forall i j, i < length F -> j < length F ->
              user_constraints (option_map sp_entries CL) g i j ->
              nth i (f_labels r0) 0%Z = nth j (f_labels r0) 0%Z -> nth i (f_labels r0) 0%Z = (-1)%Z).
    { intros r0 E0. assert (HM' : forall M', constrained_mst tree_of CL true g F = Ok M' -> spanning_tree (length F) M').
      { intros M' E'. rewrite EM' in E'. injection E' as <-. exact HM. }
      destruct (fast_run lam LA garbage _ A by_parent st F r0 HK H2 HM' E0) as ((M' & EM'' & _ & ER) & _).
      assert (M' = M) by congruence. subst M'. split.
      - destruct (plain_total lam LA A garbage by_parent st (length F) M HK HM H2) as [(ls & ps & T & E1 & HC & _)|[Hx _]]; [|congruence].
        rewrite ER in E1. injection E1 as H3 _ _. rewrite <- H3 in HC. apply HC.
      - eapply plain_cannot_link; eauto. }
    assert (HF : forallb ok X = true \/ forallb ok X = false) by (destruct (forallb ok X); auto). destruct HF as [HF|HF].
    - destruct (plain_total lam LA A garbage by_parent st (length F) M HK HM H2) as [(ls & ps & T & E1 & HC & _)|[Hx _]]; [|congruence].
      assert (E0 : exists r0, run CL true g F = Ok r0).
      { unfold fast_hdbscan. destruct (Nat.eqb_spec (length F) 0) as [|_]; [lia|]. destruct (Nat.ltb_spec (length F) 2) as [|_]; [lia|].
        rewrite EM'. unfold clusters_from_spanning_tree in E1. cbn [bind]. destruct (mst_to_linkage_tree (sort_mst M)) as [L|]; [|discriminate]. cbn [bind] in *.
        rewrite E1. cbn [bind]. eauto. }
      destruct E0 as [r0 E0].
      unfold fit. rewrite HF. pose proof (all_finite_filter ok X HF) as EF. rewrite EF in *. destruct (Core r0 E0) as [L0 C0].
      exists r0. split; auto. split; auto. intros pos HP i j Hi' Hj.
      assert (PI : forall i, i < length X -> pos i = i).
      { destruct HP as (P1 & P2 & P3). rewrite EF in P1, P2, P3.
        assert (G : forall m i, m = pos i -> i < length X -> i <= pos i).
        { intros m i0 _. induction i0 as [|i0 IH]; intro Hlt; [lia|]. specialize (IH ltac:(lia)). specialize (P1 i0 (S i0) ltac:(lia)). lia. }
        assert (U : forall d i, i + d = length X - 1 -> i < length X -> pos i <= i).
        { induction d as [|d IH]; intros i0 Hd Hlt.
          - assert (pos i0 < length X); [|lia]. apply nth_error_Some. rewrite P2 by auto. apply nth_error_Some. auto.
          - specialize (IH (S i0) ltac:(lia) ltac:(lia)). specialize (P1 i0 (S i0) ltac:(lia)). lia. }
        intros i0 Hlt. specialize (G _ i0 eq_refl Hlt). specialize (U (length X - 1 - i0) i0 ltac:(lia) Hlt). lia. }
      rewrite !PI by congruence. apply C0; auto.
    - rewrite HF in Hn. destruct (fit_plain lam LA garbage _ ok set_list X Hset HF Hn A by_parent st M HK EM' HM)
        as [(r0 & r & pos0 & others & E0 & E' & EMr & HO & HP0 & Ex)|[Hx _]]; [|congruence].
      exists r. split; auto. split; [apply (ex_labels _ _ _ _ _ _ _ _ _ Ex)|]. intros pos HP i j Hi' Hj HC.
      destruct (fit_picked zero ok set_list _ X r0 r pos HF E0 E' HP) as [(PL & _ & PP) _]. destruct (Core r0 E0) as [L0 C0].
      assert (G : forall i, i < length F -> nth (pos i) (f_labels r) 0%Z = nth i (f_labels r0) 0%Z).
      { intros i0 Hlt. specialize (PP i0 Hlt). rewrite (nth_error_nth' (f_labels r0) 0%Z (n := i0)) in PP by lia. now apply nth_error_nth. }
      rewrite !G by auto. apply C0; auto.
  Qed.

  Lemma constraints_of_all_rows CL g : forallb ok X = false -> 2 <= length F -> valid_constraints (length X) CL g -> (CL <> None \/ g <> None) ->
    fit zero ok set_list (run CL true g) X = Err ValueError.
  Proof.
    intros HF H2 HV Hg. apply fit_fails; auto. unfold fast_hdbscan. destruct (Nat.eqb_spec (length F) 0) as [|_]; [lia|]. destruct (Nat.ltb_spec (length F) 2) as [|_]; [lia|].
    assert (HL : length F <> length X).
    { intro E. assert (forallb ok X = true); [|congruence]. clear -E. induction X as [|x l IH]; auto. cbn [filter forallb] in *.
      destruct (ok x); cbn [length] in *; [apply IH; lia|]. exfalso. assert (length (filter ok l) <= length l); [|lia]. clear. induction l as [|a l IH]; auto. cbn [filter length]. destruct (ok a); cbn [length]; lia. }
    unfold constrained_mst. assert (ER : resolve_cl_params (length F) CL true g = Err ValueError); [|now rewrite ER].
    destruct CL as [c|], g as [gs|]; cbn in HV |- *; auto.
    - destruct HV as (R & C & _). unfold validate_cannot_link. cbn [negb]. rewrite R. destruct (Nat.eqb_spec (length X) (length F)); [congruence|]. reflexivity.
    - destruct HV as (R & _). unfold validate_groups. rewrite R. destruct (Nat.eqb_spec (length X) (length F)); [congruence|]. reflexivity.
    - destruct Hg; congruence.
  Qed.
End Fit.

(** ** Points on a line *)
Definition line_constrained (mcs : nat) (CL : option sparse) (validate : bool) (g : option (list Z)) (X : list (option Z)) : res (fitted QInf QInf NatSize) :=
  fit (W := QInf) (V := QInf) (Sz := NatSize) (la_zero ExactLam) present (fun l => l)
    (fast_hdbscan hdbscan_lambda_value ExactLam (fun _ => None) (constrained_mst (brute_tree (W := QInf) (Some 0%Qc) line_dist 1) CL validate g)
       (ExactArith NatSize nat_as_q) by_parent_of (exact_settings (Sz := NatSize) mcs Eom false 0%Qc 0%Qc)) X.
Definition labels_of (r : res (fitted QInf QInf NatSize)) : res (list Z) := match r with Ok f => Ok (f_labels f) | Err e => Err e end.
Definition line_rows : list (option Z) := [None; Some 0; Some 1; Some 3; Some 4; Some 20; Some 21; Some 23; Some 24]%Z.
(** Rows 1 and 2 must not be together. *)
Definition all_rows_pairs := {| sp_rows := 9; sp_cols := 9; sp_entries := [(1, 2, 1%Z); (2, 1, 1%Z)] |}.
Definition finite_rows_pairs := {| sp_rows := 8; sp_cols := 8; sp_entries := [(0, 1, 1%Z)] |}.
Definition finite_rows_groups : list Z := [0; 0; -1; 1; 1; -1; 2; 2]%Z.

(** Rows 1 and 2 are constrained, but share a cluster. *)
Lemma unvalidated_misplaced : exists X CL r x y,
  sp_rows CL = length X /\ sp_cols CL = length X /\ (forall i j v, In (i, j, v) (sp_entries CL) -> In (j, i, v) (sp_entries CL)) /\
  user_constraints (Some (sp_entries CL)) None x y /\ present (nth x X None) = true /\ present (nth y X None) = true /\
  line_constrained 2 (Some CL) false None X = Ok r /\ nth x (f_labels r) 0%Z = nth y (f_labels r) 0%Z /\ nth x (f_labels r) 0%Z <> (-1)%Z.
Proof.
  assert (H : labels_of (line_constrained 2 (Some all_rows_pairs) false None line_rows) = Ok [-1; 0; 0; 1; 1; 3; 3; 2; 2]%Z) by (vm_compute; reflexivity).
  destruct (line_constrained 2 (Some all_rows_pairs) false None line_rows) as [r|] eqn:E; [|discriminate]. cbn [labels_of] in H.
  assert (H' : f_labels r = [-1; 0; 0; 1; 1; 3; 3; 2; 2]%Z) by (injection H; auto). clear H.
  exists line_rows, all_rows_pairs, r, 1, 2. split; [reflexivity|]. split; [reflexivity|]. split.
  { intros i j v [K|[K|[]]]; injection K as <- <- <-; cbn; auto. }
  split. { split; [discriminate|]. exists 1%Z. split; [discriminate|]. cbn. auto. }
  split; [reflexivity|]. split; [reflexivity|]. split; [exact E|]. rewrite H'. split; [reflexivity|discriminate].
Qed.

Lemma at_least_one {Row} (ok : Row -> bool) X : (if forallb ok X then 2 else 3) <= length (filter ok X) -> 0 < length (filter ok X).
Proof. destruct (forallb ok X); lia. Qed.

Lemma constrained_hypotheses :
  forallb present line_rows = false /\ length (filter present line_rows) = 8 /\
  valid_constraints 8 (Some finite_rows_pairs) None /\ valid_constraints 8 None (Some finite_rows_groups) /\ valid_constraints 9 (Some all_rows_pairs) None /\
  user_constraints (Some (sp_entries finite_rows_pairs)) None 0 1 /\ places present line_rows S /\
  let st := exact_settings (Sz := NatSize) 2 Eom false 0%Qc 0%Qc in
  setting_ok hdbscan_lambda_value ExactLam (ExactArith NatSize nat_as_q) by_parent_of st /\ cluster_selection_persistence st = None /\
  wlt (la_zero ExactLam) (hdbscan_lambda_value (winf (w := QInf))) = false /\
  exists Z0 N P, ScoreLaws hdbscan_lambda_value (ExactArith NatSize nat_as_q) (la_zero ExactLam) Z0 N P.
Proof.
  split; [reflexivity|]. split; [reflexivity|]. split.
  { split; [reflexivity|]. split; [reflexivity|]. split; intros e [<-|[]]; [split; cbn; lia|cbn; lia]. }
  split. { split; [reflexivity|]. intros x H. cbn in H. repeat destruct H as [<-|H]; try lia. }
  split. { split; [reflexivity|]. split; [reflexivity|]. split; intros e [<-|[<-|[]]]; try (split; cbn; lia); cbn; lia. }
  split. { split; [discriminate|]. exists 1%Z. split; [discriminate|]. cbn. auto. }
  split. { split; [intros; lia|]. split.
    - intros i H. change (length (filter present line_rows)) with 8 in H. do 8 (destruct i as [|i]; [reflexivity|]). lia.
    - intros p x H H'. change (length (filter present line_rows)) with 8. assert (p < 9) by (apply (nth_error_Some line_rows); congruence).
      destruct p as [|p]; [cbn in H; injection H as <-; discriminate|]. exists p. split; [lia|reflexivity]. }
  intro st. split; [apply exact_ok; [apply ex_sorts|apply nat_mcs; lia]|]. split; [apply exact_no_persistence; apply Qcle_refl|]. split; [reflexivity|].
  exists xzero, xnonneg, xpos. apply exact_laws. apply nat_pos.
Qed.
