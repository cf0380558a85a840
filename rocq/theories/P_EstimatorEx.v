(** The estimator with exact arithmetic and all pairwise distances; the cases
    that go wrong. *)
From Coq Require Import List Arith Lia Bool ZArith Permutation QArith Qcanon.
From Verif Require Import Prelude Order Graph Size Num S_Kruskal M_Kruskal M_KruskalEntry P_PrecomputedTop M_Linkage S_Linkage M_Condense S_Condense
  M_Select S_Select P_EomValue M_Labels P_LabelsEx P_EpsilonTop M_Pipeline S_Pipeline P_PipelineRun P_PipelineEx M_Estimator S_Estimator P_Estimator.
Import ListNotations.
Local Open Scope nat_scope.

(** Kruskal on all pairs of rows. *)
Definition pairs_mst {W : WOrd} {Row} (zero : W) (dist : Row -> Row -> W) (min_samples : nat) (rows : list Row) : res (list (edge W)) :=
  let D i j := match nth_error rows i, nth_error rows j with Some x, Some y => dist x y | _, _ => zero end in
  let* (r, core) := kruskal_mst_brute zero D (length rows) min_samples CLNone in Ok (fst r).

Lemma pairs_ok {W : WOrd} {Row} (zero : W) (dist : Row -> Row -> W) ms rows : 0 < length rows ->
  exists M, pairs_mst zero dist ms rows = Ok M /\ spanning_tree (length rows) M.
Proof.
  intro H. unfold pairs_mst. set (D := fun i j => _). destruct (c03_brute zero D (length rows) ms H) as (T & nbrs & core & E & HT & _). rewrite E. cbn [bind fst]. eauto.
Qed.

Definition exact_run {Row} (dist : Row -> Row -> QInf) min_samples (garbage : nat -> QInf)
    (by_parent : list (crow QInf NatSize) -> list (crow QInf NatSize)) (st : settings QInf NatSize) (rows : list Row) : res (fitted QInf QInf NatSize) :=
  fast_hdbscan hdbscan_lambda_value ExactLam garbage (pairs_mst (W := QInf) (Some 0%Qc) dist min_samples) (ExactArith NatSize nat_as_q) by_parent st rows.

Lemma exact_fit {Row} (dist : Row -> Row -> QInf) ms garbage by_parent mcs m a e p ok set_list (X : list Row) :
  sorts_by_parent by_parent -> 2 <= mcs -> (p <= 0)%Qc -> (forall l, Permutation (set_list l) l) -> forallb ok X = false -> 3 <= length (filter ok X) ->
  let st := exact_settings (Sz := NatSize) mcs m a e p in
  exists r0 r pos others, exact_run dist ms garbage by_parent st (filter ok X) = Ok r0 /\
    fit (la_zero ExactLam) ok set_list (exact_run dist ms garbage by_parent st) X = Ok r /\
    other_rows ok X others /\ places ok X pos /\ spanning_tree (length (filter ok X)) (f_mst r0) /\
    extends (V := QInf) (Sz := NatSize) (la_zero ExactLam) ok X (fun _ => 1) mcs r0 r pos others.
Proof.
  intros HB Hm Hp Hs Hx Hf st. destruct (pairs_ok (W := QInf) (Some 0%Qc) dist ms (filter ok X)) as (M & EM & HM); [lia|].
  assert (HK : setting_ok hdbscan_lambda_value ExactLam (ExactArith NatSize nat_as_q) by_parent st).
  { apply exact_ok; auto. unfold slt. cbn. apply negb_true_iff. apply Nat.leb_gt. lia. }
  destruct (fit_plain hdbscan_lambda_value ExactLam garbage _ ok set_list X Hs Hx Hf _ by_parent st M HK EM HM) as [(r0 & r & pos & others & E0 & E1 & H1 & H2 & H3 & H4)|[H _]].
  - pose proof (spanning_perm _ _ _ (sort_mst_perm M) HM) as HM'. exists r0, r, pos, others. rewrite H1. exact (conj E0 (conj E1 (conj H2 (conj H3 (conj HM' H4))))).
  - exfalso. apply H. unfold st. cbn. apply Qcleb_le in Hp. now rewrite Hp.
Qed.

Lemma fit_all_finite {W V : WOrd} {Sz : SOrd} {Row} (zero : V) ok set_list (run : list Row -> res (fitted W V Sz)) X :
  (forall x, In x X -> ok x = true) -> fit zero ok set_list run X = run X.
Proof. intro H. unfold fit. rewrite (proj2 (forallb_forall ok X) H). reflexivity. Qed.

(** ** Points on a line; [None] is a row with NaN *)
Definition line_dist (x y : option Z) : QInf :=
  match x, y with Some a, Some b => Some (Q2Qc (inject_Z (Z.abs (a - b)))) | _, _ => None end.
Definition present (x : option Z) : bool := match x with Some _ => true | None => false end.
Definition line_fit (mcs : nat) (X : list (option Z)) : res (fitted QInf QInf NatSize) :=
  fit (W := QInf) (V := QInf) (Sz := NatSize) (la_zero ExactLam) present (fun l => l) (exact_run line_dist 1 (fun _ => None) by_parent_of (exact_settings (Sz := NatSize) mcs Eom false 0%Qc 0%Qc)) X.
Definition merges (f : fitted QInf QInf NatSize) : list (nat * nat * nat) := map (fun l => (l_a l, l_b l, l_n l)) (f_linkage f).
Definition shown (r : res (fitted QInf QInf NatSize)) : res (list Z * list (nat * nat * nat)) :=
  match r with
  | Ok f => Ok (f_labels f, merges f)
  | Err e => Err e
  end.

Lemma two_finite_rows : exists X r, length (filter present X) = 2 /\ line_fit 2 X = Ok r /\ ~ dendrogram (length X) (f_linkage r).
Proof.
  set (X := [Some 0; Some 1; None; None]%Z).
  assert (H : shown (line_fit 2 X) = Ok ([-1; -1; -1; -1]%Z, [(1, 0, 2); (2, 2, 3); (3, 3, 4)])) by (vm_compute; reflexivity).
  destruct (line_fit 2 X) as [r|] eqn:E; [|discriminate]. exists X, r. split; [reflexivity|]. split; [exact E|]. intro HD.
  cbn [shown] in H. injection H as _ H. pose proof (dg_once _ _ HD) as Hn. pose proof (seq_NoDup (2 * length X - 2) 0) as HN.
  assert (E2 : child_list (f_linkage r) = flat_map (fun t => [fst (fst t); snd (fst t)]) (merges r)).
  { unfold child_list, merges. generalize (f_linkage r). clear. intro L. induction L as [|l L IH]; [reflexivity|]. cbn [flat_map map fst snd]. now rewrite IH. }
  apply (Permutation_NoDup (Permutation_sym Hn)) in HN. rewrite E2, H in HN. cbn in HN. rename HN into H3. clear Hn. rename H3 into Hn. apply NoDup_cons_iff in Hn as [_ Hn]. apply NoDup_cons_iff in Hn as [_ Hn]. apply NoDup_cons_iff in Hn as [Hn _]. apply Hn. now left.
Qed.

Lemma one_finite_row : exists X r, length (filter present X) = 1 /\ line_fit 2 (filter present X) = Ok r /\ line_fit 2 X = Err IndexError.
Proof.
  set (X := [Some 0; None]%Z).
  assert (H : shown (line_fit 2 (filter present X)) = Ok ([-1]%Z, [])) by (vm_compute; reflexivity).
  destruct (line_fit 2 (filter present X)) as [r|] eqn:E; [|discriminate]. exists X, r. split; [reflexivity|]. split; [exact E|].
  assert (H1 : shown (line_fit 2 X) = Err IndexError) by (vm_compute; reflexivity). destruct (line_fit 2 X); cbn [shown] in H1; congruence.
Qed.

Lemma tree_not_renumbered : exists X r e, length (filter present X) = 4 /\ line_fit 2 X = Ok r /\ In e (f_mst r) /\ nth_error X (edst e) = Some None.
Proof.
  set (X := [Some 0; None; Some 1; Some 10; None; Some 11]%Z).
  assert (H : match line_fit 2 X with Ok r => existsb (fun e => edst e =? 1) (f_mst r) | Err _ => false end = true) by (vm_compute; reflexivity).
  destruct (line_fit 2 X) as [r|] eqn:E; [|discriminate]. apply existsb_exists in H as (e & He & H). apply Nat.eqb_eq in H.
  exists X, r, e. split; [reflexivity|]. split; [exact E|]. split; auto. rewrite H. reflexivity.
Qed.
