(** max_cluster_size for data with missing rows. *)
From Coq Require Import List Arith Lia Bool ZArith Permutation.
From Verif Require Import Prelude Order Graph Size Num M_Linkage M_Condense S_Condense M_Select M_Labels M_Pipeline S_Pipeline P_PipelineRun P_PipelineEx
  M_Estimator S_Estimator P_Estimator P_Dbscan S_MaxSize P_MaxSize P_MaxSizeTop.
Import ListNotations.
Local Open Scope nat_scope.

Lemma forallb_filter_self {Row} (finite : Row -> bool) X : forallb finite (filter finite X) = true.
Proof. apply forallb_forall. intros x Hx. apply filter_In in Hx. tauto. Qed.
Lemma filter_filter_self {Row} (finite : Row -> bool) X : filter finite (filter finite X) = filter finite X.
Proof. apply all_finite_filter, forallb_filter_self. Qed.

Lemma missing_rows {W V : WOrd} {Row : Type} (lam : W -> V) (LA : LamArith V) (garbage : nat -> V) (mst_of : list Row -> res (list (edge W)))
    (finite : Row -> bool) (set_list : list nat -> list nat) (X : list Row) (A : Arith V NatSize)
    (by_parent : list (crow V NatSize) -> list (crow V NatSize)) (st : settings V NatSize) (m : nat) :
  setting_ok lam LA A by_parent (unbounded st) ->
  (forall M, mst_of (filter finite X) = Ok M -> spanning_tree (length (filter finite X)) M) ->
  cluster_selection_method st = Eom -> cluster_selection_epsilon st = None -> max_cluster_size st = Some m ->
  (forall l, Permutation (set_list l) l) -> forallb finite X = false -> 3 <= length (filter finite X) ->
  cluster_selection_persistence st = None ->
  (forall M, mst_of (filter finite X) = Ok M -> forall e, In e M -> wlt (la_zero LA) (lam (ewt e)) = true) ->
  allow_single_cluster st = false \/ m + 1 < length (filter finite X) ->
  match fit (la_zero LA) finite set_list (fast_hdbscan lam LA garbage mst_of A by_parent st) (filter finite X) with
  | Err e => fit (la_zero LA) finite set_list (fast_hdbscan lam LA garbage mst_of A by_parent st) X = Err e
  | Ok r0 => exists r pos others,
      fit (la_zero LA) finite set_list (fast_hdbscan lam LA garbage mst_of A by_parent st) X = Ok r /\
      other_rows finite X others /\ places finite X pos /\ extends (la_zero LA) finite X (fun _ => 1 : NatSize) (min_cluster_size st) r0 r pos others
  end.
Proof.
  intros HK HM HE Heps Hmax Hset HF H3 Hper Hpos Hone. set (F := filter finite X) in *.
  assert (FF : forallb finite F = true) by apply forallb_filter_self.
  assert (EF : filter finite F = F) by apply filter_filter_self.
  assert (G : forall s, fit (la_zero LA) finite set_list (fast_hdbscan lam LA garbage mst_of A by_parent s) F = fast_hdbscan lam LA garbage mst_of A by_parent s F).
  { intro s. unfold fit. now rewrite FF. }
  destruct (fit (la_zero LA) finite set_list (fast_hdbscan lam LA garbage mst_of A by_parent st) F) as [r1|e] eqn:E1; rewrite (G st) in E1.
  2:{ now apply fit_fails. }
  destruct (mst_of F) as [M|e] eqn:EM.
  2:{ exfalso. unfold fast_hdbscan in E1. destruct (Nat.eqb_spec (length F) 0); [lia|]. destruct (Nat.ltb_spec (length F) 2); [lia|]. rewrite EM in E1. discriminate. }
  pose proof (HM M eq_refl) as HMT.
  destruct (linkage_plain _ _ HMT) as (L & EL & HL).
  assert (Q : forall s, fast_hdbscan lam LA garbage mst_of A by_parent s F = let* (r, T) := clusters_from_spanning_tree lam LA A garbage by_parent s M in
    Ok {| f_labels := fst r; f_probabilities := snd r; f_linkage := L; f_condensed := T; f_mst := sort_mst M |}).
  { intro s. unfold fast_hdbscan, clusters_from_spanning_tree. destruct (Nat.eqb_spec (length F) 0) as [|_]; [lia|]. destruct (Nat.ltb_spec (length F) 2) as [|_]; [lia|].
    rewrite EM. cbn [bind]. rewrite EL. cbn [bind]. destruct (clusters_from_linkage_tree lam LA A garbage by_parent s (fun _ => 1) (length M + 1) L) as [[r T]|]; reflexivity. }
  destruct (plain_total lam LA A garbage by_parent (unbounded st) (length F) M HK HMT ltac:(lia)) as [(ls & ps & T & EC & HC & HT & HO & _)|[EC _]].
  2:{ now rewrite <- Hper in EC. }
  pose proof (Q (unbounded st)) as QU. rewrite EC in QU. cbn [bind fst snd] in QU.
  match type of QU with _ = Ok ?r => set (rU := r) in * end.
  destruct (fast_run lam LA garbage mst_of A by_parent (unbounded st) F rU HK ltac:(lia) ltac:(intros M' EM'; apply HM; congruence) QU) as (_ & HS & HLK & _ & _).
  rewrite <- (G (unbounded st)) in QU.
  assert (K := fit_outcomes lam LA garbage mst_of finite set_list F A by_parent st m HK).
  rewrite EF in K. specialize (K ltac:(intros M' _ EM'; apply HM; congruence) HE Heps Hmax FF ltac:(lia) Hper).
  specialize (K ltac:(intros M' EM'; apply Hpos; congruence) Hone rU QU). destruct K as [[K|(r & K & KT & KC & _)] _].
  { rewrite (G st) in K. congruence. }
  rewrite (G st), E1 in K. injection K as <-.
  assert (KL : f_linkage r1 = L /\ f_mst r1 = sort_mst M).
  { rewrite (Q st) in E1. destruct (clusters_from_spanning_tree lam LA A garbage by_parent st M) as [[r' T']|]; [|discriminate]. cbn [bind] in E1. injection E1 as <-. auto. }
  destruct KL as [KL KM].
  destruct (fit_extends (Sz := NatSize) (la_zero LA) finite set_list (fast_hdbscan lam LA garbage mst_of A by_parent st) X (fun _ => 1) (fun _ => 1) (min_cluster_size st)
    Hset HF H3 ltac:(reflexivity) r1 E1) as (r & others & E & Ho & Hp & Hx & _); auto.
  - apply KC.
  - apply KC.
  - rewrite KM. exact HS.
  - rewrite KL, KM. exact HLK.
  - rewrite KT. exact HT.
  - rewrite KT. exact HO.
  - exists r, (fun i => nth i (finite_index_of finite X) 0), others. auto.
Qed.
