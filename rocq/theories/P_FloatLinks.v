(** Constraints and stored distances in machine numbers. *)
From Coq Require Import List Arith Bool ZArith Lia Permutation.
From Flocq Require Import Core.Core IEEE754.BinarySingleNaN.
From Verif Require Import P_Sort.
From Verif Require Import Prelude Order Size Num Graph S_Kruskal S_Precomputed M_Kruskal M_KruskalEntry M_Precomputed P_PrecomputedTop P_KruskalEntry M_Linkage M_Condense S_Condense M_Select M_Labels
  M_Pipeline S_Pipeline P_PipelineEx M_Estimator S_Estimator M_Constrained P_Constrained M_CoreGraph S_CoreGraph S_Dbscan S_Level S_GraphCut P_GraphCutTop
  M_Float P_FloatOrd P_FloatLaws M_FloatRun P_FloatRun P_FloatScores.
Import ListNotations.
Local Open Scope nat_scope.

Section Runs.
  Variables (garbage : nat -> Double) (by_parent : list (crow Double NatSize) -> list (crow Double NatSize)) (mcs : nat) (method : selection_method)
    (allow_single : bool) (epsilon persistence : double).
  Hypothesis HB : sorts_by_parent by_parent.
  Hypothesis Hm : 2 <= mcs.
  Hypothesis Hp : dle persistence dzero = true.
  Notation st := (float_settings mcs method allow_single epsilon persistence).

  Lemma no_persistence : cluster_selection_persistence st = None.
  Proof. cbn [cluster_selection_persistence float_settings]. rewrite Hp. reflexivity. Qed.
  Lemma no_density_at_infinity : wlt (la_zero FloatLam) (float_lambda (winf (w := Double))) = false.
  Proof. unfold winf. cbn [Double FloatOrd]. change (f_inf 53 1024) with dinf. rewrite infinite_density. vm_compute. reflexivity. Qed.
  Notation OK := (float_ok by_parent mcs method allow_single epsilon persistence HB Hm).

  Lemma machine_cannot_link n CL (E M : list (edge Double)) : 2 <= n -> bridged_result n CL E M ->
    exists ls ps T, float_clusters garbage by_parent st M = Ok (ls, ps, T) /\ clustering (dzero : Double) (done : Double) n ls ps /\
      forall x y, x < n -> y < n -> CL x y -> nth x ls 0%Z = nth y ls 0%Z -> nth x ls 0%Z = (-1)%Z.
  Proof.
    intros Hn HM. pose proof HM as (F & B & _ & _ & HS & _).
    destruct (plain_total (float_lambda : Double -> Double) FloatLam (float_scores : Arith Double NatSize) garbage by_parent st n M OK HS Hn)
      as [(ls & ps & T & ER & HC & _)|[K _]]; [|exfalso; apply K; apply no_persistence].
    exists ls, ps, T. split; auto. split; auto.
    eapply (plain_cannot_link (float_lambda : Double -> Double) FloatLam (float_scores : Arith Double NatSize) garbage by_parent st); eauto.
    - apply OK.
    - apply float_score_laws.
    - apply no_persistence.
  Qed.

  Lemma machine_precomputed entries n ms X g : 2 <= n -> in_range n entries -> valid_constraints n X g ->
    exists cl M nbrs core ls ps T, resolve_cl_params n X true g = Ok cl /\
      precomputed_kruskal (dzero : Double) entries n ms cl = Ok (M, nbrs, core) /\ float_clusters garbage by_parent st M = Ok (ls, ps, T) /\
      clustering (dzero : Double) (done : Double) n ls ps /\
      forall x y, x < n -> y < n -> user_constraints (option_map sp_entries X) g x y -> nth x ls 0%Z = nth y ls 0%Z -> nth x ls 0%Z = (-1)%Z.
  Proof.
    intros Hn HR HV. destruct (c09_precomputed (dzero : Double) entries n ms X g ltac:(lia) HR HV) as (cl & M & nbrs & core & E1 & E2 & _ & HM).
    destruct (machine_cannot_link n _ _ M Hn HM) as (ls & ps & T & E3 & HC & H).
    exists cl, M, nbrs, core, ls, ps, T. auto.
  Qed.

  Lemma machine_fit {Row : Type} (ok : Row -> bool) (set_list : list nat -> list nat) (dist : Row -> Row -> Double) ms X CL g :
    (forall l, Permutation (set_list l) l) -> (if forallb ok X then 2 else 3) <= length (filter ok X) -> valid_constraints (length (filter ok X)) CL g ->
    exists r, fit (dzero : Double) ok set_list (fast_hdbscan (float_lambda : Double -> Double) FloatLam garbage
        (constrained_mst (brute_tree (dzero : Double) dist ms) CL true g) (float_scores : Arith Double NatSize) by_parent st) X = Ok r /\
      length (f_labels r) = length X /\
      forall pos, places ok X pos -> forall i j, i < length (filter ok X) -> j < length (filter ok X) -> user_constraints (option_map sp_entries CL) g i j ->
      nth (pos i) (f_labels r) 0%Z = nth (pos j) (f_labels r) 0%Z -> nth (pos i) (f_labels r) 0%Z = (-1)%Z.
  Proof.
    intros Hs Hn HV. eapply (constraints_respected (float_lambda : Double -> Double) FloatLam); eauto.
    - apply OK.
    - apply float_score_laws.
    - apply no_persistence.
    - apply brute_respects. destruct (forallb ok X); lia.
  Qed.

  Lemma machine_groups (huge : Double) (round : Double -> Double) (entries : list (edge Double)) n ms D T : 2 <= n -> in_range n entries ->
    graph_distance n entries D -> (forall e, In e entries -> wle (dzero : Double) (ewt e) = true) ->
    precomputed_tree (dzero : Double) huge round entries n ms T -> mcs <= n -> root_ok st ->
    forall ls ps C, float_clusters garbage by_parent st T = Ok (ls, ps, C) ->
    forall x, x < n -> nth x ls 0%Z <> (-1)%Z -> exists d, dense_group D n ms (fun y => y < n /\ nth y ls 0%Z = nth x ls 0%Z) d.
  Proof.
    intros Hn HR HD HL HT Hmn Hr ls ps C ER. eapply (precomputed_groups (dzero : Double) huge round entries n ms D T Hn HR HD HL HT (float_lambda : Double -> Double) FloatLam); eauto.
    - apply OK.
    - exact Hmn.
    - apply no_persistence.
    - apply float_score_laws.
  Qed.
End Runs.

(** ** Examples *)
Definition at_exp64 (m e : Z) : double := without_nan 53 1024 (binary_normalize 53 1024 pos53 lt53 mode_NE m e false).
(** Two pairs of samples and a link between them; all distances times 2 to the [e]. *)
Definition machine_entries (e : Z) : list (edge Double) :=
  [(0, 1, at_exp64 1 e); (2, 3, at_exp64 1 e); (1, 2, at_exp64 3 e); (4, 5, at_exp64 1 e); (3, 4, at_exp64 9 e)].
Definition machine_labels (e : Z) (X : option sparse) : res (list Z) :=
  let* cl := resolve_cl_params 6 X true None in
  let* r := precomputed_kruskal (dzero : Double) (machine_entries e) 6 1 cl in
  let* c := float_clusters (fun _ => dzero) (fun ct => nsort c_parent ct) (float_settings 2 Eom false dzero dzero) (fst (fst r)) in
  Ok (fst (fst c)).

Lemma nsort_by_parent : sorts_by_parent (fun ct : list (crow Double NatSize) => nsort c_parent ct).
Proof. intro ct. split; [apply Permutation_sym, nsort_perm|apply nsort_sorted]. Qed.
