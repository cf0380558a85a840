(** Kruskal's algorithm and cuts of the linkage tree under a change of distances that keeps their order. *)
From Coq Require Import List Arith Lia Bool ZArith Permutation Sorted.
From Verif Require Import Prelude Order Graph Size P_Sort S_Kruskal M_DisjointSet M_Linkage M_Precomputed M_Kruskal M_KruskalEntry S_Equi P_Equi.
Import ListNotations.

Section Map.
  Context {W W' : WOrd} (f : W -> W').
  Hypothesis Hf : forall x y, wle (f x) (f y) = wle x y.
  Hypothesis Hinf : f winf = winf.
  Notation me := (map (map_edge f)).

  Definition k_map {A} (s : kstate W A) : kstate W' A :=
    {| k_pred := k_pred s; k_rank := k_rank s; k_mst := me (k_mst s); k_aux := k_aux s |}.
  Section Kernel.
    Context {A : Type} (conflict : (nat -> nat) -> A -> nat -> nat -> res bool) (merge : A -> nat -> nat -> A).
    Lemma kernel_step_map n s e : kernel_step conflict merge n (k_map s) (map_edge f e) = map_ok k_map (kernel_step conflict merge n s e).
    Proof.
      destruct e as [[u v] w]. unfold map_edge, esrc, edst, ewt. cbn [fst snd]. unfold kernel_step. destruct (u =? v); [reflexivity|].
      cbn [k_map k_pred]. destruct (find_compress n (k_pred s) u) as [[p1 r1]|]; [|reflexivity]. cbn [bind].
      destruct (find_compress n p1 v) as [[p2 r2]|]; [|reflexivity]. cbn [bind k_rank k_mst k_aux k_map].
      destruct (r1 =? r2); [reflexivity|]. destruct (conflict p2 (k_aux s) r1 r2) as [[]|]; [reflexivity| |reflexivity]. cbn [bind].
      destruct (k_rank s r2 <? k_rank s r1); [|destruct (k_rank s r1 <? k_rank s r2)]; cbn [map_ok]; unfold k_map; cbn [k_pred k_rank k_mst k_aux]; now rewrite map_app.
    Qed.
    Lemma kernel_loop_map n edges order : forall s,
      kernel_loop conflict merge n (me edges) order (k_map s) = map_ok k_map (kernel_loop conflict merge n edges order s).
    Proof.
      induction order as [|j order IH]; intro s; cbn [kernel_loop]; [reflexivity|]. cbn [k_map k_mst]. rewrite map_length.
      destruct (length (k_mst s) =? n - 1); [reflexivity|]. rewrite nth_error_map. destruct (nth_error edges j) as [e|]; [|reflexivity]. cbn [option_map].
      fold (k_map s). rewrite kernel_step_map. destruct (kernel_step conflict merge n s e); [|reflexivity]. cbn [map_ok bind]. apply IH.
    Qed.
    Definition mst_map (r : list (edge W) * (nat -> nat)) : list (edge W') * (nat -> nat) := (me (fst r), snd r).
    Lemma kernel_map n edges order a : kernel conflict merge n (me edges) order a = map_ok mst_map (kernel conflict merge n edges order a).
    Proof.
      unfold kernel. destruct (n =? 0); [reflexivity|]. 
      pose proof (kernel_loop_map n edges order {| k_pred := fun i => i; k_rank := fun _ => 0; k_mst := []; k_aux := a |}) as H.
      unfold k_map in H at 1. cbn [k_pred k_rank k_mst k_aux map] in H. rewrite H. clear H. destruct (kernel_loop conflict merge n edges order _); reflexivity.
    Qed.
  End Kernel.

  Lemma argsort_map edges : argsort (me edges) = argsort edges.
  Proof.
    unfold argsort. rewrite map_length. rewrite <- (map_id (seq 0 (length edges))) at 1.
    rewrite (isort_map (fun j : nat => j) (fun j => match nth_error edges j with Some e => ewt e | None => winf end)); [apply map_id|].
    intros x y. rewrite !nth_error_map. destruct (nth_error edges x), (nth_error edges y); cbn [option_map]; rewrite <- ?Hinf; apply Hf.
  Qed.
  Lemma run_core_map n edges order cl : run_kruskal_core n (me edges) order cl = map_ok mst_map (run_kruskal_core n edges order cl).
  Proof.
    unfold run_kruskal_core, kruskal_core, kruskal_core_constrained, kruskal_core_group.
    destruct cl as [|c|l g]; [apply kernel_map|destruct (0 <? _); apply kernel_map|destruct (0 <? _); apply kernel_map].
  Qed.
  Lemma bridges_map l : bridges l = me (bridges l).
  Proof.
    induction l as [|a [|b l] IH]; auto.
    assert (E : forall X : WOrd, @bridges X (a :: b :: l) = (a, b, winf) :: bridges (b :: l)) by reflexivity.
    rewrite !E, IH. cbn [map]. f_equal. unfold map_edge, esrc, edst, ewt. cbn [fst snd]. now rewrite Hinf.
  Qed.
  Lemma finish_mst_map n mst p : finish_mst n (me mst) p = map_ok me (finish_mst n mst p).
  Proof.
    unfold finish_mst. destruct (get_component_labels n p) as [ls|]; [|reflexivity]. cbn [bind]. destruct (1 <? _); [|reflexivity].
    unfold bridge_forest_with_inf. destruct (_ =? 1); [reflexivity|]. destruct (mapM _ _) as [reps|]; [|reflexivity]. cbn [bind map_ok].
    now rewrite map_app, <- bridges_map.
  Qed.
  Lemma f_max x y : wmax (f x) (f y) = f (wmax x y).
  Proof. unfold wmax, wlt. rewrite Hf. now destruct (wle _ _). Qed.
  Lemma brute_core_map z D n ms i : brute_core (f z) (fun i j => f (D i j)) n ms i = f (brute_core z D n ms i).
  Proof.
    unfold brute_core. destruct (ms <=? 1); auto. destruct (ms <? n); auto. rewrite <- map_map.
    rewrite (isort_map f (fun w => w) (fun w => w)) by apply Hf. now rewrite <- Hinf, map_nth.
  Qed.
  Lemma brute_edges_map z D n ms : brute_edges (f z) (fun i j => f (D i j)) n ms = me (brute_edges z D n ms).
  Proof.
    unfold brute_edges. generalize (seq 0 n). intro l. induction l as [|i l IH]; [reflexivity|]. cbn [flat_map]. rewrite IH, (map_app (map_edge f)). f_equal.
    rewrite map_map. apply map_ext. intro j. unfold map_edge, esrc, edst, ewt. cbn [fst snd]. rewrite !brute_core_map. unfold mrd3. now rewrite !f_max.
  Qed.
  Lemma brute_neighbors_map (D : nat -> nat -> W) n ms i : brute_neighbors (fun i j => f (D i j)) n ms i = brute_neighbors D n ms i.
  Proof.
    unfold brute_neighbors. f_equal. f_equal. rewrite <- (map_id (seq 0 n)) at 1. rewrite (isort_map (fun j : nat => j) (D i)); [apply map_id|]. intros x y. apply Hf.
  Qed.
  Definition mst_result_map (r : list (edge W) * list (list nat) * list W) : list (edge W') * list (list nat) * list W' :=
    let '(m, ns, cs) := r in (me m, ns, map f cs).
  Lemma kruskal_brute_map z D n ms cl : kruskal_mst_brute (f z) (fun i j => f (D i j)) n ms cl = map_ok mst_result_map (kruskal_mst_brute z D n ms cl).
  Proof.
    unfold kruskal_mst_brute. cbv zeta. rewrite brute_edges_map, argsort_map, run_core_map.
    destruct (run_kruskal_core n (brute_edges z D n ms) (argsort (brute_edges z D n ms)) cl) as [[m p]|]; [|reflexivity]. cbn [map_ok bind mst_map fst snd].
    rewrite finish_mst_map. destruct (finish_mst n m p); [|reflexivity]. cbn [map_ok bind mst_result_map].
    f_equal. f_equal; [f_equal|].
    - apply map_ext. intro i. apply brute_neighbors_map.
    - rewrite map_map. apply map_ext. intro i. apply brute_core_map.
  Qed.

  (** ** Cuts *)
  Lemma cut_unions_map {Sz} cut (L : list (lrow W Sz)) : forall c d, cut_unions (f cut) (map (map_lrow f) L) c d = cut_unions cut L c d.
  Proof.
    induction L as [|r L IH]; intros c d; [reflexivity|]. cbn [map cut_unions]. cbn [map_lrow l_d l_a l_b]. unfold wlt. rewrite Hf.
    destruct (negb _); cbn [bind]; [|apply IH]. destruct (ds_union_by_rank d (l_a r) c) as [d1|]; [|reflexivity]. cbn [bind].
    destruct (ds_union_by_rank d1 (l_b r) c) as [d2|]; [|reflexivity]. cbn [bind]. apply IH.
  Qed.
  Lemma cut_map {Sz} (L : list (lrow W Sz)) cut m : get_cluster_labelling_at_cut (map (map_lrow f) L) (f cut) m = get_cluster_labelling_at_cut L cut m.
  Proof. unfold get_cluster_labelling_at_cut. cbv zeta. now rewrite map_length, cut_unions_map. Qed.
End Map.
