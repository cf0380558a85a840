(** PLSCAN objects: points on a line. *)
From Coq Require Import List Arith Lia Bool ZArith QArith Qcanon Permutation.
From Verif Require Import Prelude Order Graph Size Num S_Kruskal S_Precomputed M_Kruskal M_KruskalEntry P_KruskalEntry M_Linkage M_Condense M_Select M_Labels S_Labels P_LabelsEx
  M_Layers S_Layers P_LayersEx M_LayerTree M_Pipeline P_Pipeline M_Plscan S_Plscan P_Plscan P_PlscanTop M_SessionPlscan S_SessionPlscan P_SessionPlscan P_SessionPlscanRun.
Import ListNotations.
Local Open Scope nat_scope.

(** The input: places on a line, and whether the weights are in order.  The
    parameter: the minimum cluster size. *)
Definition between (x : list Z) (i j : nat) : QInf := yq (Z.abs (nth i x 0 - nth j x 0))%Z.
Definition ex_mst (_ : nat) (x : list Z * bool) : res (list (edge QInf) * list QInf) :=
  match fst x with
  | [] => Err ValueError
  | _ => let* (r, core) := kruskal_mst_brute (W := QInf) (Some 0%Qc) (between (fst x)) (length (fst x)) 2 CLNone in Ok (fst r, core)
  end.
Definition ex_run (a : nat) (x : list Z * bool) : res (list (layer QInf QInf) * unit) :=
  let* (M, core) := ex_mst a x in
  let* ys := build_cluster_layers (P := QInf) hdbscan_lambda_value hdbscan_lambda_value ExactLam y_death 0%Qc (fun _ => 7) (fun _ => 0%Qc) (yq 0) y_add
    sort_indices sort_indices_Z (sort_mst (W := QInf)) (length (fst x)) a None (1 # 5) 10 M core in Ok (ys, tt).
Definition ex_check_data (_ : nat) (x : list Z * bool) : res unit := match fst x with [] => Err ValueError | _ => Ok tt end.
Definition ex_check_weights (_ : nat) (x : list Z * bool) : res unit := if snd x then Ok tt else Err ValueError.
Definition ex_play (a : nat) (h : list (pcall nat (list Z * bool))) := pplay (fun _ => false) ex_check_data ex_check_weights ex_run sort_indices_Z (pnew a) h.
Definition ex_outcome := poutcome ex_check_data ex_check_weights ex_run sort_indices_Z.

Lemma ex_proper : proper_layers ex_run (fun x => length (fst x)).
Proof.
  apply (plscan_proper (A := nat) (I := list Z * bool) (E := unit) (P := QInf) hdbscan_lambda_value hdbscan_lambda_value ExactLam y_death 0%Qc (fun _ => 7) (fun _ => 0%Qc) (yq 0) y_add
    sort_indices sort_indices_Z (sort_mst (W := QInf)) (fun x => length (fst x)) ex_mst (fun a => a) (fun _ => None) (fun _ => 1 # 5) (fun _ => 10) (fun _ _ => tt)).
  - exact sort_indices_Z_ok.
  - exact sort_mst_sorts.
  - intros a [x w] M core. unfold ex_mst. cbn [fst]. assert (H : x <> [] -> match kruskal_mst_brute (W := QInf) (Some 0%Qc) (between x) (length x) 2 CLNone with
      | Ok (r, core') => Ok (fst r, core') | Err e => Err e end = Ok (M, core) -> length M + 1 = length x).
    { intro Hx. assert (Hl : 0 < length x) by (destruct x; [congruence|cbn; lia]).
      destruct (brute_ok (W := QInf) (Some 0%Qc) (between x) (length x) 2 CLNone no_constraint Hl) as (M' & nbrs & core' & E & Ecore & HB). { intros u v []. }
      rewrite E. intros [= <- <-]. apply bridged_connected in HB as [_ HB]; auto using brute_edges_range, brute_connected. pose proof (st_count _ _ HB). lia. }
    destruct x as [|z x]; [discriminate|]. exact (H ltac:(discriminate)).
Qed.
