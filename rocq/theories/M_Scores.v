(** Model of the scores of PLSCAN's layers in exact arithmetic:
    fast_hdbscan/layer_clusters.py:243-244.  The exponential of line 198 is left as
    a parameter. *)
From Coq Require Import QArith Qcanon.
From Verif Require Import Prelude Order Size Num M_Pipeline.

(** layer_clusters.py:243-244: [total_persistence[k] += death - birth * lambda_death]. *)
Definition add_persistence (total_persistence : QInf) (birth death : nat) (lambda_death : Qc) : QInf :=
  option_map (fun x => (x + (nat_as_q death - nat_as_q birth * lambda_death))%Qc) total_persistence.
