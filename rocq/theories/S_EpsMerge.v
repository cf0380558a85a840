(** Specification vocabulary: a fit with cluster_selection_epsilon and one without. *)
From Coq Require Import List ZArith.
From Verif Require Import Prelude Order Size M_Condense S_Condense M_Pipeline.

(** The same settings, apart from [cluster_selection_epsilon]. *)
Definition same_but_epsilon {V : WOrd} {Sz : SOrd} (st st' : settings V Sz) : Prop :=
  min_cluster_size st' = min_cluster_size st /\ cluster_selection_method st' = cluster_selection_method st /\
  max_cluster_size st' = max_cluster_size st /\ allow_single_cluster st' = allow_single_cluster st /\
  cluster_selection_persistence st' = cluster_selection_persistence st.

(** Samples of one cluster of [ls] stay together in [ls']: in one cluster or all
    noise. *)
Definition stay_together (n : nat) (ls ls' : list Z) : Prop :=
  forall x y, x < n -> y < n -> nth x ls 0%Z <> (-1)%Z -> nth x ls 0%Z = nth y ls 0%Z -> nth x ls' 0%Z = nth y ls' 0%Z.

(** Every sample of a cluster of [ls] is in a cluster of [ls']. *)
Definition no_new_noise (n : nat) (ls ls' : list Z) : Prop :=
  forall x, x < n -> nth x ls 0%Z <> (-1)%Z -> nth x ls' 0%Z <> (-1)%Z.
