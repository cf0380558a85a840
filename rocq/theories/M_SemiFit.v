(** Model of the semi-supervised HDBSCAN.fit on feature data: fast_hdbscan/hdbscan.py:199-336, 733-761 and 786-834. *)
From Coq Require Import List Arith Bool ZArith.
From Verif Require Import Prelude Order Graph Size Num M_Linkage M_Condense M_Select M_Labels M_Pipeline M_BCubed M_Estimator.
Import ListNotations.
Local Open Scope nat_scope.

Section Run.
  Context {W V : WOrd} {Row : Type}.
  Variables (lambda : W -> V) (LA : LamArith V) (garbage : nat -> V).
  Variable spanning_tree_of : list Row -> res (list (edge W)).

  (** hdbscan.py:199-336 with semi_supervised=True; [virtual] is ss_algorithm ==
      "bc" (line 545).  Every row comes with its label: [clean_data] and
      [clean_data_labels] are selected by the same positions (lines 750-751). *)
  Definition semi_fast_hdbscan (A : Arith V NatSize) (B : BArith) (by_parent : list (crow V NatSize) -> list (crow V NatSize))
      (listed : list nat -> list nat) (st : settings V NatSize) (virtual : bool) (rows : list (Row * Z)) : res (fitted W V NatSize) :=
    if length rows =? 0 then Err ValueError else
    if length rows <? 2 then Ok (degenerate LA rows) else
    let* mst := spanning_tree_of (map fst rows) in
    let* L := mst_to_linkage_tree (sort_mst mst) in
    let* (r, T) := semi_clusters_from_linkage_tree lambda LA A B garbage by_parent listed st (map snd rows) virtual (fun _ => 1) (length mst + 1) L in
    Ok {| f_labels := fst r; f_probabilities := snd r; f_linkage := L; f_condensed := T; f_mst := sort_mst mst |}.
End Run.

(** hdbscan.py:738: [y[~np.isfinite(y)] = -1]; [None] stands for NaN and infinity.
    Labels that are not whole numbers are not modelled. *)
Definition clean_label (y : option Z) : Z := match y with Some l => l | None => (-1)%Z end.

(** hdbscan.py:733-761, 786-822.  check_X_y (line 734) rejects a different number
    of labels; that it may also reject labels that are not finite is not
    modelled.  Lines 740-743 ask for one label other than -1. *)
Definition semi_fit {W V : WOrd} {Row} (zero : V) (isfinite : Row -> bool) (set_list : list nat -> list nat)
    (run : list (Row * Z) -> res (fitted W V NatSize)) (X : list Row) (y : list (option Z)) : res (fitted W V NatSize) :=
  if negb (length X =? length y) then Err ValueError else
  let labels := map clean_label y in
  if negb (existsb (fun l => negb (l =? -1)%Z) labels) then Err ValueError else
  fit zero (fun row => isfinite (fst row)) set_list run (combine X labels).
