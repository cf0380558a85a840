(** C56 needs leaf selection: a change of distances that keeps their order and
    changes the clusters chosen by excess of mass. *)
From Coq Require Import List Arith Lia Bool ZArith QArith Qcanon.
From Verif Require Import Prelude Order Graph Size Num S_Kruskal M_Kruskal M_KruskalEntry M_Linkage S_Linkage M_Condense S_Condense
  M_Select M_Labels M_Pipeline S_Pipeline P_EpsilonTop P_PipelineEx S_Equi P_Scale P_LeafOrder P_UniqueEx.
Import ListNotations.
Local Open Scope nat_scope.

Definition bend (k x : Qc) : Qc := if Qcleb x k then x else (x + (x - k))%Qc.
Definition bent (k : Qc) (x : QInf) : QInf := option_map (bend k) x.

Lemma above k x : (k < x)%Qc -> (x < x + (x - k))%Qc.
Proof. intro H. apply Qclt_minus_iff in H. apply Qclt_minus_iff. now replace (x + (x - k) + - x)%Qc with (x + - k)%Qc by ring. Qed.
Lemma bend_mono k x y : (x < y)%Qc -> (bend k x < bend k y)%Qc.
Proof.
  intro H. unfold bend. destruct (Qcleb x k) eqn:Ex, (Qcleb y k) eqn:Ey; auto.
  - apply Qcleb_gt in Ey. apply (Qclt_trans _ y); auto. now apply above.
  - exfalso. apply Qcleb_gt in Ex. apply Qcleb_le in Ey. apply (Qclt_not_le _ _ Ex). apply (Qcle_trans _ y); auto. now apply Qclt_le_weak.
  - apply Qclt_minus_iff in H. apply Qclt_minus_iff. replace (y + (y - k) + - (x + (x - k)))%Qc with ((y + - x) + (y + - x))%Qc by ring.
    apply (Qclt_le_trans _ (y + - x)); auto. rewrite <- (Qcplus_0_l (y + - x)) at 1. apply Qcplus_le_compat; [now apply Qclt_le_weak|apply Qcle_refl].
Qed.
Lemma bent_le k x y : wle (bent k x) (bent k y) = wle x y.
Proof.
  destruct x as [x|], y as [y|]; try reflexivity. cbn. destruct (Qcleb x y) eqn:E.
  - apply Qcleb_le in E. apply Qcleb_le. apply Qcle_lt_or_eq in E as [E| ->]; [|apply Qcle_refl]. apply Qclt_le_weak. now apply bend_mono.
  - apply Qcleb_gt in E. apply Qcleb_gt. now apply bend_mono.
Qed.
Lemma bent_zero k : (0 <= k)%Qc -> bent k (Some 0%Qc) = Some 0%Qc.
Proof. intro H. cbn. unfold bend. apply Qcleb_le in H. now rewrite H. Qed.

(** Two pairs of samples and a group of four on a line. *)
Definition pairs_and_group : list Z := [0; 4; 11; 15; 75; 79; 84; 88]%Z.
Definition run_on (m : selection_method) (e p : Qc) (D : nat -> nat -> QInf) : res (list Z * list QInf * list (crow QInf NatSize)) :=
  let* r := kruskal_mst_brute (Some 0%Qc : QInf) D 8 1 CLNone in
  exact_clusters (fun _ => None) by_parent_of (exact_settings (Sz := NatSize) 2 m false e p) (fst (fst r)).
Definition run_labels (r : res (list Z * list QInf * list (crow QInf NatSize))) : option (list Z) :=
  match r with Ok (ls, _, _) => Some ls | Err _ => None end.

Lemma eom_changes : exists (f : QInf -> QInf) D M nbrs core ls ps T M' nbrs' core' ls' ps' T',
  (forall x y, wle (f x) (f y) = wle x y) /\ f (Some 0%Qc) = Some 0%Qc /\ f None = None /\
  kruskal_mst_brute (Some 0%Qc : QInf) D 8 1 CLNone = Ok (M, nbrs, core) /\ kruskal_mst_brute (Some 0%Qc : QInf) (fun i j => f (D i j)) 8 1 CLNone = Ok (M', nbrs', core') /\
  exact_clusters (fun _ => None) by_parent_of (exact_settings (Sz := NatSize) 2 Eom false 0%Qc 0%Qc) M = Ok (ls, ps, T) /\
  exact_clusters (fun _ => None) by_parent_of (exact_settings (Sz := NatSize) 2 Eom false 0%Qc 0%Qc) M' = Ok (ls', ps', T') /\
  nth 0 ls 0%Z = nth 2 ls 0%Z /\ nth 0 ls' 0%Z <> nth 2 ls' 0%Z.
Proof.
  assert (G : forall D v, run_labels (run_on Eom 0%Qc 0%Qc D) = Some v -> exists M nbrs core ps T, kruskal_mst_brute (Some 0%Qc : QInf) D 8 1 CLNone = Ok (M, nbrs, core) /\
    exact_clusters (fun _ => None) by_parent_of (exact_settings (Sz := NatSize) 2 Eom false 0%Qc 0%Qc) M = Ok (v, ps, T)).
  { intros D v. unfold run_on. destruct (kruskal_mst_brute _ D 8 1 CLNone) as [[[M nbrs] core]|]; [|discriminate]. cbn [bind fst].
    destruct (exact_clusters _ _ _ M) as [[[ls ps] T]|] eqn:E; [|discriminate]. cbn. intro H. injection H as <-. exists M, nbrs, core, ps, T. auto. }
  pose (k := Q2Qc 4). pose (D := line pairs_and_group).
  assert (H1 : run_labels (run_on Eom 0%Qc 0%Qc D) = Some [0; 0; 0; 0; 1; 1; 1; 1]%Z) by (vm_compute; reflexivity).
  assert (H2 : run_labels (run_on Eom 0%Qc 0%Qc (fun i j => bent k (D i j))) = Some [2; 2; 1; 1; 0; 0; 0; 0]%Z) by (vm_compute; reflexivity).
  apply G in H1 as (M & nbrs & core & ps & T & K1 & H1). apply G in H2 as (M' & nbrs' & core' & ps' & T' & K2 & H2).
  exists (bent k), D, M, nbrs, core, [0; 0; 0; 0; 1; 1; 1; 1]%Z, ps, T, M', nbrs', core', [2; 2; 1; 1; 0; 0; 0; 0]%Z, ps', T'.
  split; [apply bent_le|]. split; [apply bent_zero; vm_compute; discriminate|]. split; [reflexivity|]. split; [exact K1|]. split; [exact K2|]. split; [exact H1|]. split; [exact H2|].
  split; [reflexivity|discriminate].
Qed.
