(** Proofs about the clustering at a fixed distance. *)
From Coq Require Import List Arith Lia Bool Permutation ZArith.
From Verif Require Import Prelude Order Graph Size Num S_Kruskal S_Precomputed M_Kruskal M_Precomputed M_KruskalEntry P_Kruskal P_Forest P_Precomputed2 P_KruskalRun P_KruskalEntry
  M_Linkage S_Linkage P_LinkageTop M_Condense S_Condense M_Select M_Labels M_Pipeline S_Pipeline P_PipelineRun M_TreeQuery M_Boruvka S_SpaceTree S_Boruvka P_BoruvkaAgree
  M_Estimator S_Estimator P_Estimator P_EstimatorEx S_Dbscan.
Import ListNotations.
Local Open Scope nat_scope.

Section Graph.
  Context {W : WOrd}.
  Variables (D : nat -> nat -> W) (n ms : nat) (eps : W).
  Hypothesis Sym : forall i j, i < n -> j < n -> D i j = D j i.
  Notation core_sample := (core_sample D n ms eps).
  Notation dc := (density_connected D n ms eps).

  Lemma dc_trans x y z : dc x y -> dc y z -> dc x z.
  Proof. intros H K. induction K; auto. eapply dc_next; eauto. Qed.
  Lemma dc_sym x y : dc x y -> dc y x.
  Proof.
    intro H. induction H as [|y z H IH Hy Hz Cy Cz L]; [constructor|]. eapply dc_trans; [|exact IH].
    eapply dc_next; [constructor|auto..]. now rewrite Sym.
  Qed.

  (** Chains are paths in a graph that has exactly the close pairs. *)
  Lemma graph_dc (E : list (edge W)) x y :
    (forall e, In e E -> wlt (ewt e) eps = true -> esrc e < n /\ edst e < n /\ dc (esrc e) (edst e)) ->
    (forall i j, i < n -> j < n -> i <> j -> core_sample i -> core_sample j -> wlt (D i j) eps = true -> connected (passing (fun w => wlt w eps) E) i j) ->
    (connected (passing (fun w => wlt w eps) E) x y <-> dc x y).
  Proof.
    intros H1 H2. split.
    - revert x y. apply (connected_ind_equiv (passing (fun w => wlt w eps) E) dc); [constructor|apply dc_sym|intros; eapply dc_trans; eauto|].
      intros e He. apply in_passing in He as [He Hw]. now apply H1.
    - intro H. induction H as [|y z H IH Hy Hz Cy Cz L]; [apply connected_refl|]. eapply connected_trans; [exact IH|].
      destruct (Nat.eq_dec y z) as [->|Hne]; [apply connected_refl|]. now apply H2.
  Qed.

  Lemma component_dbscan (E : list (edge W)) labels :
    (forall x y, connected E x y <-> dc x y) -> component_clustering n E ms labels -> dbscan_star D n ms eps labels.
  Proof.
    intros H (K1 & K2 & K3 & K4). split; auto.
    - intros x Hx. destruct (K2 x Hx) as (xs & N & I & A & B). exists xs. split; auto. split; [|auto]. intro y. rewrite I, H. tauto.
    - intros x y Hx Hy Hl. rewrite <- H. now apply K3.
  Qed.

  (** A core distance below [eps] means enough near samples. *)
  Hypothesis Self : forall i j, i < n -> j < n -> wle (D i i) (D i j) = true.
  Lemma core_near i d : i < n -> 1 < ms -> kth_smallest (S ms) (map (D i) (seq 0 n)) d -> (wlt d eps = true <-> core_sample i).
  Proof.
    intros Hi Hm (I & C1 & C2). rewrite !countp_map in *. split.
    - intro L. right.
      set (l := filter (fun j => negb (j =? i)) (filter (fun j => wle (D i j) d) (seq 0 n))).
      assert (N : NoDup l) by (apply NoDup_filter, NoDup_filter, seq_NoDup).
      assert (Hl : ms <= length l).
      { rewrite countp_filter in C2. unfold l. pose proof (NoDup_filter (fun j => wle (D i j) d) (seq_NoDup n 0)) as N0.
        revert C2 N0. generalize (filter (fun j => wle (D i j) d) (seq 0 n)). intros f Hf N0.
        enough (length f <= S (length (filter (fun j => negb (j =? i)) f))) by lia. clear -N0. induction f as [|a f IH]; cbn [filter length]; [lia|].
        inversion_clear N0. specialize (IH H0). destruct (Nat.eqb_spec a i) as [->|]; cbn [negb length]; [|lia].
        rewrite (filter_ext_in _ (fun _ => true)).
        - clear. induction f; cbn [filter length] in *; lia.
        - intros b Hb. destruct (Nat.eqb_spec b i); [subst; contradiction|reflexivity]. }
      exists (firstn ms l). split; [|split].
      + rewrite <- (firstn_skipn ms l) in N. apply NoDup_app_iff in N. tauto.
      + rewrite firstn_length. lia.
      + intros j Hj. assert (In j l) by (rewrite <- (firstn_skipn ms l); apply in_or_app; auto). unfold l in H. apply filter_In in H as [H H2]. apply filter_In in H as [H H3].
        apply in_seq in H. split; [lia|]. split; [now apply Nat.eqb_neq, negb_true_iff|]. eapply wle_lt_trans; eauto.
    - intros [K|(near & N & Ln & Hn)]; [lia|]. destruct (wlt d eps) eqn:L; auto. exfalso.
      assert (Led : wle eps d = true) by (destruct (wle eps d) eqn:Q; auto; apply wlt_nle in Q; congruence).
      assert (Q : S ms <= countp (fun j => wlt (D i j) d) (seq 0 n)).
      { rewrite countp_filter. replace (S ms) with (length (i :: near)) by (simpl; lia). apply NoDup_incl_length.
        - constructor; auto. intro K. destruct (Hn i K) as (_ & K2 & _). auto.
        - intros j Hj. apply filter_In. assert (Hjn : j < n /\ wlt (D i j) eps = true).
          { destruct Hj as [<-|Hj]; [|destruct (Hn j Hj) as (A & _ & B); auto]. split; auto.
            destruct near as [|j near]; [simpl in Ln; lia|]. destruct (Hn j (or_introl eq_refl)) as (A & _ & B). eapply wle_lt_trans; [|exact B]. auto. }
          destruct Hjn as [Hj1 Hj2]. split; [apply in_seq; lia|]. eapply wlt_le_trans; eauto. }
      lia.
  Qed.
  Lemma core_none i : 1 < ms -> n <= ms -> i < n -> ~ core_sample i.
  Proof.
    intros Hm Hn Hi [K|(near & N & Ln & H)]; [lia|].
    assert (length (i :: near) <= length (seq 0 n)); [|rewrite seq_length in *; simpl in *; lia]. apply NoDup_incl_length.
    - constructor; auto. intro K. destruct (H i K) as (_ & K2 & _). auto.
    - intros j [<-|Hj]; apply in_seq; [lia|]. destruct (H j Hj). lia.
  Qed.

  Lemma three_below (a b c : W) : wlt (mrd3 a b c) eps = true <-> wlt a eps = true /\ wlt b eps = true /\ wlt c eps = true.
  Proof.
    destruct (mrd3_ok a b c) as (E & A & B & C). split.
    - intro H. repeat split; eapply wle_lt_trans; eauto.
    - intros (H1 & H2 & H3). destruct E as [->|[->| ->]]; auto.
  Qed.

  Variable zero : W.
  Hypothesis Least : forall i j, i < n -> j < n -> wle zero (D i j) = true.

  (** A core distance in the sense of the code, below [eps]. *)
  Lemma edge_near (core : nat -> W) i j : i < n -> j < n ->
    (ms <= 1 -> forall i, i < n -> wle (core i) zero = true) ->
    (1 < ms -> forall i, i < n -> (wlt (core i) eps = true <-> core_sample i)) ->
    (wlt (core i) eps = true /\ wlt (core j) eps = true /\ wlt (D i j) eps = true <-> core_sample i /\ core_sample j /\ wlt (D i j) eps = true).
  Proof.
    intros Hi Hj H0 H1. destruct (le_lt_dec ms 1) as [Hm|Hm]; [|rewrite !H1 by auto; tauto].
    split; [intros (_ & _ & H); repeat split; auto; now left|]. intros (_ & _ & H).
    assert (Hz : wlt zero eps = true) by (eapply wle_lt_trans; [|exact H]; auto).
    repeat split; auto; (eapply wle_lt_trans; [|exact Hz]; now apply H0).
  Qed.

  Lemma brute_near i : i < n -> 1 < ms -> (wlt (brute_core zero D n ms i) eps = true <-> core_sample i).
  Proof.
    intros Hi Hm. destruct (brute_core_ok zero D n ms i) as (_ & K2 & K3). destruct (le_lt_dec n ms) as [Hn|Hn].
    - rewrite K3 by auto. split; intro H; [|exfalso; now apply (core_none i)]. exfalso.
      assert (wle eps winf = true) by apply winf_top. apply wlt_nle in H. congruence.
    - apply core_near; auto.
  Qed.

  Lemma brute_dc x y : connected (passing (fun w => wlt w eps) (brute_edges zero D n ms)) x y <-> dc x y.
  Proof.
    assert (EN : forall i j, i < n -> j < n -> (wlt (mrd3 (brute_core zero D n ms i) (brute_core zero D n ms j) (D i j)) eps = true <->
      core_sample i /\ core_sample j /\ wlt (D i j) eps = true)).
    { intros i j Hi Hj. rewrite three_below. apply edge_near; auto.
      - intros Hm k Hk. destruct (brute_core_ok zero D n ms k) as (-> & _); auto. apply wle_refl.
      - intros Hm k Hk. now apply brute_near. }
    apply graph_dc.
    - intros [[i j] w] He Hw. apply brute_edges_in in He as (H1 & H2 & ->). unfold esrc, edst, ewt in *. cbn [fst snd] in *.
      split; [lia|]. split; auto. apply EN in Hw as (A & B & C); [|lia|auto]. eapply dc_next; [constructor|..]; auto. lia.
    - intros i j Hi Hj Hne Ci Cj L. destruct (Nat.lt_trichotomy i j) as [Q|[Q|Q]]; [|contradiction|apply connected_sym].
      + eapply (connected_edge _ (i, j, _)). apply in_passing. split; [apply brute_edges_in; eauto|]. unfold ewt. cbn [snd]. apply EN; auto.
      + eapply (connected_edge _ (j, i, _)). apply in_passing. split; [apply brute_edges_in; eauto|]. unfold ewt. cbn [snd]. apply EN; auto. rewrite Sym; auto.
  Qed.
End Graph.

(** ** The cut of a spanning tree *)
Lemma passing_perm {W : WOrd} P (A B : list (edge W)) : Permutation A B -> forall x y, connected (passing P A) x y <-> connected (passing P B) x y.
Proof. intros H. apply connected_perm. unfold passing. clear -H. induction H; cbn [filter]; try destruct (P _); try destruct (P _); eauto using Permutation. Qed.

Lemma cut_sorted {W : WOrd} n (T : list (edge W)) (eps : W) m : spanning_tree n T ->
  exists L labels, mst_to_linkage_tree (sort_mst T) = Ok L /\ get_cluster_labelling_at_cut L eps m = Ok labels /\
    component_clustering n (passing (fun w => wlt w eps) (sort_mst T)) m labels.
Proof.
  intro HT. apply c22; [eapply spanning_perm; [apply sort_mst_perm|exact HT]|]. unfold sort_mst. apply isort_sorted.
Qed.

Lemma tree_dbscan {W : WOrd} (D : nat -> nat -> W) n ms eps (T : list (edge W)) :
  spanning_tree n T -> (forall x y, connected (passing (fun w => wlt w eps) T) x y <-> density_connected D n ms eps x y) ->
  exists L labels, mst_to_linkage_tree (sort_mst T) = Ok L /\ get_cluster_labelling_at_cut L eps ms = Ok labels /\ dbscan_star D n ms eps labels.
Proof.
  intros HT HC. destruct (cut_sorted n T eps ms HT) as (L & labels & E1 & E2 & C). exists L, labels. split; auto. split; auto.
  eapply component_dbscan; [|exact C]. intros x y. rewrite <- HC. apply passing_perm. apply Permutation_sym, sort_mst_perm.
Qed.

(** Kruskal's algorithm on all pairs. *)
Lemma brute_cut {W : WOrd} (zero : W) (D : nat -> nat -> W) n ms eps :
  (forall i j, i < n -> j < n -> D i j = D j i) -> (forall i j, i < n -> j < n -> wle (D i i) (D i j) = true) ->
  (forall i j, i < n -> j < n -> wle zero (D i j) = true) -> 0 < n ->
  exists T nbrs core L labels, kruskal_mst_brute zero D n ms CLNone = Ok (T, nbrs, core) /\
    mst_to_linkage_tree (sort_mst T) = Ok L /\ get_cluster_labelling_at_cut L eps ms = Ok labels /\ dbscan_star D n ms eps labels.
Proof.
  intros Sym Self Least Hn. destruct (brute_ok zero D n ms CLNone no_constraint Hn) as (T & nbrs & core & E & C & B); [intros x y; simpl; tauto|].
  destruct (bridged_connected n _ T (brute_connected zero D n ms) (brute_edges_range zero D n ms) B) as [MSF ST].
  destruct (tree_dbscan D n ms eps T ST) as (L & labels & E1 & E2 & R).
  - intros x y. rewrite (msf_levels _ _ MSF _ (threshold_lt eps) x y). apply brute_dc; auto.
  - exists T, nbrs, core, L, labels. auto.
Qed.

(** Borůvka's algorithm over a space tree. *)
Lemma boruvka_dc {W : WOrd} t n (rd lb : nat -> nat -> W) zero root mode ms eps :
  tree_shape t n -> lower_bounds t rd lb ->
  (forall i j, i < n -> j < n -> rd i j = rd j i) ->
  (forall i j, i < n -> j < n -> wfinite (rd i j) = true) ->
  wfinite zero = true -> (forall i, i < n -> wle (rd i i) zero = true) ->
  (forall x y, wle x y = true -> wle (root x) (root y) = true) ->
  2 <= n -> ms < n -> threads_available mode ->
  (forall i j, i < n -> j < n -> wle zero (rd i j) = true) ->
  forall T nbrs core, parallel_boruvka t n rd lb zero root mode ms = Ok (T, nbrs, core) -> spanning_tree n T /\
  forall x y, connected (passing (fun w => wlt w eps) T) x y <-> density_connected (fun i j => root (rd i j)) n ms eps x y.
Proof.
  intros Sh Lb Sym F Zf Self0 M Hn Hms Th Least T nbrs core ER. set (D := fun i j => root (rd i j)).
  destruct (tree_boruvka_reported t n rd lb zero root mode ms Sh Lb Sym F Zf Self0 M Hn Hms Th) as (T' & nbrs' & core' & E & (Lc & C1 & C2) & ST & (MSF & EQ) & _).
  rewrite ER in E. injection E as <- <- <-. split; auto.
  assert (SymD : forall i j, i < n -> j < n -> D i j = D j i) by (intros i j Hi Hj; unfold D; now rewrite Sym).
  assert (Self : forall i j, i < n -> j < n -> wle (D i i) (D i j) = true).
  { intros i j Hi Hj. apply M. eapply wle_trans; [apply Self0; auto|]. now apply Least. }
  assert (LeastD : forall i j, i < n -> j < n -> wle (root zero) (D i j) = true) by (intros; now apply M, Least).
  intros x y. rewrite (msf_close n _ T MSF EQ _ (threshold_lt eps) x y).
  set (c := fun i => nth i core winf) in *.
  assert (EN : forall i j, i < n -> j < n -> (wlt (mutual c D i j) eps = true <-> core_sample D n ms eps i /\ core_sample D n ms eps j /\ wlt (D i j) eps = true)).
  { intros i j Hi Hj. rewrite <- (edge_near D n ms eps (root zero) LeastD c i j Hi Hj).
    - unfold mutual. split.
      + intro H. repeat split; (eapply wle_lt_trans; [|exact H]).
        * eapply wle_trans; [|apply wmax_l]. apply wmax_r.
        * apply wmax_r.
        * eapply wle_trans; [|apply wmax_l]. apply wmax_l.
      + intros (A & B & C). destruct (wmax_cases (wmax (D i j) (c i)) (c j)) as [-> | ->]; auto. destruct (wmax_cases (D i j) (c i)) as [-> | ->]; auto.
    - intros Hm k Hk. unfold c. rewrite C1 by auto. apply wle_refl.
    - intros Hm k Hk. apply core_near; auto. now apply C2. }
  apply graph_dc; auto.
  - intros e He Hw. destruct (complete_in n _ e He) as (A1 & A2 & A3). rewrite A3 in Hw. apply EN in Hw as (X & Y & Z); auto.
    split; auto. split; auto. eapply dc_next; [constructor|auto..].
  - intros i j Hi Hj Hne Ci Cj Ld. apply (connected_edge _ (i, j, mutual c D i j)). apply in_passing. split; [now apply complete_has|]. unfold ewt. cbn [snd]. now apply EN.
Qed.

Lemma tree_boruvka_cut (W : WOrd) t n (rd lb : nat -> nat -> W) zero root mode ms eps :
  tree_shape t n -> lower_bounds t rd lb ->
  (forall i j, i < n -> j < n -> rd i j = rd j i) ->
  (forall i j, i < n -> j < n -> wfinite (rd i j) = true) ->
  wfinite zero = true -> (forall i, i < n -> wle (rd i i) zero = true) ->
  (forall x y, wle x y = true -> wle (root x) (root y) = true) ->
  2 <= n -> ms < n -> threads_available mode ->
  (forall i j, i < n -> j < n -> wle zero (rd i j) = true) ->
  exists T nbrs core L labels, parallel_boruvka t n rd lb zero root mode ms = Ok (T, nbrs, core) /\
    mst_to_linkage_tree (sort_mst T) = Ok L /\ get_cluster_labelling_at_cut L eps ms = Ok labels /\
    dbscan_star (fun i j => root (rd i j)) n ms eps labels.
Proof.
  intros Sh Lb Sym F Zf Self0 M Hn Hms Th Least.
  destruct (tree_boruvka_reported t n rd lb zero root mode ms Sh Lb Sym F Zf Self0 M Hn Hms Th) as (T & nbrs & core & E & _ & ST & _).
  destruct (boruvka_dc t n rd lb zero root mode ms eps Sh Lb Sym F Zf Self0 M Hn Hms Th Least T nbrs core E) as [_ HC].
  destruct (tree_dbscan _ n ms eps T ST HC) as (L & labels & E1 & E2 & R). exists T, nbrs, core, L, labels. auto.
Qed.

(** ** Constraints *)
Lemma bridged_cut {W : WOrd} n CL (E T : list (edge W)) eps m : bridged_result n CL E T ->
  exists L labels, mst_to_linkage_tree (sort_mst T) = Ok L /\ get_cluster_labelling_at_cut L eps m = Ok labels /\
    forall x y, x < n -> y < n -> CL x y -> nth x labels (-2)%Z = nth y labels (-2)%Z -> nth x labels (-2)%Z = (-1)%Z.
Proof.
  intros (M & B & -> & HM & HT & HB). destruct (cut_sorted n (M ++ B) eps m HT) as (L & labels & E1 & E2 & (K1 & K2 & K3 & _)).
  exists L, labels. split; auto. split; auto. intros x y Hx Hy C Eq. destruct (K2 x Hx) as (xs & _ & _ & A & A').
  destruct (le_lt_dec m (length xs)) as [H|H]; [|auto]. exfalso. specialize (A' H). apply (K3 x y Hx Hy A') in Eq.
  apply (passing_perm _ _ _ (sort_mst_perm (M ++ B))) in Eq. apply (cf_respects _ _ _ HM x y); auto.
  eapply connected_incl; [|exact Eq]. intros e He. apply in_passing in He as [He Hw]. apply in_app_or in He as [He|He]; auto.
  exfalso. rewrite Forall_forall in HB. destruct (HB e He) as (Hi & _). rewrite Hi in Hw. apply wlt_nle in Hw. rewrite winf_top in Hw. discriminate.
Qed.

Lemma constrained_cut {W : WOrd} (zero : W) (D : nat -> nat -> W) n ms X g eps m : 0 < n -> valid_constraints n X g ->
  exists cl T nbrs core L labels, resolve_cl_params n X true g = Ok cl /\ kruskal_mst_brute zero D n ms cl = Ok (T, nbrs, core) /\
    mst_to_linkage_tree (sort_mst T) = Ok L /\ get_cluster_labelling_at_cut L eps m = Ok labels /\
    forall x y, x < n -> y < n -> user_constraints (option_map sp_entries X) g x y ->
      nth x labels (-2)%Z = nth y labels (-2)%Z -> nth x labels (-2)%Z = (-1)%Z.
Proof.
  intros Hn HV. destruct (resolve_all n X g HV) as (cl & Ecl & Hcl).
  destruct (brute_ok zero D n ms cl (user_constraints (option_map sp_entries X) g) Hn) as (T & nbrs & core & E & _ & B); auto.
  destruct (bridged_cut n _ _ T eps m B) as (L & labels & E1 & E2 & R). exists cl, T, nbrs, core, L, labels. auto 6.
Qed.

(** ** Rows with missing values *)
Section Rows.
  Context {W : WOrd} {Row : Type}.
  Variables (finite : Row -> bool) (dist : Row -> Row -> W) (X : list Row) (ms : nat) (eps : W).
  Notation F := (filter finite X).
  Notation Dx := (row_distance finite dist X).
  Notation Df := (row_distance finite dist F).
  Variable pos : nat -> nat.
  Hypothesis Hpos : places finite X pos.

  Lemma pos_range i : i < length F -> pos i < length X.
  Proof.
    intro Hi. destruct Hpos as (_ & H & _). specialize (H i Hi). apply nth_error_Some. rewrite H. now apply nth_error_Some.
  Qed.
  Lemma pos_inj i j : i < length F -> j < length F -> pos i = pos j -> i = j.
  Proof.
    intros Hi Hj E. destruct Hpos as (H & _ & _). destruct (Nat.lt_trichotomy i j) as [Q|[Q|Q]]; auto; [specialize (H i j)|specialize (H j i)]; lia.
  Qed.
  Lemma pos_dist i j : i < length F -> j < length F -> Dx (pos i) (pos j) = Df i j.
  Proof. intros Hi Hj. unfold row_distance. destruct Hpos as (_ & H & _). now rewrite !H. Qed.
  Lemma near_present p q : wlt (Dx p q) eps = true -> exists i j, i < length F /\ j < length F /\ pos i = p /\ pos j = q.
  Proof.
    unfold row_distance. assert (Top : wlt winf eps = false) by (unfold wlt; now rewrite winf_top).
    destruct (nth_error X p) as [a|] eqn:Ea; [|congruence]. destruct (nth_error X q) as [b|] eqn:Eb; [|congruence].
    destruct (finite a) eqn:Fa; [|cbn [andb]; congruence]. destruct (finite b) eqn:Fb; [|cbn [andb]; congruence]. intros _.
    destruct Hpos as (_ & _ & H). destruct (H p a Ea Fa) as (i & Hi & <-). destruct (H q b Eb Fb) as (j & Hj & <-). exists i, j. auto.
  Qed.

  Lemma preimages l : NoDup l -> (forall q, In q l -> exists j, j < length F /\ pos j = q) ->
    exists l', NoDup l' /\ length l' = length l /\ forall j, In j l' -> j < length F /\ In (pos j) l.
  Proof.
    intros N H. induction l as [|q l IH]; [exists []; split; [constructor|split; auto; intros j []]|].
    inversion_clear N. destruct IH as (l' & N' & L' & H'); auto; [intros q' Hq'; apply H; right; auto|].
    destruct (H q (or_introl eq_refl)) as (j & Hj & <-). exists (j :: l'). split; [|split].
    - constructor; auto. intro K. destruct (H' j K). contradiction.
    - simpl. congruence.
    - intros k [<-|Hk]; [split; auto; left; auto|]. destruct (H' k Hk). split; auto. right. auto.
  Qed.
  Lemma core_pos i : i < length F -> (core_sample Dx (length X) ms eps (pos i) <-> core_sample Df (length F) ms eps i).
  Proof.
    intro Hi. split; intros [H|(near & N & L & H)]; try (now left); right.
    - destruct (preimages near N) as (l' & N' & L' & H').
      + intros q Hq. destruct (H q Hq) as (_ & _ & Hw). destruct (near_present _ _ Hw) as (_ & j & _ & Hj & _ & <-). eauto.
      + exists l'. split; auto. split; [lia|]. intros j Hj. destruct (H' j Hj) as [A B]. destruct (H _ B) as (_ & K1 & K2).
        split; auto. split; [congruence|]. now rewrite <- pos_dist.
    - exists (map pos near). split; [|split].
      + clear L. induction near as [|j near IH]; cbn [map]; constructor.
        * inversion_clear N. intro K. apply in_map_iff in K as (k & Ek & Hk). apply H0. replace j with k; auto. apply pos_inj; auto; apply H; simpl; auto.
        * inversion_clear N. apply IH; auto. intros k Hk. apply H. right. auto.
      + now rewrite map_length.
      + intros q Hq. apply in_map_iff in Hq as (j & <- & Hj). destruct (H j Hj) as (A & B & C). split; [now apply pos_range|]. split; [|now rewrite pos_dist].
        intro K. apply B. now apply pos_inj.
  Qed.

  Hypothesis Dsym : forall a b, dist a b = dist b a.
  Lemma row_sym (Y : list Row) i j : row_distance finite dist Y i j = row_distance finite dist Y j i.
  Proof. unfold row_distance. destruct (nth_error Y i), (nth_error Y j); auto. rewrite Dsym, andb_comm. reflexivity. Qed.

  (** A graph of the finite rows, moved to their places. *)
  Lemma moved_dc (E : list (edge W)) : in_range (length F) E ->
    (forall x y, connected (passing (fun w => wlt w eps) E) x y <-> density_connected Df (length F) ms eps x y) ->
    forall p q, connected (passing (fun w => wlt w eps) (map (place_edge pos) E)) p q <-> density_connected Dx (length X) ms eps p q.
  Proof.
    intros HR H p q. apply graph_dc; [intros; apply row_sym|..].
    - intros e He Hw. apply in_map_iff in He as (e0 & <- & He0). unfold place_edge, esrc, edst, ewt in *. cbn [fst snd] in *.
      destruct (HR e0 He0) as [R1 R2]. unfold esrc, edst in R1, R2. split; [now apply pos_range|]. split; [now apply pos_range|].
      assert (K : density_connected Df (length F) ms eps (fst (fst e0)) (snd (fst e0))) by (apply H, (connected_edge _ e0), in_passing; auto).
      remember (snd (fst e0)) as b eqn:Eb. clear Eb. revert R2. induction K as [|y z K IH Hy Hz Cy Cz Lw]; intro R2; [constructor|].
      eapply dc_next; [apply IH; auto| | | | |]; [now apply pos_range|now apply pos_range|now apply core_pos|now apply core_pos|now rewrite pos_dist].
    - intros p' q' _ _ Hne Cp Cq Lw. destruct (near_present _ _ Lw) as (i & j & Hi & Hj & <- & <-).
      apply core_pos in Cp; auto. apply core_pos in Cq; auto. rewrite pos_dist in Lw by auto.
      assert (K : connected (passing (fun w => wlt w eps) E) i j) by (apply H; eapply dc_next; [constructor|auto..]).
      clear -K. revert i j K. apply (connected_ind_equiv (passing (fun w => wlt w eps) E) (fun i j => connected (passing (fun w => wlt w eps) (map (place_edge pos) E)) (pos i) (pos j))).
      + intro. apply connected_refl.
      + intros. now apply connected_sym.
      + intros. eapply connected_trans; eauto.
      + intros e He. apply in_passing in He as [He Hw]. apply (connected_edge _ (place_edge pos e)). apply in_passing. split; [now apply in_map|auto].
  Qed.
End Rows.

Lemma all_finite_filter {Row} (finite : Row -> bool) X : forallb finite X = true -> filter finite X = X.
Proof. induction X as [|x X IH]; cbn; auto. intro H. apply andb_true_iff in H as [-> H]. now rewrite IH. Qed.

Lemma pairs_dc {W : WOrd} {Row} (zero : W) (dist : Row -> Row -> W) (finite : Row -> bool) ms eps (F : list Row) M :
  (forall a b, dist a b = dist b a) -> (forall a b, wle (dist a a) (dist a b) = true) -> (forall a b, wle zero (dist a b) = true) ->
  forallb finite F = true -> 0 < length F -> pairs_mst zero dist ms F = Ok M ->
  spanning_tree (length F) M /\
  forall x y, connected (passing (fun w => wlt w eps) M) x y <-> density_connected (row_distance finite dist F) (length F) ms eps x y.
Proof.
  intros Sym Self Least HF Hn. unfold pairs_mst. cbv zeta. set (D := fun i j => match nth_error F i with Some x => _ | None => _ end).
  assert (ED : forall i j, i < length F -> j < length F -> D i j = row_distance finite dist F i j).
  { intros i j Hi Hj. unfold D, row_distance. destruct (nth_error F i) as [a|] eqn:Ea; [|apply nth_error_None in Ea; lia]. destruct (nth_error F j) as [b|] eqn:Eb; [|apply nth_error_None in Eb; lia].
    rewrite forallb_forall in HF. rewrite !HF; auto; eapply nth_error_In; eauto. }
  assert (EX : forall i, i < length F -> exists a, nth_error F i = Some a).
  { intros i Hi. destruct (nth_error F i) eqn:E; eauto. apply nth_error_None in E. lia. }
  destruct (brute_ok zero D (length F) ms CLNone no_constraint Hn) as (T & nbrs & core & E & C & B); [intros x y; simpl; tauto|].
  rewrite E. cbn [bind fst]. intro EM. injection EM as <-.
  destruct (bridged_connected (length F) _ T (brute_connected zero D (length F) ms) (brute_edges_range zero D (length F) ms) B) as [MSF ST].
  split; auto. intros x y. rewrite (msf_levels _ _ MSF _ (threshold_lt eps) x y).
  assert (Same : density_connected D (length F) ms eps x y <-> density_connected (row_distance finite dist F) (length F) ms eps x y).
  { assert (G : forall D1 D2 : nat -> nat -> W, (forall i j, i < length F -> j < length F -> D1 i j = D2 i j) ->
      forall i, i < length F -> core_sample D1 (length F) ms eps i -> core_sample D2 (length F) ms eps i).
    { intros D1 D2 H i Hi [K|(near & N & L & K)]; [now left|right]. exists near. split; auto. split; auto. intros j Hj. destruct (K j Hj) as (A & A' & A''). rewrite <- H; auto. }
    assert (G' : forall D1 D2 : nat -> nat -> W, (forall i j, i < length F -> j < length F -> D1 i j = D2 i j) ->
      density_connected D1 (length F) ms eps x y -> density_connected D2 (length F) ms eps x y).
    { intros D1 D2 H K. induction K as [|u v K IH Hu Hv Cu Cv L]; [constructor|]. eapply dc_next; eauto. now rewrite <- H. }
    split; apply G'; auto. intros; symmetry; auto. }
  rewrite <- Same. apply brute_dc.
  - intros i j Hi Hj. destruct (EX i Hi) as [a Ea], (EX j Hj) as [b Eb]. unfold D. rewrite Ea, Eb. apply Sym.
  - intros i j Hi Hj. destruct (EX i Hi) as [a Ea], (EX j Hj) as [b Eb]. unfold D. rewrite Ea, Eb. apply Self.
  - intros i j Hi Hj. destruct (EX i Hi) as [a Ea], (EX j Hj) as [b Eb]. unfold D. rewrite Ea, Eb. apply Least.
Qed.

Lemma fit_cut (W V : WOrd) (Row : Type) (lam : W -> V) (LA : LamArith V) (garbage : nat -> V) (zero : W) (dist : Row -> Row -> W) (ms : nat)
    (finite : Row -> bool) (set_list : list nat -> list nat) (X : list Row) (A : Arith V NatSize)
    (by_parent : list (crow V NatSize) -> list (crow V NatSize)) (st : settings V NatSize) r (eps : W) :
  (forall l, Permutation (set_list l) l) -> setting_ok lam LA A by_parent st ->
  (forall a b, dist a b = dist b a) -> (forall a b, wle (dist a a) (dist a b) = true) -> (forall a b, wle zero (dist a b) = true) ->
  (if forallb finite X then 2 else 3) <= length (filter finite X) ->
  fit (la_zero LA) finite set_list (fast_hdbscan lam LA garbage (pairs_mst zero dist ms) A by_parent st) X = Ok r ->
  exists labels, dbscan_clustering r eps ms = Ok labels /\ dbscan_star (row_distance finite dist X) (length X) ms eps labels.
Proof.
  intros Hset HK Sym Self Least Hn E. destruct (forallb finite X) eqn:HF.
  - unfold fit in E. rewrite HF in E. rewrite (all_finite_filter _ _ HF) in Hn.
    destruct (pairs_ok zero dist ms X ltac:(lia)) as (M & EM & HM).
    assert (HM' : forall M', pairs_mst zero dist ms X = Ok M' -> spanning_tree (length X) M') by (intros M' E'; congruence).
    unfold fast_hdbscan in E. destruct (Nat.eqb_spec (length X) 0) as [|_]; [lia|]. destruct (Nat.ltb_spec (length X) 2) as [|_]; [lia|].
    rewrite EM in E. cbn [bind] in E.
    destruct (pairs_dc zero dist finite ms eps X M Sym Self Least HF ltac:(lia) EM) as [_ HC].
    destruct (tree_dbscan _ (length X) ms eps M HM HC) as (L & labels & E1 & E2 & R).
    rewrite E1 in E. cbn [bind] in E. destruct (clusters_from_linkage_tree _ _ _ _ _ _ _ _ _) as [[[ls ps] T]|]; [|discriminate]. cbn [bind] in E.
    injection E as <-. exists labels. split; auto.
  - assert (HFF : forallb finite (filter finite X) = true) by (apply forallb_forall; intros x Hx; apply filter_In in Hx; tauto).
    destruct (pairs_ok zero dist ms (filter finite X) ltac:(lia)) as (M & EM & HM).
    destruct (fit_plain lam LA garbage (pairs_mst zero dist ms) finite set_list X Hset HF Hn A by_parent st M HK EM HM)
      as [(r0 & r' & pos & others & E0 & E' & EMr & HO & HP & Ex)|[_ E']]; [|congruence].
    assert (r' = r) by congruence. subst r'.
    destruct (pairs_dc zero dist finite ms eps (filter finite X) M Sym Self Least HFF ltac:(lia) EM) as [_ HC].
    destruct (ex_cuts _ _ _ _ _ _ _ _ _ Ex eps ms) as (ls & El & Cl). exists ls. split; auto. rewrite EMr in Cl.
    eapply component_dbscan; [|exact Cl]. intros p q. apply moved_dc; auto.
    + apply (spanning_perm _ _ _ (sort_mst_perm M) HM).
    + intros x y. rewrite <- HC. symmetry. apply passing_perm, sort_mst_perm.
Qed.

(** ** Consequences *)
Section Consequences.
  Context {W : WOrd}.
  Variables (D : nat -> nat -> W) (n ms : nat).

  Lemma star_noise eps labels x : dbscan_star D n ms eps labels -> 2 <= ms -> x < n -> ~ core_sample D n ms eps x -> nth x labels (-2)%Z = (-1)%Z.
  Proof.
    intros [_ H _ _] Hm Hx Hc. destruct (H x Hx) as (xs & N & I & A & _). apply A.
    assert (length xs <= length [x]); [|simpl in *; lia]. apply NoDup_incl_length; auto. intros y Hy. apply I in Hy as [_ Hy]. left.
    induction Hy as [|y z Hy IH Y Z Cy Cz L]; auto. exfalso. apply Hc. now rewrite IH.
  Qed.

  Lemma core_mono eps eps' i : wle eps eps' = true -> core_sample D n ms eps i -> core_sample D n ms eps' i.
  Proof.
    intros L [H|(near & N & Ln & H)]; [now left|right]. exists near. split; auto. split; auto. intros j Hj. destruct (H j Hj) as (A & B & C).
    split; auto. split; auto. eapply wlt_le_trans; eauto.
  Qed.
  Lemma dc_mono eps eps' x y : wle eps eps' = true -> density_connected D n ms eps x y -> density_connected D n ms eps' x y.
  Proof.
    intros L H. induction H as [|y z H IH Y Z Cy Cz Lw]; [constructor|]. eapply dc_next; eauto using core_mono. eapply wlt_le_trans; eauto.
  Qed.
  Lemma star_nested eps eps' labels labels' x y : wle eps eps' = true -> dbscan_star D n ms eps labels -> dbscan_star D n ms eps' labels' ->
    x < n -> y < n -> (0 <= nth x labels (-2))%Z -> nth x labels (-2)%Z = nth y labels (-2)%Z ->
    (0 <= nth x labels' (-2))%Z /\ nth x labels' (-2)%Z = nth y labels' (-2)%Z.
  Proof.
    intros L S1 S2 Hx Hy H0 E. apply (ds_same _ _ _ _ _ S1 x y Hx Hy H0) in E.
    destruct (ds_size _ _ _ _ _ S1 x Hx) as (xs & N & I & A & _). destruct (ds_size _ _ _ _ _ S2 x Hx) as (xs' & N' & I' & _ & B').
    assert (Hl : length xs <= length xs').
    { apply NoDup_incl_length; auto. intros z Hz. apply I'. apply I in Hz as [Hz K]. split; auto. eapply dc_mono; eauto. }
    assert (H0' : (0 <= nth x labels' (-2))%Z).
    { apply B'. destruct (le_lt_dec ms (length xs)) as [K|K]; [lia|]. rewrite (A K) in H0. lia. }
    split; auto. apply (ds_same _ _ _ _ _ S2 x y Hx Hy H0'). eapply dc_mono; eauto.
  Qed.
End Consequences.

Lemma fit_cuts_nested (W V : WOrd) (Row : Type) (lam : W -> V) (LA : LamArith V) (garbage : nat -> V) (zero : W) (dist : Row -> Row -> W) (ms : nat)
    (finite : Row -> bool) (set_list : list nat -> list nat) (X : list Row) (A : Arith V NatSize)
    (by_parent : list (crow V NatSize) -> list (crow V NatSize)) (st : settings V NatSize) r (eps eps' : W) labels labels' :
  (forall l, Permutation (set_list l) l) -> setting_ok lam LA A by_parent st ->
  (forall a b, dist a b = dist b a) -> (forall a b, wle (dist a a) (dist a b) = true) -> (forall a b, wle zero (dist a b) = true) ->
  (if forallb finite X then 2 else 3) <= length (filter finite X) ->
  fit (la_zero LA) finite set_list (fast_hdbscan lam LA garbage (pairs_mst zero dist ms) A by_parent st) X = Ok r ->
  wle eps eps' = true -> dbscan_clustering r eps ms = Ok labels -> dbscan_clustering r eps' ms = Ok labels' ->
  forall x y, x < length X -> y < length X -> (0 <= nth x labels (-2))%Z -> nth x labels (-2)%Z = nth y labels (-2)%Z ->
    (0 <= nth x labels' (-2))%Z /\ nth x labels' (-2)%Z = nth y labels' (-2)%Z.
Proof.
  intros H1 H2 H3 H4 H5 H6 E L E1 E2 x y.
  destruct (fit_cut W V Row lam LA garbage zero dist ms finite set_list X A by_parent st r eps H1 H2 H3 H4 H5 H6 E) as (l1 & K1 & S1).
  destruct (fit_cut W V Row lam LA garbage zero dist ms finite set_list X A by_parent st r eps' H1 H2 H3 H4 H5 H6 E) as (l2 & K2 & S2).
  assert (l1 = labels) by congruence. assert (l2 = labels') by congruence. subst l1 l2. eapply star_nested; eauto.
Qed.

Lemma fit_missing_noise (W V : WOrd) (Row : Type) (lam : W -> V) (LA : LamArith V) (garbage : nat -> V) (zero : W) (dist : Row -> Row -> W) (ms : nat)
    (finite : Row -> bool) (set_list : list nat -> list nat) (X : list Row) (A : Arith V NatSize)
    (by_parent : list (crow V NatSize) -> list (crow V NatSize)) (st : settings V NatSize) r (eps : W) labels p a :
  (forall l, Permutation (set_list l) l) -> setting_ok lam LA A by_parent st ->
  (forall a b, dist a b = dist b a) -> (forall a b, wle (dist a a) (dist a b) = true) -> (forall a b, wle zero (dist a b) = true) ->
  3 <= length (filter finite X) ->
  fit (la_zero LA) finite set_list (fast_hdbscan lam LA garbage (pairs_mst zero dist ms) A by_parent st) X = Ok r ->
  2 <= ms -> dbscan_clustering r eps ms = Ok labels -> nth_error X p = Some a -> finite a = false -> nth p labels (-2)%Z = (-1)%Z.
Proof.
  intros H1 H2 H3 H4 H5 H6 E Hm E1 Hp Ha.
  destruct (fit_cut W V Row lam LA garbage zero dist ms finite set_list X A by_parent st r eps H1 H2 H3 H4 H5) as (l1 & K1 & S1); auto.
  { destruct (forallb finite X); lia. }
  assert (l1 = labels) by congruence. subst l1. eapply star_noise; eauto.
  - apply nth_error_Some. congruence.
  - intros [K|(near & N & Ln & K)]; [lia|]. destruct near as [|j near]; [simpl in Ln; lia|]. destruct (K j (or_introl eq_refl)) as (_ & _ & Kw).
    unfold row_distance in Kw. rewrite Hp, Ha in Kw. cbn [andb] in Kw. unfold wlt in Kw. destruct (nth_error X j); rewrite winf_top in Kw; discriminate.
Qed.
