(** Sets of samples far from each other fall apart independently. *)
From Coq Require Import List Arith Lia Bool ZArith.
From Verif Require Import Prelude Order Graph Size S_Dbscan P_Dbscan S_Level S_Resize S_Join S_Split S_Parts S_Far.
Import ListNotations.
Local Open Scope nat_scope.

(** ** One of the sets *)
Section One.
  Context {W : WOrd}.
  Variables (D D' : nat -> nat -> W) (n n' ms : nat) (f : nat -> nat) (g : W).
  Hypothesis HI : included D n D' n' f.
  Hypothesis Far : forall i z, i < n' -> z < n -> (forall k, k < n' -> z <> f k) -> wle g (D (f i) z) = true.
  Notation dc := (density_connected D n ms).
  Notation dc' := (density_connected D' n' ms).

  Lemma placed z : (exists i, i < n' /\ z = f i) \/ (forall i, i < n' -> z <> f i).
  Proof.
    clear Far HI. induction n' as [|m IH]; [right; lia|]. destruct IH as [(i & Hi & E)|H]; [left; exists i; split; auto; lia|].
    destruct (Nat.eq_dec z (f m)) as [E|N]; [left; exists m; auto|]. right. intros i Hi. destruct (Nat.eq_dec i m) as [->|]; auto. apply H. lia.
  Qed.
  Lemma core_out eps i : i < n' -> core_sample D' n' ms eps i -> core_sample D n ms eps (f i).
  Proof.
    destruct HI as (Rg & Inj & Dist). intros Hi [H|(l & N & E & H)]; [now left|]. right. exists (map f l). split; [|split].
    - clear E. induction N as [|a l Ha N IH]; cbn [map]; constructor; [|apply IH; intros; apply H; now right].
      intro K. apply in_map_iff in K as (b & Eb & Hb). destruct (H a (or_introl eq_refl)) as (Ra & _). destruct (H b (or_intror Hb)) as (Rb & _). apply Inj in Eb; auto. now subst b.
    - now rewrite map_length.
    - intros j Hj. apply in_map_iff in Hj as (k & <- & Hk). destruct (H k Hk) as (Rk & Nk & Wk). split; auto. split; [intro K; apply Nk, Inj; auto|]. now rewrite Dist.
  Qed.
  Lemma core_in eps i : i < n' -> wle eps g = true -> core_sample D n ms eps (f i) -> core_sample D' n' ms eps i.
  Proof.
    destruct HI as (Rg & Inj & Dist). intros Hi He [H|(l & N & E & H)]; [now left|]. right.
    assert (HP : exists l', map f l' = l /\ forall k, In k l' -> k < n').
    { clear E N. induction l as [|a l IH]; [exists []; split; [auto|intros k []]|]. destruct IH as (l' & E' & R'); [intros; apply H; now right|].
      destruct (H a (or_introl eq_refl)) as (Ra & _ & Wa). destruct (placed a) as [(k & Hk & ->)|Na].
      - exists (k :: l'). split; [cbn [map]; now rewrite E'|]. intros u [<-|Hu]; auto.
      - exfalso. pose proof (Far i a Hi Ra Na) as K. assert (C : wlt (D (f i) a) g = true) by (eapply wlt_le_trans; eauto). apply wlt_nle in C. congruence. }
    destruct HP as (l' & El & Rl). exists l'. split; [apply (NoDup_map_inv f); now rewrite El|]. split; [rewrite <- E, <- El; now rewrite map_length|].
    intros k Hk. destruct (H (f k)) as (_ & Nk & Wk); [rewrite <- El; now apply in_map|]. split; auto. split; [now intros ->|]. now rewrite <- Dist by auto.
  Qed.
  Lemma dc_out eps i j : i < n' -> dc' eps i j -> dc eps (f i) (f j).
  Proof.
    destruct HI as (Rg & Inj & Dist). intros Hi H. induction H as [|y z H IH Hy Hz Cy Cz Lt]; [constructor|].
    eapply dc_next; [exact IH|auto|auto|now apply core_out|now apply core_out|]. now rewrite Dist.
  Qed.
  Lemma dc_in eps i z : i < n' -> wle eps g = true -> dc eps (f i) z -> exists j, j < n' /\ z = f j /\ dc' eps i j.
  Proof.
    destruct HI as (Rg & Inj & Dist). intros Hi He H. induction H as [|y z H IH Hy Hz Cy Cz Lt]; [exists i; split; auto; split; auto; constructor|].
    destruct IH as (j & Hj & -> & K). destruct (placed z) as [(k & Hk & ->)|Nz].
    - exists k. split; auto. split; auto. eapply dc_next; [exact K|auto|auto|now apply core_in|now apply core_in|]. now rewrite <- Dist.
    - exfalso. pose proof (Far j z Hj Hz Nz) as Q. assert (C : wlt (D (f j) z) g = true) by (eapply wlt_le_trans; eauto). apply wlt_nle in C. congruence.
  Qed.
  Lemma dc_same eps i j : i < n' -> j < n' -> wle eps g = true -> (dc eps (f i) (f j) <-> dc' eps i j).
  Proof.
    intros Hi Hj He. split; [|now apply dc_out]. intro H. destruct (dc_in eps i _ Hi He H) as (k & Hk & E & K). apply HI in E; auto. now subst k.
  Qed.
  Lemma gathered_out k eps i : i < n' -> gathered D' n' ms k eps i -> gathered D n ms k eps (f i).
  Proof.
    destruct HI as (Rg & Inj & Dist). intros Hi (l & N & E & H). exists (map f l). split; [|split; [now rewrite map_length|]].
    - clear E. induction N as [|a l Ha N IH]; cbn [map]; constructor; [|apply IH; intros; apply H; now right].
      intro K. apply in_map_iff in K as (b & Eb & Hb). destruct (H a (or_introl eq_refl)) as (Ra & _). destruct (H b (or_intror Hb)) as (Rb & _). apply Inj in Eb; auto. now subst b.
    - intros y Hy. apply in_map_iff in Hy as (j & <- & Hj). destruct (H j Hj) as [Rj K]. split; auto. now apply dc_out.
  Qed.
  Lemma gathered_in k eps i : i < n' -> wle eps g = true -> gathered D n ms k eps (f i) -> gathered D' n' ms k eps i.
  Proof.
    intros Hi He (l & N & E & H). assert (HP : exists l', map f l' = l /\ forall j, In j l' -> j < n' /\ dc' eps i j).
    { clear E N. induction l as [|a l IH]; [exists []; split; [auto|intros j []]|]. destruct IH as (l' & E' & R'); [intros; apply H; now right|].
      destruct (H a (or_introl eq_refl)) as (Ra & K). destruct (dc_in eps i a Hi He K) as (j & Hj & -> & K'). exists (j :: l'). split; [cbn [map]; now rewrite E'|].
      intros u [<-|Hu]; auto. }
    destruct HP as (l' & El & Rl). exists l'. split; [apply (NoDup_map_inv f); now rewrite El|]. split; [rewrite <- E, <- El; now rewrite map_length|]. exact Rl.
  Qed.

  Hypothesis Wh : whole D' n' ms g.
  Notation image P := (fun z => exists i, i < n' /\ z = f i /\ P i).
  Lemma below_gap eps i j : i < n' -> j < n' -> ~ dc' eps i j -> wle eps g = true.
  Proof.
    intros Hi Hj N. destruct (wle eps g) eqn:E; auto. exfalso. apply N. apply (dc_mono D' n' ms g); [|now apply Wh]. destruct (wle_total _ g eps) as [H|H]; congruence.
  Qed.
  Lemma part_out k P : part D' n' ms k P -> part D n ms k (image P).
  Proof.
    intros (eps & x & y & Hx & Hy & Gx & Gy & K & J & HP). pose proof (below_gap eps x y Hx Hy K) as He. destruct HI as (Rg & Inj & Dist). exists eps, (f x), (f y).
    split; auto. split; auto. split; [now apply gathered_out|]. split; [now apply gathered_out|]. split; [now rewrite dc_same|].
    split; [intros; apply dc_out; auto|]. intro z. split.
    - intros (i & Hi & -> & Pi). apply HP in Pi as [_ Pi]. split; auto. now apply dc_out.
    - intros [Hz Q]. destruct (dc_in eps x z Hx He Q) as (j & Hj & -> & Q'). exists j. split; auto. split; auto. now apply HP.
  Qed.
  Lemma part_in k P eps x y : x < n' -> y < n' -> gathered D n ms k eps (f x) -> gathered D n ms k eps (f y) -> ~ dc eps (f x) (f y) ->
    (forall eps', wlt eps eps' = true -> dc eps' (f x) (f y)) -> (forall z, P z <-> z < n /\ dc eps (f x) z) ->
    exists P', part D' n' ms k P' /\ forall z, P z <-> image P' z.
  Proof.
    intros Hx Hy Gx Gy K J HP. assert (He : wle eps g = true) by (apply (below_gap eps x y Hx Hy); intro Q; apply K; now apply dc_out).
    exists (fun j => j < n' /\ dc' eps x j). split.
    - exists eps, x, y. split; auto. split; auto. split; [now apply gathered_in|]. split; [now apply gathered_in|]. split; [intro Q; apply K; now apply dc_out|].
      split; [|tauto]. intros eps' He'. destruct (wle eps' g) eqn:E; [apply dc_same; auto|]. apply (dc_mono D' n' ms g); [|now apply Wh]. destruct (wle_total _ g eps') as [H|H]; congruence.
    - intro z. rewrite HP. split.
      + intros [_ Q]. destruct (dc_in eps x z Hx He Q) as (j & Hj & -> & Q'). exists j. auto.
      + intros (j & Hj & -> & _ & Q). split; [now apply HI|now apply dc_out].
  Qed.
  Lemma whole_at eps i j : wle g eps = true -> i < n' -> j < n' -> dc eps (f i) (f j).
  Proof. intros He Hi Hj. apply dc_out; auto. apply (dc_mono D' n' ms g); auto. Qed.
End One.

(** ** Both sets *)
Definition at_places (n' : nat) (f : nat -> nat) (P : nat -> Prop) (z : nat) : Prop := exists i, i < n' /\ z = f i /\ P i.
Definition far_apart {W : WOrd} (D Da Db : nat -> nat -> W) (n na nb ms : nat) (f h : nat -> nat) (g : W) : Prop :=
  included D n Da na f /\ included D n Db nb h /\
  (forall z, z < n -> (exists i, i < na /\ z = f i) \/ (exists j, j < nb /\ z = h j)) /\ (forall i j, i < na -> j < nb -> f i <> h j) /\
  (forall i j, i < na -> j < nb -> wle g (D (f i) (h j)) = true) /\ (forall i j, D i j = D j i) /\
  whole Da na ms g /\ whole Db nb ms g.
Lemma far_swap {W : WOrd} (D Da Db : nat -> nat -> W) n na nb ms f h g : far_apart D Da Db n na nb ms f h g -> far_apart D Db Da n nb na ms h f g.
Proof.
  intros (Ia & Ib & Cov & Dis & Far & Sym & Wa & Wb). split; auto. split; auto. split; [intros z Hz; destruct (Cov z Hz); auto|].
  split; [intros i j Hi Hj E; now apply (Dis j i)|]. split; [intros i j Hi Hj; rewrite Sym; auto|]. auto.
Qed.

Section Two.
  Context {W : WOrd}.
  Variables (D Da Db : nat -> nat -> W) (n na nb ms k : nat) (f h : nat -> nat) (g : W).
  Hypothesis HF : far_apart D Da Db n na nb ms f h g.
  Notation dc := (density_connected D n ms).

  Lemma far_left i z : i < na -> z < n -> (forall k, k < na -> z <> f k) -> wle g (D (f i) z) = true.
  Proof. destruct HF as (_ & _ & Cov & _ & Far & _). intros Hi Hz N. destruct (Cov z Hz) as [(j & Hj & E)|(j & Hj & ->)]; [now apply N in E|auto]. Qed.

  (** Below the gap the two sets are not connected, beyond it each is in one piece. *)
  Lemma joined_above eps i j : i < na -> j < nb -> (forall eps', wlt eps eps' = true -> dc eps' (f i) (h j)) -> wle g eps = true.
  Proof.
    destruct HF as (Ia & Ib & Cov & Dis & Far & Sym & Wa & Wb). intros Hi Hj J. destruct (wle g eps) eqn:E; auto. exfalso. apply wlt_nle in E. specialize (J g E).
    destruct (dc_in D Da n na ms f g Ia far_left g i _ Hi (wle_refl g) J) as (u & Hu & Eu & _). exact (Dis u j Hu Hj (eq_sym Eu)).
  Qed.
  Lemma side_of eps i j z : wle g eps = true -> i < na -> j < nb -> ~ dc eps (f i) (h j) -> (z < n /\ dc eps (f i) z <-> at_places na f (fun _ => True) z).
  Proof.
    destruct HF as (Ia & Ib & Cov & Dis & Far & Sym & Wa & Wb). intros He Hi Hj N. split.
    - intros [Hz K]. destruct (Cov z Hz) as [(u & Hu & ->)|(u & Hu & ->)]; [exists u; auto|]. exfalso. apply N. eapply dc_trans; [exact K|].
      apply (whole_at D Db n nb ms h g Ib Wb); auto.
    - intros (u & Hu & -> & _). split; [now apply Ia|]. apply (whole_at D Da n na ms f g Ia Wa); auto.
  Qed.
  Lemma cases_left P i eps y : i < na -> y < n -> gathered D n ms k eps (f i) -> gathered D n ms k eps y -> ~ dc eps (f i) y ->
    (forall eps', wlt eps eps' = true -> dc eps' (f i) y) -> (forall z, P z <-> z < n /\ dc eps (f i) z) ->
    (exists P', part Da na ms k P' /\ forall z, P z <-> at_places na f P' z) \/ (forall z, P z <-> at_places na f (fun _ => True) z).
  Proof.
    intros Hi Hy Gx Gy K J HP. pose proof HF as (Ia & Ib & Cov & Dis & Far & Sym & Wa & Wb). destruct (Cov y Hy) as [(j & Hj & ->)|(j & Hj & ->)].
    - left. apply (part_in D Da n na ms f g Ia far_left Wa k P eps i j); auto.
    - right. intro z. rewrite HP. apply (side_of eps i j z); auto. now apply (joined_above eps i j).
  Qed.
  Lemma part_left P : part Da na ms k P -> part D n ms k (at_places na f P).
  Proof. pose proof HF as (Ia & Ib & Cov & Dis & Far & Sym & Wa & Wb). intro HP. exact (part_out D Da n na ms f g Ia far_left Wa k P HP). Qed.

  Hypothesis Ha : 0 < na.
  Hypothesis Hb : 0 < nb.
  Hypothesis Ka : k <= na.
  Hypothesis Kb : k <= nb.
  Hypothesis Parting : forall x y, x < n -> y < n -> x <> y -> exists eps, ~ dc eps x y /\ forall eps', wlt eps eps' = true -> dc eps' x y.

  Lemma all_gathered n' D' pos eps : included D n D' n' pos -> whole D' n' ms g -> k <= n' -> 0 < n' -> wle g eps = true -> gathered D n ms k eps (pos 0).
  Proof.
    intros I Wh Hk Hn' He. apply (gathered_out D D' n n' ms pos I); auto. exists (seq 0 k). split; [apply seq_NoDup|]. split; [apply seq_length|].
    intros y Hy. apply in_seq in Hy. split; [lia|]. apply (dc_mono D' n' ms g); auto. apply Wh; lia.
  Qed.
  Lemma left_part : part D n ms k (at_places na f (fun _ => True)).
  Proof.
    pose proof HF as (Ia & Ib & Cov & Dis & Far & Sym & Wa & Wb).
    destruct (Parting (f 0) (h 0)) as (eps & N & J); [now apply Ia|now apply Ib|now apply Dis|]. pose proof (joined_above eps 0 0 Ha Hb J) as He.
    exists eps, (f 0), (h 0). split; [now apply Ia|]. split; [now apply Ib|]. split; [now apply (all_gathered na Da)|]. split; [now apply (all_gathered nb Db)|].
    split; auto. split; auto. intro z. rewrite (side_of eps 0 0 z); auto. reflexivity.
  Qed.
End Two.

Section Both.
  Context {W : WOrd}.
  Variables (D Da Db : nat -> nat -> W) (n na nb ms k : nat) (f h : nat -> nat) (g : W).
  Hypothesis HF : far_apart D Da Db n na nb ms f h g.
  Hypothesis Ha : 0 < na.
  Hypothesis Hb : 0 < nb.
  Hypothesis Ka : k <= na.
  Hypothesis Kb : k <= nb.
  Hypothesis Parting : forall x y, x < n -> y < n -> x <> y -> exists eps, ~ density_connected D n ms eps x y /\ forall eps', wlt eps eps' = true -> density_connected D n ms eps' x y.
  Let HF' := far_swap _ _ _ _ _ _ _ _ _ _ HF.

  Lemma part_cases P : part D n ms k P ->
    (exists P', part Da na ms k P' /\ forall z, P z <-> at_places na f P' z) \/ (forall z, P z <-> at_places na f (fun _ => True) z) \/
    (exists P', part Db nb ms k P' /\ forall z, P z <-> at_places nb h P' z) \/ (forall z, P z <-> at_places nb h (fun _ => True) z).
  Proof.
    intros (eps & x & y & Hx & Hy & Gx & Gy & K & J & HP). pose proof HF as HF0. destruct HF0 as (_ & _ & Cov & _). destruct (Cov x Hx) as [(i & Hi & ->)|(i & Hi & ->)].
    - destruct (cases_left D Da Db n na nb ms k f h g HF P i eps y); auto.
    - destruct (cases_left D Db Da n nb na ms k h f g HF' P i eps y); auto.
  Qed.
  Lemma part_some D0 n0 P : part (W := W) D0 n0 ms k P -> exists x y, P x /\ y < n0 /\ ~ P y.
  Proof. intros (eps & x & y & Hx & Hy & Gx & Gy & K & J & HP). exists x, y. split; [apply HP; split; auto; constructor|]. split; auto. intro Q. apply HP in Q. tauto. Qed.
  Lemma places_disjoint P Q z : at_places na f P z -> at_places nb h Q z -> False.
  Proof. assert (Dis : forall i j, i < na -> j < nb -> f i <> h j) by apply HF. intros (i & Hi & -> & _) (j & Hj & E & _). now apply (Dis i j) in E. Qed.
  Lemma places_inside P i : i < na -> (at_places na f P (f i) <-> P i).
  Proof.
    assert (Inj : forall i j, i < na -> j < na -> f i = f j -> i = j) by apply HF. intro Hi. split; [|intro H; exists i; auto]. intros (j & Hj & E & H). apply Inj in E; auto. now subst j.
  Qed.

  (** The smallest parts among the samples at [f]. *)
  Lemma smallest_left P : smallest (part D n ms k) P -> (exists z, P z /\ exists i, i < na /\ z = f i) ->
    (exists P', smallest (part Da na ms k) P' /\ forall z, P z <-> at_places na f P' z) \/
    ((forall P', ~ part Da na ms k P') /\ forall z, P z <-> at_places na f (fun _ => True) z).
  Proof.
    intros [HP Hm] (z & Pz & Hz). assert (Hzf : at_places na f (fun _ => True) z) by (destruct Hz as (i & Hi & ->); exists i; auto).
    destruct (part_cases P HP) as [(P' & HP' & E)|[E|[(P' & HP' & E)|E]]].
    - left. exists P'. split; auto. split; auto. intros Q HQ Hsub u Pu.
      assert (Hu : u < na) by (destruct HP' as (e & x & y & _ & _ & _ & _ & _ & _ & HP'); apply HP' in Pu; tauto).
      apply (places_inside Q u Hu). apply (Hm (at_places na f Q)); [eapply part_left; eauto| |apply E; exists u; auto].
      intros v (j & Hj & -> & Qj). apply E. exists j. auto.
    - right. split; auto. intros P' HP'. destruct (part_some Da na P' HP') as (x & y & Px & Hy & Ny). apply Ny. apply (places_inside P' y Hy).
      apply (Hm (at_places na f P')); [eapply part_left; eauto| |apply E; exists y; auto]. intros v (j & Hj & -> & _). apply E. exists j. auto.
    - exfalso. apply E in Pz. eapply places_disjoint; eauto.
    - exfalso. apply E in Pz. eapply places_disjoint; eauto.
  Qed.
  Lemma left_smallest P' : smallest (part Da na ms k) P' -> smallest (part D n ms k) (at_places na f P').
  Proof.
    intros [HP Hm]. split; [eapply part_left; eauto|]. intros Q HQ Hsub z (i & Hi & -> & Pi).
    destruct (part_some D n Q HQ) as (x & _ & Qx & _). pose proof (Hsub x Qx) as Hx.
    destruct (part_cases Q HQ) as [(Q' & HQ' & E)|[E|[(Q' & HQ' & E)|E]]].
    - apply E. exists i. split; auto. split; auto. apply (Hm Q'); auto. intros u Qu.
      assert (Hu : u < na) by (destruct HQ' as (e & x' & y & _ & _ & _ & _ & _ & _ & HQ'); apply HQ' in Qu; tauto).
      apply (places_inside P' u Hu). apply Hsub, E. exists u. auto.
    - apply E. exists i. auto.
    - exfalso. apply E in Qx. eapply places_disjoint; eauto.
    - exfalso. apply E in Qx. eapply places_disjoint; eauto.
  Qed.
  Lemma all_smallest : (forall P', ~ part Da na ms k P') -> smallest (part D n ms k) (at_places na f (fun _ => True)).
  Proof.
    intros N. split; [eapply left_part; eauto|]. intros Q HQ Hsub z Hz. destruct (part_some D n Q HQ) as (x & _ & Qx & _). pose proof (Hsub x Qx) as Hx.
    destruct (part_cases Q HQ) as [(Q' & HQ' & E)|[E|[(Q' & HQ' & E)|E]]]; [now apply N in HQ'|now apply E| |]; exfalso; apply E in Qx; eapply places_disjoint; eauto.
  Qed.

  (** The labels of runs whose clusters are the smallest parts. *)
  Variables (ls la : list Z).
  Hypothesis Hls : forall P, reported n ls P <-> smallest (part D n ms k) P.
  Hypothesis Hla : forall P, reported na la P <-> smallest (part Da na ms k) P.
  Hypothesis Hsome : (exists i, i < na /\ nth i la 0%Z <> (-1)%Z) <-> exists P, part Da na ms k P.
  Notation label x := (nth x ls 0%Z).

  Lemma own_cluster x : x < n -> label x <> (-1)%Z -> smallest (part D n ms k) (cluster_of n ls x).
  Proof. intros Hx Lx. apply Hls. exists x. split; auto. split; auto. reflexivity. Qed.
  Lemma cluster_place i : i < na -> label (f i) <> (-1)%Z ->
    (exists P', reported na la P' /\ forall z, cluster_of n ls (f i) z <-> at_places na f P' z) \/
    ((forall P', ~ part Da na ms k P') /\ forall z, cluster_of n ls (f i) z <-> at_places na f (fun _ => True) z).
  Proof.
    intros Hi Li. assert (Rg : forall i, i < na -> f i < n) by apply HF. destruct (smallest_left (cluster_of n ls (f i))) as [(P' & HP' & E)|H]; auto.
    - apply own_cluster; auto.
    - exists (f i). split; [split; auto|exists i; auto].
    - left. exists P'. split; auto. now apply Hla.
  Qed.
  Lemma kept_clusters : (exists i, i < na /\ nth i la 0%Z <> (-1)%Z) -> same_clusters_at na f la ls.
  Proof.
    intro Hs. pose proof (proj1 Hsome Hs) as [P0 HP0]. pose proof HF as ((Rg & Inj & _) & _).
    assert (Fwd : forall i, i < na -> label (f i) <> (-1)%Z -> nth i la 0%Z <> (-1)%Z).
    { intros i Hi Li. destruct (cluster_place i Hi Li) as [(P' & (x & Hx & Lx & HP') & E)|[N _]]; [|now apply N in HP0].
      assert (Pi : P' i) by (apply (places_inside P' i Hi), E; split; auto). apply HP' in Pi as [_ Pi]. congruence. }
    assert (Bwd : forall i, i < na -> nth i la 0%Z <> (-1)%Z -> label (f i) <> (-1)%Z /\ forall z, cluster_of n ls (f i) z <-> at_places na f (cluster_of na la i) z).
    { intros i Hi Li. assert (HS : smallest (part D n ms k) (at_places na f (cluster_of na la i))) by (apply left_smallest, Hla; exists i; split; auto; split; auto; reflexivity).
      apply Hls in HS as (x & Hx & Lx & HP). assert (Ki : cluster_of n ls x (f i)) by (apply HP; exists i; split; auto; split; auto; split; auto).
      destruct Ki as [_ Ki]. split; [congruence|]. intro z. rewrite HP. unfold cluster_of. now rewrite Ki. }
    intros i Hi. split.
    - destruct (Z.eq_dec (nth i la 0%Z) (-1)) as [E|N]; [|destruct (Bwd i Hi N) as [Q _]; split; intro; contradiction].
      split; [|auto]. intros _. destruct (Z.eq_dec (label (f i)) (-1)) as [|N]; auto. now apply Fwd in N.
    - intros j Hj Li. destruct (Bwd i Hi Li) as [Q E]. specialize (E (f j)). rewrite (places_inside _ j Hj) in E. unfold cluster_of in E. split; intro K.
      + apply E. auto.
      + apply E. auto.
  Qed.
  Lemma one_cluster : (forall i, i < na -> nth i la 0%Z = (-1)%Z) -> one_cluster_at na f ls.
  Proof.
    intro Hno. assert (NP : forall P', ~ part Da na ms k P').
    { intros P' HP'. destruct (proj2 Hsome) as (i & Hi & Li); [eauto|]. now apply Li, Hno. }
    pose proof (all_smallest NP) as HS. apply Hls in HS as (x & Hx & Lx & HP). intros i j Hi Hj.
    assert (K : forall u, u < na -> label (f u) = label x) by (intros u Hu; apply HP; exists u; auto). rewrite !K by auto. auto.
  Qed.
  Lemma never_shared : separate na f nb h ls.
  Proof.
    intros i j Hi Hj Li E. pose proof HF as ((Rg & _) & (Rgb & _) & _).
    assert (K : cluster_of n ls (f i) (h j)) by (split; auto). assert (Q : at_places nb h (fun _ => True) (h j)) by (exists j; auto).
    destruct (cluster_place i Hi Li) as [(P' & _ & E')|[_ E']]; apply E' in K; eapply places_disjoint; eauto.
  Qed.
End Both.
