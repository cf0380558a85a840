(** Parallel component queries find a lightest outgoing edge of each component. *)
From Coq Require Import List Arith Lia Bool.
From Verif Require Import Prelude Order Graph M_Linkage M_TreeQuery M_Boruvka S_SpaceTree S_Boruvka
  P_TreeQuery.
Import ListNotations.

Lemma in_combine_seq {A} (l : list A) : forall a i x m,
  In (i, x) (combine (seq a m) l) -> nth_error l (i - a) = Some x /\ a <= i < a + m.
Proof.
  induction l as [|y l IH]; intros a i x m H; [destruct m; destruct H|].
  destruct m as [|m]; [destruct H|]. cbn [seq combine] in H. destruct H as [E|H].
  - injection E as <- <-. rewrite Nat.sub_diag. split; [auto|lia].
  - apply IH in H. destruct H as [H1 H2]. split; [|lia].
    replace (i - a) with (S (i - S a)) by lia. exact H1.
Qed.

(** ** Threads *)
Section Threads.
  Context {W A : Type}.

  Lemma runs_bind {B} (p : prog W A) (f : A -> prog W B) : forall rs ws b,
    runs (bindp p f) rs ws b ->
    exists a rs1 ws1 rs2 ws2,
      runs p rs1 ws1 a /\ runs (f a) rs2 ws2 b /\ rs = rs1 ++ rs2 /\ ws = ws1 ++ ws2.
  Proof.
    induction p as [a|e|k IH|w p IH]; intros rs ws b H; cbn [bindp] in H.
    - exists a, [], [], rs, ws. split; [constructor|]. auto.
    - inversion H.
    - inversion H as [|? v rs' ? ? H'|]; subst. destruct (IH v _ _ _ H') as (a & r1 & w1 & r2 & w2 & A1 & A2 & -> & ->).
      exists a, (v :: r1), w1, r2, w2. split; [now constructor|]. auto.
    - inversion H as [| |? ? ? ws' ? H']; subst. destruct (IH _ _ _ H') as (a & r1 & w1 & r2 & w2 & A1 & A2 & -> & ->).
      exists a, r1, (w :: w1), r2, w2. split; [now constructor|]. auto.
  Qed.

  (** The thread cannot fail. *)
  Inductive safe : prog W A -> Prop :=
  | safe_ret a : safe (Ret a)
  | safe_read k : (forall v, safe (k v)) -> safe (Read k)
  | safe_write w p : safe p -> safe (Write w p).

  (** Part of a run: [p] has become [p'] after reading [rs] and writing [ws]. *)
  Inductive partial (p : prog W A) : list W -> list W -> prog W A -> Prop :=
  | partial_nil : partial p [] [] p
  | partial_read rs ws k v : partial p rs ws (Read k) -> partial p (rs ++ [v]) ws (k v)
  | partial_write rs ws w q : partial p rs ws (Write w q) -> partial p rs (ws ++ [w]) q.

  Lemma partial_runs p rs ws q : partial p rs ws q ->
    forall rs' ws' a, runs q rs' ws' a -> runs p (rs ++ rs') (ws ++ ws') a.
  Proof.
    induction 1 as [|rs ws k v H IH|rs ws w q H IH]; intros rs' ws' a R.
    - exact R.
    - rewrite <- app_assoc. apply IH. now constructor.
    - rewrite <- app_assoc. apply IH. now constructor.
  Qed.

  Lemma partial_safe p rs ws q : partial p rs ws q -> safe p -> safe q.
  Proof.
    induction 1 as [|rs ws k v H IH|rs ws w q H IH]; intros S.
    - exact S.
    - specialize (IH S). inversion IH; auto.
    - specialize (IH S). inversion IH; auto.
  Qed.
End Threads.

Lemma safe_bind {W A B} (p : prog W A) (f : A -> prog W B) :
  safe p -> (forall a, safe (f a)) -> safe (bindp p f).
Proof.
  induction p as [a|e|k IH|w p IH]; intros S Hf; cbn [bindp]; inversion S; subst.
  - auto.
  - constructor. intros v. auto.
  - constructor. auto.
Qed.

Section Parallel.
  Context {W A : Type}.
  Variable cell : nat -> nat.
  Variable ids : list nat.
  Variable mem0 : nat -> W.
  Variable threads0 : nat -> prog W A.

  Let origin (Ws : nat -> list W) (c : nat) (v : W) : Prop :=
    v = mem0 c \/ exists j, In j ids /\ cell j = c /\ In v (Ws j).

  Definition tracked (mem : nat -> W) (threads : nat -> prog W A) (Rs Ws : nat -> list W) : Prop :=
    (forall i, partial (threads0 i) (Rs i) (Ws i) (threads i)) /\
    (forall i v, In v (Rs i) -> origin Ws (cell i) v) /\
    (forall c, origin Ws c (mem c)).

  Definition reachable (s : (nat -> W) * (nat -> prog W A)) : Prop :=
    exists mem threads Rs Ws, tracked mem threads Rs Ws /\
      (forall c, fst s c = mem c) /\ (forall i, snd s i = threads i).

  Lemma reachable_ext s s' :
    (forall c, fst s c = fst s' c) -> (forall i, snd s i = snd s' i) -> reachable s -> reachable s'.
  Proof.
    intros E1 E2 (mem & th & Rs & Ws & T & M & H). exists mem, th, Rs, Ws. split; [auto|].
    split; intro x; [rewrite <- E1 | rewrite <- E2]; auto.
  Qed.

  Lemma origin_more Ws Ws' c v :
    (forall i x, In x (Ws i) -> In x (Ws' i)) -> origin Ws c v -> origin Ws' c v.
  Proof. intros H [E|(j & A1 & A2 & A3)]; [now left|right; eauto]. Qed.

  Lemma reachable_init : reachable (mem0, threads0).
  Proof.
    exists mem0, threads0, (fun _ => []), (fun _ => []). split; [|auto]. split; [|split].
    - intro. constructor.
    - intros i v [].
    - intro c. now left.
  Qed.

  Lemma reachable_read mem th i k :
    reachable (mem, th) -> th i = Read k -> reachable (mem, upd th i (k (mem (cell i)))).
  Proof.
    intros (m & t & Rs & Ws & (T1 & T2 & T3) & M & H) E. cbn [fst snd] in *.
    exists m, (upd t i (k (mem (cell i)))), (upd Rs i (Rs i ++ [mem (cell i)])), Ws.
    split; [split; [|split]|split].
    - intro j. destruct (Nat.eq_dec j i) as [->|N].
      + rewrite !upd_eq. constructor. rewrite <- E, H. apply T1.
      + rewrite !upd_neq by auto. apply T1.
    - intros j v Hv. destruct (Nat.eq_dec j i) as [->|N].
      + rewrite upd_eq in Hv. apply in_app_or in Hv. destruct Hv as [Hv|[<-|[]]]; [auto|].
        rewrite M. apply T3.
      + rewrite upd_neq in Hv by auto. auto.
    - exact T3.
    - exact M.
    - intro j. cbn [snd]. destruct (Nat.eq_dec j i) as [->|N]; [now rewrite !upd_eq|].
      rewrite !upd_neq by auto. apply H.
  Qed.

  Lemma reachable_write mem th i w p :
    In i ids -> reachable (mem, th) -> th i = Write w p ->
    reachable (upd mem (cell i) w, upd th i p).
  Proof.
    intros Hi (m & t & Rs & Ws & (T1 & T2 & T3) & M & H) E. cbn [fst snd] in *.
    assert (More : forall j x, In x (Ws j) -> In x (upd Ws i (Ws i ++ [w]) j)).
    { intros j x Hx. destruct (Nat.eq_dec j i) as [->|N].
      - rewrite upd_eq. apply in_or_app. now left.
      - now rewrite upd_neq. }
    exists (upd m (cell i) w), (upd t i p), Rs, (upd Ws i (Ws i ++ [w])).
    split; [split; [|split]|split].
    - intro j. destruct (Nat.eq_dec j i) as [->|N].
      + rewrite !upd_eq. constructor. rewrite <- E, H. apply T1.
      + rewrite !upd_neq by auto. apply T1.
    - intros j v Hv. eapply origin_more; [exact More|]. auto.
    - intro c. destruct (Nat.eq_dec c (cell i)) as [->|N].
      + rewrite upd_eq. right. exists i. split; [auto|]. split; [auto|]. rewrite upd_eq.
        apply in_or_app. right. now left.
      + rewrite upd_neq by auto. eapply origin_more; [exact More|]. apply T3.
    - intro c. cbn [fst]. destruct (Nat.eq_dec c (cell i)) as [->|N]; [now rewrite !upd_eq|].
      rewrite !upd_neq by auto. apply M.
    - intro j. cbn [snd]. destruct (Nat.eq_dec j i) as [->|N]; [now rewrite !upd_eq|].
      rewrite !upd_neq by auto. apply H.
  Qed.

  Lemma reachable_step s i : In i ids -> reachable s -> reachable (step cell s i).
  Proof.
    destruct s as [mem th]. intros Hi R. unfold step. destruct (th i) eqn:E; auto.
    - now apply reachable_read.
    - now apply reachable_write.
  Qed.

  Lemma reachable_steps l : (forall i, In i l -> In i ids) -> forall s,
    reachable s -> reachable (fold_left (step cell) l s).
  Proof.
    induction l as [|i l IH]; intros Hl s R; cbn [fold_left]; [auto|].
    apply IH; [intros j Hj; apply Hl; now right|]. apply reachable_step; [apply Hl; now left|auto].
  Qed.

  Lemma reachable_alone i : In i ids -> forall p mem th,
    th i = p -> reachable (mem, th) ->
    reachable (upd mem (cell i) (snd (run_alone p (mem (cell i)))),
               upd th i (fst (run_alone p (mem (cell i))))).
  Proof.
    intros Hi. induction p as [a|e|k IH|w p IH]; intros mem th E R; cbn [run_alone].
    - eapply reachable_ext; [| |exact R]; intro x; cbn [fst snd].
      + destruct (upd_case mem (cell i) x (mem (cell i))) as [[-> ->]|[_ ->]]; auto.
      + destruct (upd_case th i x (@Ret W A a)) as [[-> ->]|[_ ->]]; auto.
    - eapply reachable_ext; [| |exact R]; intro x; cbn [fst snd].
      + destruct (upd_case mem (cell i) x (mem (cell i))) as [[-> ->]|[_ ->]]; auto.
      + destruct (upd_case th i x (@Fail W A e)) as [[-> ->]|[_ ->]]; auto.
    - assert (R' := reachable_read _ _ _ _ R E).
      specialize (IH (mem (cell i)) mem (upd th i (k (mem (cell i)))) (upd_eq _ _ _) R').
      eapply reachable_ext; [| |exact IH]; intro x; cbn [fst snd]; [reflexivity|].
      unfold upd. now destruct (x =? i).
    - assert (R' := reachable_write _ _ _ _ _ Hi R E).
      specialize (IH (upd mem (cell i) w) (upd th i p) (upd_eq _ _ _) R').
      rewrite upd_eq in IH.
      eapply reachable_ext; [| |exact IH]; intro x; cbn [fst snd]; unfold upd.
      + now destruct (x =? cell i).
      + now destruct (x =? i).
  Qed.

  Lemma reachable_finish s i : In i ids -> reachable s -> reachable (finish cell s i).
  Proof.
    destruct s as [mem th]. intros Hi R. unfold finish.
    assert (R' := reachable_alone i Hi (th i) mem th eq_refl R).
    destruct (run_alone (th i) (mem (cell i))) as [p v]. exact R'.
  Qed.

  Lemma reachable_finishes l : (forall i, In i l -> In i ids) -> forall s,
    reachable s -> reachable (fold_left (finish cell) l s).
  Proof.
    induction l as [|i l IH]; intros Hl s R; cbn [fold_left]; [auto|].
    apply IH; [intros j Hj; apply Hl; now right|]. apply reachable_finish; [apply Hl; now left|auto].
  Qed.

  Definition stopped (p : prog W A) : Prop :=
    match p with Ret _ | Fail _ => True | _ => False end.

  Lemma run_alone_stops p : forall v, stopped (fst (run_alone p v)).
  Proof. induction p; intro v; cbn [run_alone]; cbn; auto. Qed.

  Lemma stopped_alone p v : stopped p -> run_alone p v = (p, v).
  Proof. destruct p; cbn; tauto. Qed.

  Lemma finish_stops l : forall s i,
    In i l \/ stopped (snd s i) -> stopped (snd (fold_left (finish cell) l s) i).
  Proof.
    induction l as [|j l IH]; intros s i H; cbn [fold_left].
    - destruct H as [[]|H]; auto.
    - apply IH. destruct (Nat.eq_dec i j) as [->|N].
      + right. destruct s as [mem th]. unfold finish.
        assert (S := run_alone_stops (th j) (mem (cell j))).
        destruct (run_alone (th j) (mem (cell j))) as [p v]. cbn [snd fst] in *. now rewrite upd_eq.
      + destruct H as [[->|H]|H]; [congruence|now left|right].
        destruct s as [mem th]. unfold finish.
        destruct (run_alone (th j) (mem (cell j))) as [p v]. cbn [snd] in *.
        now rewrite upd_neq by auto.
  Qed.

  (** Every schedule gives a relaxed execution. *)
  Lemma parallel_relaxed schedule (dflt : A) :
    (forall i, In i ids -> safe (threads0 i)) ->
    exists mem results Rs Ws f,
      parallel cell schedule ids mem0 threads0 = Ok (mem, results) /\
      results = map f ids /\
      relaxed cell ids mem0 threads0 Rs Ws f /\
      (forall c, mem c = mem0 c \/ exists j, In j ids /\ cell j = c /\ In (mem c) (Ws j)).
  Proof.
    intros Sf. unfold parallel.
    set (al := filter _ schedule).
    assert (Al : forall i, In i al -> In i ids).
    { intros i Hi. apply filter_In in Hi. destruct Hi as [_ Hi]. apply existsb_exists in Hi.
      destruct Hi as (j & Hj & E). apply Nat.eqb_eq in E. now subst. }
    assert (R := reachable_steps al Al _ reachable_init).
    assert (R2 := reachable_finishes ids (fun i H => H) _ R).
    assert (St := fun i Hi => finish_stops ids (fold_left (step cell) al (mem0, threads0)) i (or_introl Hi)).
    destruct (fold_left (finish cell) ids (fold_left (step cell) al (mem0, threads0))) as [mem th].
    destruct R2 as (m & t & Rs & Ws & (T1 & T2 & T3) & M & H). cbn [fst snd] in *.
    assert (Fin : forall i, In i ids -> exists a, th i = Ret a).
    { intros i Hi. specialize (St i Hi). assert (S := partial_safe _ _ _ _ (T1 i) (Sf i Hi)).
      rewrite <- H in S. destruct (th i) as [a|e| |]; cbn in St; try tauto; [eauto|]. inversion S. }
    set (f := fun i => match th i with Ret a => a | _ => dflt end).
    assert (Ef : forall i, In i ids -> th i = Ret (f i)).
    { intros i Hi. destruct (Fin i Hi) as [a E]. unfold f. now rewrite E. }
    exists mem, (map f ids), Rs, Ws, f. split; [|split; [auto|split]].
    - assert (E : map_res (fun i => outcome (th i)) ids = Ok (map f ids)).
      { clear -Ef. induction ids as [|i l IH]; cbn [map_res map]; [auto|].
        rewrite (Ef i) by now left. cbn [outcome bind].
        rewrite IH by (intros j Hj; apply Ef; now right). reflexivity. }
      rewrite E. reflexivity.
    - intros i Hi. split.
      + assert (P := T1 i). rewrite <- H, Ef in P by auto.
        assert (Q := partial_runs _ _ _ _ P [] [] (f i) (runs_ret _)).
        now rewrite !app_nil_r in Q.
      + intros v Hv. exact (T2 i v Hv).
    - intros c. rewrite M. exact (T3 c).
  Qed.
End Parallel.

(** ** One query *)
Section OneQuery.
  Context {W : WOrd}.
  Variables (t : space_tree) (n : nat) (rd lb : nat -> nat -> W).
  Variables (core : nat -> W) (comp : nat -> nat) (node_comp : nat -> option nat).
  Hypothesis TS : tree_shape t n.
  Hypothesis LB : lower_bounds t rd lb.
  (** A node that is marked with a component holds samples of that component only. *)
  Hypothesis NC : forall node c q, node < t_nodes t -> node_comp node = Some c -> below t node q -> comp q = c.

  Notation mrd := (mutual core rd).

  (** What a (part of a) query of sample [p] over the samples in [B] achieves. *)
  Definition achieves (p : nat) (B : nat -> Prop) (h : cand) (rs ws : list W) (h' : cand) : Prop :=
    wle (fst h') (fst h) = true /\
    (h' = h \/ exists q, B q /\ comp q <> comp p /\ h' = (mrd p q, Some q)) /\
    (forall w, In w ws -> wle (fst h') w = true) /\
    (forall q, B q -> comp q <> comp p ->
       wle (fst h') (mrd p q) = true \/ exists v, In v rs /\ wle v (mrd p q) = true).

  Lemma mrd_rd p q : wle (rd p q) (mrd p q) = true.
  Proof. unfold mutual. eapply wle_trans; [apply wmax_l|]. apply wmax_l. Qed.
  Lemma mrd_core_l p q : wle (core p) (mrd p q) = true.
  Proof. unfold mutual. eapply wle_trans; [apply wmax_r|]. apply wmax_l. Qed.
  Lemma mrd_core_r p q : wle (core q) (mrd p q) = true.
  Proof. unfold mutual. apply wmax_r. Qed.

  Lemma achieves_none p (B : nat -> Prop) h : (forall q, B q -> comp q = comp p) -> achieves p B h [] [] h.
  Proof.
    intros H. split; [apply wle_refl|]. split; [now left|]. split; [intros w []|].
    intros q Hq N. exfalso. auto.
  Qed.

  Lemma achieves_seq p B1 B2 h rs1 ws1 h1 rs2 ws2 h2 (B : nat -> Prop) :
    achieves p B1 h rs1 ws1 h1 -> achieves p B2 h1 rs2 ws2 h2 ->
    (forall q, B q <-> B1 q \/ B2 q) ->
    achieves p B h (rs1 ++ rs2) (ws1 ++ ws2) h2.
  Proof.
    intros (A1 & A2 & A3 & A4) (C1 & C2 & C3 & C4) HB. split; [|split; [|split]].
    - eapply wle_trans; eauto.
    - destruct C2 as [->|(q & Q1 & Q2 & ->)].
      + destruct A2 as [->|(q & Q1 & Q2 & ->)]; [now left|right]. exists q. split; [apply HB; auto|auto].
      + right. exists q. split; [apply HB; auto|auto].
    - intros w Hw. apply in_app_or in Hw. destruct Hw as [Hw|Hw]; [|auto].
      eapply wle_trans; [exact C1|auto].
    - intros q Hq N. apply HB in Hq. destruct Hq as [Hq|Hq].
      + destruct (A4 q Hq N) as [D|(v & V1 & V2)]; [left; eapply wle_trans; eauto|right].
        exists v. split; [apply in_or_app; auto|auto].
      + destruct (C4 q Hq N) as [D|(v & V1 & V2)]; [auto|right].
        exists v. split; [apply in_or_app; auto|auto].
  Qed.

  Lemma achieves_reads p B h rs ws h' rs' :
    achieves p B h rs ws h' -> (forall v, In v rs -> In v rs') -> achieves p B h rs' ws h'.
  Proof.
    intros (A1 & A2 & A3 & A4) H. repeat (split; [assumption|]). intros q Hq N.
    destruct (A4 q Hq N) as [D|(v & V1 & V2)]; eauto.
  Qed.

  (** The whole set of samples [B] is beyond a value that was read, or the
      current candidate. *)
  Lemma achieves_pruned p (B : nat -> Prop) h rs :
    (forall q, B q -> comp q <> comp p -> wle (fst h) (mrd p q) = true \/ exists v, In v rs /\ wle v (mrd p q) = true) ->
    achieves p B h rs [] h.
  Proof.
    intros H. split; [apply wle_refl|]. split; [now left|]. split; [intros w []|]. exact H.
  Qed.

  Lemma leaf_scan_runs p : forall samples h rs ws h',
    runs (leaf_scan rd core comp p samples h) rs ws h' ->
    achieves p (fun q => In q samples) h rs ws h'.
  Proof.
    induction samples as [|x samples IH]; intros h rs ws h' R; cbn [leaf_scan] in R.
    - inversion R; subst. apply achieves_none. intros q [].
    - destruct (Nat.eqb_spec (comp x) (comp p)) as [E|E].
      { apply (achieves_seq p (fun q => q = x) (fun q => In q samples) h [] [] h rs ws h').
        - apply achieves_none. now intros q ->.
        - auto.
        - intro q. cbn. intuition congruence. }
      inversion R as [|? b1 rs1 ? ? R1|]; subst. clear R.
      destruct (wlt (core x) b1) eqn:E1.
      + set (d := wmax (wmax (rd p x) (core p)) (core x)) in R1.
        destruct (wlt d (fst h)) eqn:E2.
        * inversion R1 as [|? b2 rs2 ? ? R2|]; subst. clear R1.
          assert (Step : forall ws0, (forall w, In w ws0 -> w = d) ->
            achieves p (fun q => q = x) h [b1; b2] ws0 (d, Some x)).
          { intros ws0 Hw. split; [now apply wlt_le|]. split; [right; exists x; auto|]. split.
            - intros w Hx. rewrite (Hw w Hx). apply wle_refl.
            - intros q -> _. left. apply wle_refl. }
          assert (Cons : forall q, In q (x :: samples) <-> q = x \/ In q samples)
            by (intro q; cbn; intuition congruence).
          destruct (wlt d b2) eqn:E3.
          -- inversion R2 as [| |? ? ? ws2 ? R3]; subst. clear R2.
             apply (achieves_seq p (fun q => q = x) (fun q => In q samples) h [b1; b2] [d] (d, Some x) rs2 ws2 h').
             ++ apply Step. intros w [<-|[]]; auto.
             ++ auto.
             ++ exact Cons.
          -- apply (achieves_seq p (fun q => q = x) (fun q => In q samples) h [b1; b2] [] (d, Some x) rs2 ws h').
             ++ apply Step. intros w [].
             ++ auto.
             ++ exact Cons.
        * apply (achieves_seq p (fun q => q = x) (fun q => In q samples) h [b1] [] h rs1 ws h').
          -- apply achieves_pruned. intros q -> _. left. apply wlt_false in E2. exact E2.
          -- auto.
          -- intro q. cbn. intuition congruence.
      + apply (achieves_seq p (fun q => q = x) (fun q => In q samples) h [b1] [] h rs1 ws h').
        * apply achieves_pruned. intros q -> _. right. exists b1. split; [now left|].
          apply wlt_false in E1. eapply wle_trans; [exact E1|]. apply mrd_core_r.
        * auto.
        * intro q. cbn. intuition congruence.
  Qed.

  Lemma leaf_scan_safe p : forall samples h, safe (leaf_scan rd core comp p samples h).
  Proof.
    induction samples as [|x samples IH]; intros h; cbn [leaf_scan]; [constructor|].
    destruct (comp x =? comp p); [auto|]. constructor. intro b1.
    destruct (wlt (core x) b1); [|auto]. cbv zeta. destruct (wlt _ (fst h)); [|auto].
    constructor. intro b2. destruct (wlt _ b2); [constructor|]; auto.
  Qed.

  Lemma component_query_runs fuel : forall p node h rs ws h',
    node < t_nodes t ->
    runs (component_query t rd lb core comp node_comp fuel p node (lb p node) h) rs ws h' ->
    achieves p (below t node) h rs ws h'.
  Proof.
    induction fuel as [|fuel IH]; intros p node h rs ws h' Hn R; cbn [component_query] in R.
    all: destruct (wlt (fst h) (lb p node)) eqn:E1;
      [inversion R; subst; apply achieves_pruned; intros q Hq _; left;
       eapply wle_trans; [apply wlt_le; exact E1|]; eapply wle_trans; [apply LB; eauto|]; apply mrd_rd|].
    all: inversion R as [|? b1 rs1 ? ? R1|]; subst; clear R.
    all: destruct (wlt b1 (lb p node)) eqn:E2;
      [inversion R1; subst; apply achieves_pruned; intros q Hq _; right; exists b1; split; [now left|];
       eapply wle_trans; [apply wlt_le; exact E2|]; eapply wle_trans; [apply LB; eauto|]; apply mrd_rd|].
    all: inversion R1 as [|? b2 rs2 ? ? R2|]; subst; clear R1.
    all: destruct (wlt b2 (core p)) eqn:E3;
      [inversion R2; subst; apply achieves_pruned; intros q Hq _; right; exists b2; split; [right; now left|];
       eapply wle_trans; [apply wlt_le; exact E3|]; apply mrd_core_l|].
    all: destruct (match node_comp node with Some c => c =? comp p | None => false end) eqn:E4;
      [inversion R2; subst; destruct (node_comp node) as [c|] eqn:EC; [|discriminate];
       apply Nat.eqb_eq in E4; apply achieves_pruned; intros q Hq N; exfalso; apply N;
       rewrite <- E4; eapply NC; eauto|].
    all: destruct (t_leaf t node) eqn:L;
      [apply leaf_scan_runs in R2;
       apply (achieves_seq p (fun _ => False) (fun q => In q (node_samples t node)) h [b1; b2] [] h rs2 ws h');
       [apply achieves_pruned; intros q []|exact R2|intro q; rewrite below_samples; tauto]|].
    - inversion R2.
    - destruct (ts_split _ _ TS node Hn L) as (S1 & _).
      assert (Ch := fun q => below_children t n TS node q Hn L).
      replace (node + (node + 0) + 1 + 1) with (2 * node + 2) in R2 by lia.
      replace (node + (node + 0) + 1) with (2 * node + 1) in R2 by lia.
      apply (achieves_seq p (fun _ => False) (below t node) h [b1; b2] [] h rs2 ws h');
        [apply achieves_pruned; intros q []| |tauto].
      assert (Two : forall a b, (a = 2 * node + 1 /\ b = 2 * node + 2) \/ (a = 2 * node + 2 /\ b = 2 * node + 1) ->
        runs (bindp (component_query t rd lb core comp node_comp fuel p a (lb p a) h) (fun h =>
              component_query t rd lb core comp node_comp fuel p b (lb p b) h)) rs2 ws h' ->
        achieves p (below t node) h rs2 ws h').
      { intros a b Hab R. apply runs_bind in R. destruct R as (h1 & r1 & w1 & r2 & w2 & A1 & A2 & -> & ->).
        apply (achieves_seq p (below t a) (below t b) h r1 w1 h1 r2 w2 h').
        - apply IH; [lia|auto].
        - apply IH; [lia|auto].
        - intro q. rewrite Ch. destruct Hab as [[-> ->]|[-> ->]]; tauto. }
      destruct (wle (lb p (2 * node + 1)) (lb p (2 * node + 2))); (eapply Two; [|exact R2]); auto.
  Qed.

  Lemma component_query_safe fuel : forall p node h,
    node < t_nodes t -> t_nodes t <= fuel + node ->
    safe (component_query t rd lb core comp node_comp fuel p node (lb p node) h).
  Proof.
    induction fuel as [|fuel IH]; intros p node h Hn Hf; [lia|]. cbn [component_query].
    destruct (wlt (fst h) (lb p node)); [constructor|]. constructor. intro b1.
    destruct (wlt b1 (lb p node)); [constructor|]. constructor. intro b2.
    destruct (wlt b2 (core p)); [constructor|].
    destruct (match node_comp node with Some c => c =? comp p | None => false end); [constructor|].
    destruct (t_leaf t node) eqn:L; [apply leaf_scan_safe|].
    destruct (ts_split _ _ TS node Hn L) as (S1 & _).
    destruct (wle _ _); apply safe_bind; try (intro); apply IH; lia.
  Qed.

  Lemma query_thread_safe p : safe (query_thread t rd lb core comp node_comp p).
  Proof. apply component_query_safe; [apply (ts_nodes _ _ TS)|lia]. Qed.

  Lemma query_thread_runs p rs ws h :
    runs (query_thread t rd lb core comp node_comp p) rs ws h ->
    achieves p (fun q => q < n) (winf, None) rs ws h.
  Proof.
    intros R. apply component_query_runs in R; [|apply (ts_nodes _ _ TS)].
    assert (Z := ts_nodes _ _ TS).
    apply (achieves_seq p (fun _ => False) (below t 0) (winf, None) [] [] (winf, None) rs ws h); auto.
    - apply achieves_none. intros q [].
    - intro q. split; [intro; right; now apply (below_root t n TS)|]. intros [[]|H].
      eapply below_range; eauto.
  Qed.

  (** ** Rounds *)

  (** The shared bounds [mem] come from candidates of samples in [D]. *)
  Definition backed (D : list (nat * @cand W)) (mem : nat -> W) : Prop :=
    forall c, mem c = winf \/ exists j h, In (j, h) D /\ comp j = c /\ wle (fst h) (mem c) = true.

  Lemma backed_more D D' mem : (forall x, In x D -> In x D') -> backed D mem -> backed D' mem.
  Proof. intros H B c. destruct (B c) as [E|(j & h & A1 & A2)]; [auto|right; eauto 6]. Qed.

  (** Sample [i] with candidate [h] is served by the candidates in [D]. *)
  Definition served (D : list (nat * @cand W)) (i : nat) (h : cand) : Prop :=
    real_candidate n core rd comp i h /\
    forall q, q < n -> comp q <> comp i -> wfinite (mrd i q) = true ->
      exists j h', In (j, h') D /\ comp j = comp i /\ wle (fst h') (mrd i q) = true.

  Lemma served_more D D' i h : (forall x, In x D -> In x D') -> served D i h -> served D' i h.
  Proof. intros H [A B]. split; [auto|]. intros q Q1 Q2 Q3. destruct (B q Q1 Q2 Q3) as (j & h' & I & J). eauto 6. Qed.

  (** Every relaxed execution of a block of queries works. *)
  Lemma relaxed_block {B} (threads : nat -> prog W B) (proj : B -> cand) ids mem Rs Ws f D :
    (forall i rs ws b, runs (threads i) rs ws b -> achieves i (fun q => q < n) (winf, None) rs ws (proj b)) ->
    relaxed comp ids mem threads Rs Ws f -> backed D mem ->
    let new := map (fun i => (i, proj (f i))) ids in
    (forall i v, In i ids -> In v (Rs i) ->
       v = winf \/ exists j h, In (j, h) (D ++ new) /\ comp j = comp i /\ wle (fst h) v = true) /\
    (forall i v, In i ids -> In v (Ws i) ->
       exists j h, In (j, h) (D ++ new) /\ comp j = comp i /\ wle (fst h) v = true) /\
    (forall i, In i ids -> served (D ++ new) i (proj (f i))).
  Proof.
    intros Q R HB new.
    assert (InNew : forall j, In j ids -> In (j, proj (f j)) (D ++ new)).
    { intros j Hj. apply in_or_app. right. unfold new. apply in_map_iff. eauto. }
    assert (Hw : forall i v, In i ids -> In v (Ws i) ->
       exists j h, In (j, h) (D ++ new) /\ comp j = comp i /\ wle (fst h) v = true).
    { intros i v Hi Hv. destruct (R i Hi) as [R1 _]. apply Q in R1. destruct R1 as (_ & _ & A3 & _).
      exists i, (proj (f i)). auto. }
    assert (Hr : forall i v, In i ids -> In v (Rs i) ->
       v = winf \/ exists j h, In (j, h) (D ++ new) /\ comp j = comp i /\ wle (fst h) v = true).
    { intros i v Hi Hv. destruct (R i Hi) as [_ R2]. destruct (R2 v Hv) as [->|(j & J1 & J2 & J3)].
      - destruct (HB (comp i)) as [E|(j & h & A1 & A2 & A3)]; [now left|right].
        exists j, h. split; [apply in_or_app; auto|auto].
      - right. destruct (Hw j v J1 J3) as (j' & h & A1 & A2 & A3). exists j', h.
        split; [auto|]. split; [congruence|auto]. }
    split; [exact Hr|]. split; [exact Hw|].
    intros i Hi. destruct (R i Hi) as [R1 _]. apply Q in R1. destruct R1 as (_ & A2 & _ & A4).
    split.
    - destruct A2 as [->|(q & Q1 & Q2 & ->)]; [now left|right; eauto].
    - intros q Q1 Q2 Q3. destruct (A4 q Q1 Q2) as [A|(v & V1 & V2)].
      + exists i, (proj (f i)). auto.
      + destruct (Hr i v Hi V1) as [->|(j & h & B1 & B2 & B3)].
        * unfold wfinite in Q3. apply wlt_nle in Q3. congruence.
        * exists j, h. split; [auto|]. split; [auto|]. eapply wle_trans; eauto.
  Qed.

  Lemma lightest_of_served cands :
    length cands = n ->
    (forall i h, nth_error cands i = Some h -> served (combine (seq 0 n) cands) i h) ->
    lightest_found n core rd comp cands.
  Proof.
    intros L H. split; [auto|]. split.
    - intros i h E. now apply H.
    - intros i q Hi Hq N F. destruct (nth_error cands i) as [h|] eqn:E.
      2:{ apply nth_error_None in E. lia. }
      destruct (H i h E) as [_ S]. destruct (S q Hq N F) as (j & h' & J1 & J2 & J3).
      exists j, h'. split; [|auto].
      apply in_combine_seq in J1. now rewrite Nat.sub_0_r in J1.
  Qed.
End OneQuery.
