(** Proofs about the Kruskal kernel. *)
From Coq Require Import List Arith Lia Bool Permutation Sorted ZArith NArith.
From Verif Require Import Prelude Order Graph UF S_Kruskal M_Kruskal.
Import ListNotations.

Section Find.
  Lemma RootN_upd_below p c r k y j :
    RootN p c r k -> RootN p y r j -> j < k -> RootN (upd p c r) y r j.
  Proof.
    intros Hc Hy. induction Hy as [y Hy|y r j Hy HN IH]; intros Hlt.
    - apply RootN_here. destruct (upd_case p c y y) as [[-> ->]|[_ ->]]; auto.
    - assert (y <> c).
      { intros ->. assert (S j = k); [|lia].
        apply (RootN_det p c r r); auto. now apply RootN_up. }
      apply RootN_up; rewrite upd_neq by auto; auto. apply IH; auto. lia.
  Qed.

  Lemma compress_ok n k : forall p x r fuel,
    uf_wf n p -> x < n -> RootN p x r k -> k <= fuel ->
    exists q, compress fuel p x r = Ok q /\ uf_wf n q /\
      (forall y s, y < n -> (Root q y s <-> Root p y s)) /\ nroots n q = nroots n p.
  Proof.
    induction k as [|k IH]; intros p x r fuel Hwf Hx HN Hf.
    - inversion HN; subst. exists p.
      destruct fuel; simpl; rewrite Nat.eqb_refl; repeat split; auto; apply Hwf.
    - assert (HR : Root p x r) by (eapply RootN_Root; eauto).
      inversion HN as [|? ? ? Hne HN']; subst.
      assert (Hxr : x <> r). { intros ->. apply Hne. eapply Root_root; eauto. }
      destruct fuel as [|fuel]; [lia|]. simpl.
      rewrite (proj2 (Nat.eqb_neq x r) Hxr).
      assert (Hwf' : uf_wf n (upd p x r)) by (apply compress_wf; auto).
      destruct (IH (upd p x r) (p x) r fuel) as (q & Hq & Hw & Hi & Hc); auto.
      + apply Hwf; auto.
      + eapply RootN_upd_below; eauto.
      + lia.
      + exists q. split; [auto|split; [auto|split]].
        * intros y s Hy. rewrite Hi by auto.
          apply (Root_pres_iff n); auto. intros y' s' _ Hs. now apply Root_compress.
        * rewrite Hc. now apply nroots_compress.
  Qed.

  Lemma find_compress_ok n p x :
    uf_wf n p -> x < n ->
    exists q r, find_compress n p x = Ok (q, r) /\ Root p x r /\ r < n /\ uf_wf n q /\
      (forall y s, y < n -> (Root q y s <-> Root p y s)) /\ nroots n q = nroots n p.
  Proof.
    intros Hwf Hx. destruct (walk_ok n p x n Hwf Hx (le_n _)) as (r & Hw & HR & Hr).
    destruct (Root_RootN _ _ _ HR) as [k Hk].
    assert (k < n) by (apply (RootN_lt n p x r k); auto; apply Hwf).
    destruct (compress_ok n k p x r n) as (q & Hq & H1 & H2 & H3); auto; [lia|].
    exists q, r. unfold find_compress. rewrite Hw. simpl. rewrite Hq. simpl.
    repeat split; auto; try apply H1; apply H2; auto.
  Qed.
End Find.

Section Greedy.
  Context {W : Type}.
  Implicit Types M es : list (edge W).

  Lemma greedy_drop_all CL M es :
    (forall e, In e es -> connected M (esrc e) (edst e)) -> greedy CL M es M.
  Proof.
    induction es as [|e es IH]; intro H; [constructor|].
    apply greedy_drop; [left; apply H; simpl; auto|]. apply IH. intros; apply H; simpl; auto.
  Qed.

  Lemma greedy_app CL M es1 es2 M1 M2 :
    greedy CL M es1 M1 -> greedy CL M1 es2 M2 -> greedy CL M (es1 ++ es2) M2.
  Proof. induction 1; intro; simpl; auto using greedy_keep, greedy_drop. Qed.

  Lemma forbidden_ext (CL CL' : cannot_link) M u v :
    (forall x y, CL x y -> CL' x y) -> forbidden CL M u v -> forbidden CL' M u v.
  Proof. intros H (x & y & K & H1 & H2). exists x, y. auto. Qed.

  Lemma greedy_det (CL CL' : cannot_link) M es M1 M2 :
    (forall x y, CL x y <-> CL' x y) -> greedy CL M es M1 -> greedy CL' M es M2 -> M1 = M2.
  Proof.
    intros He H. revert M2.
    assert (Hf : forall M u v, forbidden CL M u v <-> forbidden CL' M u v)
      by (intros; split; apply forbidden_ext; apply He).
    induction H; intros M2 K; inversion K; subst; auto.
    - rewrite <- Hf in *. tauto.
    - rewrite <- Hf in *. tauto.
  Qed.

  Lemma greedy_incl CL M es M' : greedy CL M es M' -> incl M' (M ++ es).
  Proof.
    induction 1; intros x Hx.
    - now rewrite app_nil_r.
    - apply IHgreedy in Hx. rewrite <- app_assoc in Hx. apply Hx.
    - apply IHgreedy in Hx. apply in_app_iff in Hx. apply in_app_iff. simpl. tauto.
  Qed.

  Lemma greedy_ext CL M es M' : greedy CL M es M' -> exists k, M' = M ++ k.
  Proof.
    induction 1.
    - exists []. now rewrite app_nil_r.
    - destruct IHgreedy as [k ->]. exists (e :: k). now rewrite <- app_assoc.
    - auto.
  Qed.

  Lemma greedy_acyclic CL M es M' : greedy CL M es M' -> acyclic M -> acyclic M'.
  Proof. induction 1; auto. intro. apply IHgreedy. now apply acyclic_snoc. Qed.

  Lemma respects_snoc (CL : cannot_link) M e :
    (forall x y, CL x y -> CL y x) ->
    respects CL M -> ~ forbidden CL M (esrc e) (edst e) -> respects CL (M ++ [e]).
  Proof.
    intros Hs Hr Hf x y Hxy Hc. apply connected_snoc in Hc as [Hc|[[H1 H2]|[H1 H2]]].
    - now apply (Hr x y).
    - apply Hf. exists x, y. auto using connected_sym.
    - apply Hf. exists y, x. auto using connected_sym.
  Qed.

  Lemma greedy_respects (CL : cannot_link) M es M' :
    (forall x y, CL x y -> CL y x) -> greedy CL M es M' -> respects CL M -> respects CL M'.
  Proof. intros Hs. induction 1; auto. intro. apply IHgreedy. now apply respects_snoc. Qed.
End Greedy.

Section GreedyW.
  Context {W : WOrd}.
  Implicit Types M es : list (edge W).

  Lemma greedy_maximal CL M es M' :
    greedy CL M es M' -> sorted_by ewt es ->
    (forall f e, In f M -> In e es -> wle (ewt f) (ewt e) = true) ->
    forall e, In e es ->
      connected (passing (fun w => wle w (ewt e)) M') (esrc e) (edst e) \/
      forbidden CL (passing (fun w => wle w (ewt e)) M') (esrc e) (edst e).
  Proof.
    induction 1 as [M|M e es M' Hn Hf HG IH|M e es M' Hd HG IH]; intros Hs Hle f Hin.
    - destruct Hin.
    - inversion_clear Hs as [|? ? Hs' Hall]. rewrite Forall_forall in Hall.
      destruct Hin as [<-|Hin].
      + left. apply connected_edge. apply in_passing. split; [|apply wle_refl].
        destruct (greedy_ext _ _ _ _ HG) as [k ->]. apply in_app_iff. left. apply in_app_iff.
        simpl; auto.
      + apply IH; auto. intros g h Hg Hh. apply in_app_iff in Hg as [Hg|[<-|[]]]; auto.
        apply Hle; simpl; auto.
    - inversion_clear Hs as [|? ? Hs' Hall]. rewrite Forall_forall in Hall.
      destruct Hin as [<-|Hin].
      + destruct (greedy_ext _ _ _ _ HG) as [k ->].
        assert (I : incl M (passing (fun w => wle w (ewt e)) (M ++ k))).
        { intros g Hg. apply in_passing. split; [apply in_app_iff; auto|].
          apply Hle; simpl; auto. }
        destruct Hd as [Hd|(x & y & Hxy & H1 & H2)]; [left|right].
        * eapply connected_incl; eauto.
        * exists x, y. split; auto. split; eapply connected_incl; eauto.
      + apply IH; auto. intros g h Hg Hh. apply Hle; simpl; auto.
  Qed.

  Lemma greedy_constrained (CL : cannot_link) es M :
    (forall x y, CL x y -> CL y x) -> (forall x, ~ CL x x) ->
    sorted_by ewt es -> greedy CL [] es M -> constrained_forest CL es M.
  Proof.
    intros Hsym Hirr Hs HG. split.
    - apply (greedy_incl _ _ _ _ HG).
    - eapply greedy_acyclic; eauto using acyclic_nil.
    - eapply greedy_respects; eauto. intros x y Hxy Hc. apply connected_nil in Hc as ->.
      eapply Hirr; eauto.
    - intros e He. apply (greedy_maximal _ _ _ _ HG); auto; simpl; tauto.
  Qed.
End GreedyW.

(** ** The kernel refines the greedy rule *)
Section Kernel.
  Context {W : WOrd} {A : Type}.
  Variable n : nat.
  Variable conflict : (nat -> nat) -> A -> nat -> nat -> res bool.
  Variable merge : A -> nat -> nat -> A.
  Variable CL : cannot_link.
  Variable AInv : (nat -> nat) -> A -> Prop.

  Hypothesis CL_range : forall x y, CL x y -> x < n /\ y < n.
  Hypothesis conflict_ok : forall p a ru rv,
    uf_wf n p -> AInv p a -> ru < n -> rv < n -> p ru = ru -> p rv = rv -> ru <> rv ->
    exists b, conflict p a ru rv = Ok b /\
      (b = true <-> exists x y, CL x y /\ Root p x ru /\ Root p y rv).
  Hypothesis AInv_stable : forall p q a,
    uf_wf n p -> uf_wf n q ->
    (forall y s, y < n -> (Root q y s <-> Root p y s)) -> AInv p a -> AInv q a.
  Hypothesis AInv_merge : forall p a new old,
    uf_wf n p -> AInv p a -> new < n -> old < n -> p new = new -> p old = old -> new <> old ->
    AInv (upd p old new) (merge a new old).

  Definition kinv (s : kstate W A) : Prop :=
    uf_wf n (k_pred s) /\ classes n (k_pred s) (connected (k_mst s)) /\
    in_range n (k_mst s) /\ AInv (k_pred s) (k_aux s) /\
    nroots n (k_pred s) + length (k_mst s) = n.

  Lemma classes_pres p q R :
    (forall y s, y < n -> (Root q y s <-> Root p y s)) -> classes n p R -> classes n q R.
  Proof.
    intros H Hc x y Hx Hy. rewrite <- (Hc x y Hx Hy). unfold same.
    split; intros (r & H1 & H2); exists r; split; apply H; auto.
  Qed.

  Lemma classes_forbidden p (M : list (edge W)) u v ru rv :
    uf_wf n p -> classes n p (connected M) -> in_range n M -> u < n -> v < n ->
    Root p u ru -> Root p v rv ->
    (forbidden CL M u v <-> exists x y, CL x y /\ Root p x ru /\ Root p y rv).
  Proof.
    intros Hwf Hc Hr Hu Hv HRu HRv. split.
    - intros (x & y & Hxy & H1 & H2). exists x, y. split; auto.
      destruct (CL_range x y Hxy) as [Hx Hy].
      apply Hc in H1 as (r & K1 & K2); auto. apply Hc in H2 as (s & K3 & K4); auto.
      rewrite (Root_det _ _ _ _ HRu K2), (Root_det _ _ _ _ HRv K4). auto.
    - intros (x & y & Hxy & H1 & H2). exists x, y. split; auto.
      destruct (CL_range x y Hxy) as [Hx Hy].
      split; apply Hc; auto; eexists; eauto.
  Qed.

  Lemma kernel_step_ok (s : kstate W A) (e : edge W) :
    kinv s -> esrc e < n -> edst e < n ->
    exists s', kernel_step conflict merge n s e = Ok s' /\ kinv s' /\
               greedy CL (k_mst s) [e] (k_mst s').
  Proof.
    destruct e as [[u v] w]. unfold esrc, edst; simpl. intros (Hwf & Hc & Hr & HA & Hn) Hu Hv.
    destruct (Nat.eqb_spec u v) as [->|Huv].
    { exists s. split; [reflexivity|]. split; [unfold kinv; auto|].
      apply greedy_drop; [left; apply connected_refl|constructor]. }
    destruct (find_compress_ok n (k_pred s) u Hwf Hu) as (p1 & ru & E1 & HRu & Hru & Hwf1 & I1 & N1).
    rewrite E1. simpl.
    destruct (find_compress_ok n p1 v Hwf1 Hv) as (p2 & rv & E2 & HRv & Hrv & Hwf2 & I2 & N2).
    rewrite E2. simpl.
    assert (I : forall y t, y < n -> (Root p2 y t <-> Root (k_pred s) y t)).
    { intros y t Hy. rewrite I2, I1; tauto. }
    assert (Hc2 : classes n p2 (connected (k_mst s))) by (eapply classes_pres; eauto).
    assert (HA2 : AInv p2 (k_aux s)) by (apply (AInv_stable (k_pred s)); auto).
    assert (Ru : Root p2 u ru) by (apply I; auto).
    assert (Rv : Root p2 v rv) by (apply I2; auto).
    destruct (Nat.eqb_spec ru rv) as [Hreq|Hrne].
    { subst rv. eexists. split; [reflexivity|]. split.
      - unfold kinv; simpl. repeat (split; [assumption|]). congruence.
      - simpl. apply greedy_drop; [left|constructor]. apply Hc2; auto. exists ru; auto. }
    assert (Pu : p2 ru = ru) by (eapply Root_root; eauto).
    assert (Pv : p2 rv = rv) by (eapply Root_root; eauto).
    destruct (conflict_ok p2 (k_aux s) ru rv) as (b & Eb & Hb); auto.
    rewrite Eb. simpl.
    assert (Hfb := classes_forbidden p2 (k_mst s) u v ru rv Hwf2 Hc2 Hr Hu Hv Ru Rv).
    destruct b.
    { eexists. split; [reflexivity|]. split.
      - unfold kinv; simpl. repeat (split; [assumption|]). congruence.
      - simpl. apply greedy_drop; [right|constructor]. apply Hfb. now apply Hb. }
    assert (Hkeep : greedy CL (k_mst s) [(u, v, w)] (k_mst s ++ [(u, v, w)])).
    { apply greedy_keep; [| |constructor]; unfold esrc, edst; simpl.
      - intro K. apply Hc2 in K; auto. apply (same_roots _ _ _ _ _ Ru Rv) in K. auto.
      - rewrite Hfb, <- Hb. discriminate. }
    assert (Hlink : forall new old rk, (new = ru /\ old = rv) \/ (new = rv /\ old = ru) ->
      kinv {| k_pred := upd p2 old new; k_rank := rk; k_mst := k_mst s ++ [(u, v, w)];
              k_aux := merge (k_aux s) new old |}).
    { intros new old rk Hno.
      assert (new <> old /\ new < n /\ old < n /\ p2 new = new /\ p2 old = old)
        as (Hne & Hnn & Hon & Hpn & Hpo).
      { destruct Hno as [[-> ->]|[-> ->]]; auto. }
      destruct (classes_link n p2 (k_mst s) (u, v, w) old new) as [Hw3 Hc3]; auto.
      { unfold esrc, edst; simpl. destruct Hno as [[-> ->]|[-> ->]]; auto. }
      split; [|split; [|split; [|split]]]; simpl; auto.
      - intros f Hf. apply in_app_iff in Hf as [Hf|[<-|[]]]; [now apply Hr|].
        unfold esrc, edst; simpl; auto.
      - rewrite app_length. simpl. pose proof (nroots_link n p2 old new Hon Hpo Hne). lia. }
    destruct (k_rank s rv <? k_rank s ru).
    { eexists. split; [reflexivity|]. split; [apply Hlink; auto|exact Hkeep]. }
    destruct (k_rank s ru <? k_rank s rv).
    { eexists. split; [reflexivity|]. split; [apply Hlink; auto|exact Hkeep]. }
    eexists. split; [reflexivity|]. split; [apply Hlink; auto|exact Hkeep].
  Qed.

  Lemma kernel_loop_ok (edges : list (edge W)) order : forall s es,
    0 < n -> in_range n edges -> kinv s ->
    map (nth_error edges) order = map Some es ->
    exists s', kernel_loop conflict merge n edges order s = Ok s' /\ kinv s' /\
               greedy CL (k_mst s) es (k_mst s').
  Proof.
    induction order as [|j order IH]; intros s es Hn Hr Hi Hm.
    - destruct es; [|discriminate]. exists s. split; [reflexivity|split; [exact Hi|constructor]].
    - destruct es as [|e es]; [discriminate|]. simpl in Hm. injection Hm as Hj Hm.
      assert (Hall : forall f, In f (e :: es) -> In f edges).
      { intros f [<-|Hf]; [eapply nth_error_In; eauto|].
        apply (in_map Some) in Hf. rewrite <- Hm in Hf. apply in_map_iff in Hf as (i & Hi' & _).
        eapply nth_error_In; eauto. }
      simpl. destruct (Nat.eqb_spec (length (k_mst s)) (n - 1)) as [Hl|Hl].
      + exists s. split; auto. split; auto. apply greedy_drop_all.
        intros f Hf. apply Hall in Hf. apply Hr in Hf as [H1 H2].
        destruct Hi as (Hwf & Hc & _ & _ & Hcount).
        apply Hc; auto. eapply nroots_one_same; eauto. lia.
      + rewrite Hj.
        destruct (kernel_step_ok s e Hi) as (s1 & E1 & Hi1 & G1);
          try (apply Hr; apply Hall; simpl; auto).
        rewrite E1. simpl. destruct (IH s1 es Hn Hr Hi1 Hm) as (s2 & E2 & Hi2 & G2).
        exists s2. split; auto. split; auto. change (e :: es) with ([e] ++ es).
        eapply greedy_app; eauto.
  Qed.

  Lemma kernel_ok (edges : list (edge W)) order es a :
    0 < n -> in_range n edges -> AInv (fun i => i) a ->
    map (nth_error edges) order = map Some es ->
    exists M p, kernel conflict merge n edges order a = Ok (M, p) /\
      uf_wf n p /\ classes n p (connected M) /\ in_range n M /\
      nroots n p + length M = n /\ greedy CL [] es M.
  Proof.
    intros Hn Hr Ha Hm. unfold kernel. destruct (Nat.eqb_spec n 0) as [|_]; [lia|].
    set (s0 := {| k_pred := fun i => i; k_rank := fun _ => 0; k_mst := []; k_aux := a |}).
    destruct (kernel_loop_ok edges order s0 es) as (s & E & (H1 & H2 & H3 & H4 & H5) & G); auto.
    - split; [|split; [|split; [|split]]]; simpl; auto.
      + apply id_wf.
      + intros x y _ _. rewrite connected_nil. apply same_id.
      + intros ? [].
      + rewrite nroots_id. lia.
    - rewrite E. simpl. exists (k_mst s), (k_pred s). auto 8.
  Qed.
End Kernel.

(** ** Component labels *)
Lemma component_labels_loop_ok n p is_ :
  uf_wf n p -> (forall i, In i is_ -> i < n) ->
  exists ls, component_labels_loop n p is_ = Ok ls /\ Forall2 (Root p) is_ ls.
Proof.
  intros Hwf. induction is_ as [|i is_ IH]; intros Hr; simpl; [eexists; eauto|].
  assert (Hi : i < n) by (apply Hr; simpl; auto).
  destruct (walk_ok n p (p i) n Hwf) as (r & -> & HR & _); [now apply Hwf|auto|].
  destruct IH as (ls & -> & HF); [intros; apply Hr; simpl; auto|].
  simpl. exists (r :: ls). split; auto. constructor; auto. now apply Root_back.
Qed.

Lemma Forall2_seq_nth {B} (R : nat -> B -> Prop) n ls d :
  Forall2 R (seq 0 n) ls -> length ls = n /\ forall i, i < n -> R i (nth i ls d).
Proof.
  intro H. assert (L : length (seq 0 n) = length ls) by (eapply Forall2_len; eauto).
  rewrite seq_length in L. split; auto. intros i Hi.
  assert (G : forall k m ls', Forall2 R (seq k m) ls' -> forall j, j < m -> R (k + j) (nth j ls' d)).
  { clear. intros k m. revert k. induction m as [|m IH]; intros k ls' H j Hj; [lia|].
    simpl in H. inversion H; subst. destruct j; simpl.
    - now rewrite Nat.add_0_r.
    - rewrite Nat.add_succ_r, <- Nat.add_succ_l. apply IH; auto. lia. }
  apply (G 0 n); auto.
Qed.

Lemma get_component_labels_ok n p :
  uf_wf n p -> exists ls, get_component_labels n p = Ok ls /\ length ls = n /\
                          forall i, i < n -> Root p i (nth i ls 0).
Proof.
  intro Hwf. destruct (component_labels_loop_ok n p (seq 0 n)) as (ls & E & H); auto.
  { intros i Hi. apply in_seq in Hi. lia. }
  exists ls. split; auto. now apply Forall2_seq_nth.
Qed.
