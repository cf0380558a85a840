(** Proofs about symmetrisation, core distances, bridging and unbridging. *)
From Coq Require Import List Arith Lia Bool Permutation Sorted.
From Verif Require Import Prelude Order Graph UF S_Kruskal M_Kruskal P_Kruskal P_Forest P_Sort
  M_Precomputed S_Precomputed.
Import ListNotations.

(** ** Symmetrisation *)
Section Symmetrize.
  Context {W : WOrd}.

  Notation lexle := (lex_le (@esrc W) (@edst W)).
  Definition lexlt (e f : edge W) : Prop :=
    esrc e < esrc f \/ (esrc e = esrc f /\ edst e < edst f).

  Lemma key_eq n (u v u' v' : nat) : v < n -> v' < n ->
    u * n + v = u' * n + v' -> u = u' /\ v = v'.
  Proof.
    intros Hv Hv' E. assert (u = u'); [|subst; lia].
    destruct (Nat.lt_trichotomy u u') as [L|[L|L]]; auto; exfalso.
    - assert (u * n + n <= u' * n); [|lia]. replace (u * n + n) with (S u * n) by (simpl; lia).
      apply Nat.mul_le_mono_r. lia.
    - assert (u' * n + n <= u * n); [|lia]. replace (u' * n + n) with (S u' * n) by (simpl; lia).
      apply Nat.mul_le_mono_r. lia.
  Qed.

  Lemma lexlt_trans e f g : lexlt e f -> lexlt f g -> lexlt e g.
  Proof. unfold lexlt. lia. Qed.

  Lemma group_min_ok n (l : list (edge W)) :
    (forall e, In e l -> edst e < n) -> StronglySorted lexle l ->
    StronglySorted lexlt (group_min n l) /\
    (forall u v w, In (u, v, w) (group_min n l) ->
       In (u, v, w) l /\ forall w', In (u, v, w') l -> wle w w' = true) /\
    (forall u v w, In (u, v, w) l -> exists w', In (u, v, w') (group_min n l)).
  Proof.
    intros Hn Hs. induction Hs as [|[[u v] w] l Hs IH Hf].
    { simpl. repeat split; try constructor; simpl; tauto. }
    destruct IH as (I1 & I2 & I3); [intros; apply Hn; simpl; auto|].
    rewrite Forall_forall in Hf.
    assert (Hv : v < n) by (apply (Hn (u, v, w)); simpl; auto).
    simpl. destruct (group_min n l) as [|[[u' v'] w'] g] eqn:EG.
    - assert (l = []) as ->.
      { destruct l as [|[[a b] c] l]; auto. destruct (I3 a b c) as [w' []]. simpl; auto. }
      repeat split.
      + repeat constructor.
      + simpl in H. destruct H as [[= -> -> ->]|[]]. simpl; auto.
      + intros w' Hw'. simpl in H, Hw'. destruct H as [[= -> -> ->]|[]].
        destruct Hw' as [[= ->]|[]]. apply wle_refl.
      + intros a b c [[= -> -> ->]|[]]. exists c. simpl; auto.
    - assert (Hin' : In (u', v', w') l) by (apply I2; simpl; auto).
      assert (Hv' : v' < n) by (apply (Hn (u', v', w')); simpl; auto).
      assert (Hle : lexle (u, v, w) (u', v', w')) by (now apply Hf).
      inversion_clear I1 as [|? ? Hsg Hfg]. rewrite Forall_forall in Hfg.
      destruct (Nat.eqb_spec (u * n + v) (u' * n + v')) as [E|E].
      + apply key_eq in E as [<- <-]; auto. split; [|split].
        * constructor; auto. rewrite Forall_forall. intros f Hfin. now apply Hfg.
        * intros a b c [[= <- <- <-]|Hg].
          -- split.
             ++ destruct (wmin_cases w w') as [-> | ->]; simpl; auto.
             ++ intros c' [[= ->]|Hc]; [apply wmin_l|].
                eapply wle_trans; [apply wmin_r|]. apply (I2 u v w'); simpl; auto.
          -- destruct (I2 a b c) as [K1 K2]; [simpl; auto|]. split; [simpl; auto|].
             intros c' [[= -> -> ->]|Hc]; auto.
             exfalso. apply Hfg in Hg. unfold lexlt, esrc, edst in Hg. simpl in Hg. lia.
        * intros a b c [[= <- <- <-]|Hg].
          -- eexists. simpl. eauto.
          -- destruct (I3 a b c Hg) as [c' [[= <- <- <-]|Hc]]; eexists; simpl; eauto.
      + assert (Hlt : lexlt (u, v, w) (u', v', w')).
        { unfold lex_le, lexlt, esrc, edst in *. simpl in *.
          destruct Hle as [?|[-> ?]]; [lia|]. assert (v <> v') by congruence. lia. }
        split; [|split].
        * constructor; [constructor; auto; now rewrite Forall_forall|].
          rewrite Forall_forall. intros f [<-|Hfin]; auto.
          eapply lexlt_trans; eauto.
        * intros a b c [[= <- <- <-]|Hg].
          -- split; [simpl; auto|]. intros c' [[= ->]|Hc]; [apply wle_refl|].
             exfalso. destruct (I3 u v c' Hc) as [c2 [[= <- <- <-]|Hc2]].
             ++ unfold lexlt, esrc, edst in Hlt; simpl in Hlt; lia.
             ++ apply Hfg in Hc2. pose proof (lexlt_trans _ _ _ Hlt Hc2) as K.
                unfold lexlt, esrc, edst in K; simpl in K; lia.
          -- destruct (I2 a b c) as [K1 K2]; auto. split; [simpl; auto|].
             intros c' [[= -> -> ->]|Hc]; auto.
             exfalso. destruct Hg as [[= -> -> ->]|Hg].
             ++ unfold lexlt, esrc, edst in Hlt; simpl in Hlt; lia.
             ++ apply Hfg in Hg. pose proof (lexlt_trans _ _ _ Hlt Hg) as K.
                unfold lexlt, esrc, edst in K; simpl in K; lia.
        * intros a b c [[= <- <- <-]|Hg]; [eexists; simpl; eauto|].
          destruct (I3 a b c Hg) as [c' Hc]. exists c'. simpl in *. tauto.
  Qed.

  Lemma lexlt_keys_NoDup (l : list (edge W)) :
    StronglySorted lexlt l -> NoDup (map (fun e => (esrc e, edst e)) l).
  Proof.
    induction 1 as [|e l Hs IH Hf]; simpl; constructor; auto.
    intro Hin. apply in_map_iff in Hin as (f & [= E1 E2] & Hf').
    rewrite Forall_forall in Hf. apply Hf in Hf'. unfold lexlt in Hf'. lia.
  Qed.

  (** Reading back a CSR matrix that was built from rows sorted by row index. *)
  Definition csr_of_sorted (sym : list (edge W)) (n : nat) : csr W :=
    {| c_data := map ewt sym; c_indices := map edst sym;
       c_indptr := cumcounts (map esrc sym) n |}.

  Lemma csr_of_sorted_n sym n : csr_n (csr_of_sorted sym n) = n.
  Proof. unfold csr_n, csr_of_sorted, cumcounts. cbn [c_indptr]. rewrite map_length, seq_length. lia. Qed.

  Lemma csr_of_sorted_row sym n i :
    nsorted esrc sym -> i < n ->
    csr_row (csr_of_sorted sym n) i
    = map (fun e => (edst e, ewt e)) (filter (fun e => esrc e =? i) sym).
  Proof.
    intros Hs Hi. unfold csr_row, csr_of_sorted, cumcounts. cbn [c_indptr c_indices c_data].
    rewrite !nth_map_seq by lia. rewrite combine_map, slice_map, !countp_map.
    now rewrite (slice_counts esrc).
  Qed.

  Lemma csr_of_sorted_entries sym n :
    nsorted esrc sym -> 
    forall e, In e (csr_entries (csr_of_sorted sym n)) <-> In e sym /\ esrc e < n.
  Proof.
    intros Hs [[i j] w]. unfold csr_entries. rewrite csr_of_sorted_n, in_flat_map. split.
    - intros (k & Hk & H). apply in_seq in Hk. rewrite csr_of_sorted_row in H by (auto; lia).
      rewrite map_map in H. apply in_map_iff in H as ([[a b] c] & E & H).
      unfold edst, ewt in E. simpl in E. injection E as <- <- <-.
      apply filter_In in H as [H E]. apply Nat.eqb_eq in E. unfold esrc in E; simpl in E. subst a.
      split; auto. unfold esrc; simpl; lia.
    - unfold esrc; simpl. intros [H Hi]. exists i. split; [apply in_seq; lia|].
      rewrite csr_of_sorted_row by auto. rewrite map_map. apply in_map_iff.
      exists (i, j, w). split; auto. apply filter_In. split; auto. apply Nat.eqb_refl.
  Qed.

  (** Each position is stored at most once. *)
  Lemma csr_of_sorted_NoDup sym n :
    nsorted esrc sym -> NoDup (map (fun e => (esrc e, edst e)) sym) ->
    NoDup (map (fun e => (esrc e, edst e)) (csr_entries (csr_of_sorted sym n))).
  Proof.
    intros Hs Hd. unfold csr_entries. rewrite csr_of_sorted_n.
    assert (HF : NoDup sym).
    { eapply NoDup_map_inv; eauto. }
    assert (G : forall is_, NoDup is_ -> (forall i, In i is_ -> i < n) ->
      NoDup (map (fun e => (esrc e, edst e))
        (flat_map (fun i => map (fun cw => (i, fst cw, snd cw)) (csr_row (csr_of_sorted sym n) i)) is_))).
    { induction 1 as [|i is_ Hi Hn IH]; intro Hr; simpl; [constructor|].
      rewrite map_app. apply NoDup_app_iff. split; [|split].
      - rewrite csr_of_sorted_row by (auto; apply Hr; simpl; auto). rewrite !map_map.
        apply NoDup_map_inj; [now apply NoDup_filter|].
        intros x y Hx Hy [= E]. apply filter_In in Hx as [Hx Ex]. apply filter_In in Hy as [Hy Ey].
        apply Nat.eqb_eq in Ex, Ey.
        assert (Hk : (esrc x, edst x) = (esrc y, edst y)).
        { unfold edst in *. simpl in *. congruence. }
        clear -Hd Hx Hy Hk. induction sym as [|z l IH]; [destruct Hx|].
        simpl in Hd. inversion_clear Hd as [|? ? Hz Hd'].
        destruct Hx as [<-|Hx], Hy as [<-|Hy]; auto.
        + exfalso. apply Hz. rewrite Hk. now apply (in_map (fun e => (esrc e, edst e))).
        + exfalso. apply Hz. rewrite <- Hk. now apply (in_map (fun e => (esrc e, edst e))).
      - apply IH. intros; apply Hr; simpl; auto.
      - intros k H1 H2. apply in_map_iff in H1 as (e & <- & H1). apply in_map_iff in H1 as (cw & <- & _).
        apply in_map_iff in H2 as (f & Ef & H2). apply in_flat_map in H2 as (j & Hj & H2).
        apply in_map_iff in H2 as (cw2 & <- & _). unfold esrc in Ef. simpl in Ef.
        injection Ef as E1 _. subst. auto. }
    apply G; [apply seq_NoDup|]. intros i Hi. apply in_seq in Hi. lia.
  Qed.

  Lemma sym_entries_core n (l : list (edge W)) :
    (forall e, In e l -> esrc e < n /\ edst e < n /\ esrc e <> edst e) ->
    let out := group_min n (nsort esrc (nsort edst (map canonical l))) in
    let sym := nsort esrc (out ++ map mirror out) in
    nsorted esrc sym /\
    NoDup (map (fun e => (esrc e, edst e)) sym) /\
    (forall i j w, In (i, j, w) sym -> i <> j /\ i < n /\ j < n /\ lightest_between l i j w) /\
    (forall i j w, In (i, j, w) l \/ In (j, i, w) l -> exists m, In (i, j, m) sym) /\
    (forall i j w, In (i, j, w) sym -> In (j, i, w) sym).
  Proof.
    intros Hl out sym.
    set (srt := nsort esrc (nsort edst (map canonical l))) in *.
    assert (Hsrt : forall a b c, In (a, b, c) srt <->
                   (a < b /\ (In (a, b, c) l \/ In (b, a, c) l))).
    { intros a b c. unfold srt. rewrite !nsort_in, in_map_iff. split.
      - intros ([[i j] w] & E & H). simpl in E. injection E as <- <- <-.
        destruct (Hl _ H) as (_ & _ & Hne). unfold esrc, edst in Hne; simpl in Hne.
        split; [lia|]. destruct (Nat.min_spec i j) as [[? ->]|[? ->]];
          destruct (Nat.max_spec i j) as [[? ->]|[? ->]]; auto; lia.
      - intros [Hlt [H|H]]; [exists (a, b, c)|exists (b, a, c)]; split; auto; simpl;
          [rewrite Nat.min_l, Nat.max_r by lia|rewrite Nat.min_r, Nat.max_l by lia]; auto. }
    destruct (group_min_ok n srt) as (G1 & G2 & G3).
    { intros [[a b] c] H. apply Hsrt in H as [Hlt [H|H]]; apply Hl in H;
        unfold esrc, edst in *; simpl in *; lia. }
    { apply lexsort_sorted. }
    fold out in G1, G2, G3.
    assert (Hout : forall a b c, In (a, b, c) out -> a < b /\ lightest_between l a b c).
    { intros a b c H. apply G2 in H as [H1 H2]. apply Hsrt in H1 as [Hlt H1]. split; auto.
      split; auto. intros w Hw. apply H2. apply Hsrt. auto. }
    assert (Hsym : forall a b c, In (a, b, c) sym <-> In (a, b, c) out \/ In (b, a, c) out).
    { intros a b c. unfold sym. rewrite nsort_in, in_app_iff, in_map_iff. split.
      - intros [H|([[u v] w] & E & H)]; auto. simpl in E. injection E as <- <- <-. auto.
      - intros [H|H]; auto. right. exists (b, a, c). auto. }
    split; [apply nsort_sorted|]. split; [|split; [|split]].
    - apply (Permutation_NoDup (Permutation_map _ (nsort_perm esrc (out ++ map mirror out)))).
      rewrite map_app. apply NoDup_app_iff. split; [now apply lexlt_keys_NoDup|]. split.
      + rewrite map_map.
        replace (map (fun x : edge W => (esrc (mirror x), edst (mirror x))) out)
          with (map (fun p => (snd p, fst p)) (map (fun e : edge W => (esrc e, edst e)) out)).
        * apply NoDup_map_inj; [now apply lexlt_keys_NoDup|].
          intros [a b] [a' b'] _ _. simpl. congruence.
        * rewrite map_map. apply map_ext. intros [[a b] c]. reflexivity.
      + intros k H1 H2. apply in_map_iff in H1 as ([[a b] c] & <- & H1).
        apply in_map_iff in H2 as (f & E & H2). apply in_map_iff in H2 as ([[u v] w] & <- & H2).
        unfold esrc, edst in E; simpl in E. injection E as <- <-.
        apply Hout in H1, H2. lia.
    - intros i j w H. apply Hsym in H as [H|H]; apply Hout in H as [Hlt [H1 H2]].
      + destruct H1 as [K|K]; pose proof (Hl _ K) as (? & ? & ?); unfold esrc, edst in *; simpl in *;
          (split; [lia|split; [lia|split; [lia|]]]); split; auto.
      + destruct H1 as [K|K]; pose proof (Hl _ K) as (? & ? & ?); unfold esrc, edst in *; simpl in *;
          (split; [lia|split; [lia|split; [lia|]]]); split; auto; intros w' Hw'; apply H2; tauto.
    - intros i j w H.
      assert (Hij : i <> j).
      { destruct H as [H|H]; apply Hl in H; unfold esrc, edst in H; simpl in H; lia. }
      destruct (Nat.lt_ge_cases i j) as [L|L].
      + destruct (G3 i j w) as [m Hm]; [apply Hsrt; auto|]. exists m. apply Hsym. auto.
      + destruct (G3 j i w) as [m Hm]; [apply Hsrt; split; [lia|tauto]|]. exists m. apply Hsym. auto.
    - intros i j w. rewrite !Hsym. tauto.
  Qed.

  Lemma map_const_seq (m k : nat) : repeat 0 m = map (fun _ => 0) (seq k m).
  Proof. revert k. induction m; intros; simpl; congruence. Qed.

  Lemma symmetrize_min_shape (entries : list (edge W)) n :
    exists sym, symmetrize_min entries n = csr_of_sorted sym n /\
      (sym = [] /\ filter (fun e => negb (esrc e =? edst e)) entries = [] \/
       sym = let out := group_min n (nsort esrc (nsort edst
               (map canonical (filter (fun e => negb (esrc e =? edst e)) entries)))) in
             nsort esrc (out ++ map mirror out)).
  Proof.
    unfold symmetrize_min. destruct (filter _ entries) as [|e l] eqn:E.
    - exists []. split; auto. unfold csr_of_sorted, cumcounts. f_equal.
      apply map_const_seq.
    - eexists. split; [reflexivity|]. right. reflexivity.
  Qed.

  Lemma symmetrize_min_ok (entries : list (edge W)) n :
    in_range n entries ->
    let g := symmetrize_min entries n in
    csr_n g = n /\
    NoDup (map (fun e => (esrc e, edst e)) (csr_entries g)) /\
    in_range n (csr_entries g) /\
    (forall i j w, In (i, j, w) (csr_entries g) -> i <> j /\ lightest_between entries i j w) /\
    (forall i j w, i <> j -> In (i, j, w) entries \/ In (j, i, w) entries ->
       exists m, In (i, j, m) (csr_entries g)) /\
    (forall i j w, In (i, j, w) (csr_entries g) -> In (j, i, w) (csr_entries g)).
  Proof.
    intros Hr g. unfold g.
    destruct (symmetrize_min_shape entries n) as (sym & -> & Hsh).
    set (l := filter (fun e => negb (esrc e =? edst e)) entries) in *.
    assert (Hl : forall i j w, In (i, j, w) l <-> In (i, j, w) entries /\ i <> j).
    { intros i j w. unfold l. rewrite filter_In. unfold esrc, edst; simpl.
      rewrite negb_true_iff, Nat.eqb_neq. tauto. }
    assert (H : nsorted esrc sym /\ NoDup (map (fun e => (esrc e, edst e)) sym) /\
    (forall i j w, In (i, j, w) sym -> i <> j /\ i < n /\ j < n /\ lightest_between l i j w) /\
    (forall i j w, In (i, j, w) l \/ In (j, i, w) l -> exists m, In (i, j, m) sym) /\
    (forall i j w, In (i, j, w) sym -> In (j, i, w) sym)).
    { destruct Hsh as [[-> El]| ->].
      - rewrite El. split; [constructor|split; [constructor|simpl; tauto]].
      - apply sym_entries_core. intros [[a b] c] H. apply Hl in H as [H1 H2].
        apply Hr in H1. unfold esrc, edst in *; simpl in *. tauto. }
    destruct H as (Hs & Hd & H1 & H2 & H3).
    assert (HE := csr_of_sorted_entries sym n Hs).
    split; [apply csr_of_sorted_n|]. split; [now apply csr_of_sorted_NoDup|].
    split; [|split; [|split]].
    - intros [[i j] w] H. apply HE in H as [H _]. apply H1 in H. unfold esrc, edst; simpl. tauto.
    - intros i j w H. apply HE in H as [H _]. apply H1 in H as (Hne & _ & _ & K1 & K2).
      split; auto. split.
      + rewrite !Hl in K1. tauto.
      + intros w' Hw'. apply K2. rewrite !Hl. intuition.
    - intros i j w Hne H. destruct (H2 i j w) as [m Hm]; [rewrite !Hl; intuition|].
      exists m. apply HE. split; auto. apply H1 in Hm. unfold esrc; simpl. tauto.
    - intros i j w H. apply HE in H as [H _]. apply HE. apply H3 in H. split; auto.
      apply H1 in H. unfold esrc; simpl. tauto.
  Qed.
End Symmetrize.
