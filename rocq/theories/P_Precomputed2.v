(** Core distances, mutual reachability, bridging, unbridging. *)
From Coq Require Import List Arith Lia Bool Permutation Sorted.
From Verif Require Import Prelude Order Graph UF S_Kruskal M_Kruskal P_Kruskal P_Forest P_Sort
  M_Precomputed S_Precomputed P_Precomputed.
Import ListNotations.

(** ** Core distances *)
Section Core.
  Context {W : WOrd}.

  Lemma sorted_lt_prefix (l : list W) i x :
    sorted_by (fun w => w) l -> nth_error l i = Some x ->
    countp (fun w => wlt w x) l <= i.
  Proof.
    revert i. induction l as [|y l IH]; intros [|i] Hs Hi; simpl in *; try discriminate;
      inversion_clear Hs as [|? ? Hs' Hf]; rewrite Forall_forall in Hf.
    - injection Hi as ->. rewrite wlt_irrefl. simpl.
      assert (E : countp (fun w => wlt w x) l = 0); [|lia].
      apply countp_zero. intros z Hz. apply wlt_false. auto.
    - specialize (IH i Hs' Hi). destruct (wlt y x); lia.
  Qed.

  Lemma sorted_map {A} (key : A -> W) (s : list A) :
    sorted_by key s -> sorted_by (fun w : W => w) (map key s).
  Proof.
    unfold sorted_by. induction 1 as [|x l' Hs' IH Hf]; simpl; constructor; auto.
    rewrite Forall_forall in *. intros w Hw. apply in_map_iff in Hw as (y & <- & Hy). auto.
  Qed.

  Lemma nth_sorted_kth {A} (key : A -> W) (l : list A) k d :
    1 <= k -> k <= length l ->
    kth_smallest k (map key l) (key (nth (k - 1) (isort key l) d)).
  Proof.
    intros H1 H2. set (s := isort key l).
    assert (HL : length s = length l) by apply isort_length.
    assert (Hs : sorted_by (fun w : W => w) (map key s)).
    { apply sorted_map, isort_sorted. }
    assert (Hn : nth_error (map key s) (k - 1) = Some (key (nth (k - 1) s d))).
    { rewrite (map_nth_error key (k - 1) s (d := nth (k - 1) s d)); auto.
      apply nth_error_nth'. lia. }
    assert (HP : Permutation (map key l) (map key s)) by (apply Permutation_map, isort_perm).
    split; [|split].
    - apply in_map. eapply Permutation_in; [apply Permutation_sym, (isort_perm key)|].
      apply nth_In. fold s. lia.
    - rewrite (countp_perm _ _ _ HP). pose proof (sorted_lt_prefix _ _ _ Hs Hn). lia.
    - rewrite (countp_perm _ _ _ HP). pose proof (sorted_le_prefix _ _ _ Hs Hn). lia.
  Qed.

  (** What the code promises for one row. *)
  Lemma core_distances_ok (zero : W) (g : csr W) ms :
    let core := snd (core_distances_csr zero g ms) in
    length core = csr_n g /\
    forall i, i < csr_n g ->
      let row := map snd (csr_row g i) in
      let d := nth i core winf in
      (ms <= 1 -> d = zero) /\
      (1 < ms -> ms <= length row -> kth_smallest ms row d) /\
      (1 < ms -> length row < ms -> d = winf).
  Proof.
    unfold core_distances_csr. simpl. split; [now rewrite !map_length, seq_length|].
    intros i Hi. rewrite map_map, nth_map_seq by auto. unfold core_row. simpl.
    rewrite map_length. set (row := csr_row g i).
    destruct (Nat.eqb_spec (length row) 0) as [E0|E0];
      destruct (Nat.ltb_spec 1 ms) as [Hm|Hm]; simpl; (split; [intro; try lia; auto|]);
      try (split; intros; try lia; auto; fail).
    destruct (Nat.leb_spec ms (length row)) as [L|L]; split; intros; try lia; auto.
    apply nth_sorted_kth; lia.
  Qed.

  (** The reported neighbours: the closest stored columns, then padding. *)
  Lemma neighbors_ok (zero : W) (g : csr W) ms i :
    i < csr_n g ->
    let nbrs := nth i (fst (core_distances_csr zero g ms)) [] in
    let row := csr_row g i in
    let k := Nat.max 1 ms in
    length nbrs = k /\
    exists order, Permutation row order /\ sorted_by snd order /\
      nbrs = map (fun cw => Some (fst cw)) (firstn k order) ++ repeat None (k - length row).
  Proof.
    intros Hi. unfold core_distances_csr. cbn zeta; cbn [fst snd]. rewrite map_map, nth_map_seq by auto.
    unfold core_row. cbn [fst]. set (row := csr_row g i).
    set (k := Nat.max 1 ms). split.
    - rewrite app_length, map_length, firstn_length, repeat_length, isort_length.
      fold row. lia.
    - exists (isort (fun cw : nat * W => snd cw) row). split; [apply isort_perm|].
      split; [apply isort_sorted|]. f_equal.
      + f_equal. destruct (Nat.le_ge_cases k (length row)) as [L|L].
        * now rewrite Nat.min_l.
        * rewrite Nat.min_r by auto. rewrite !firstn_all2; rewrite ?isort_length; auto.
      + f_equal. lia.
  Qed.

  Lemma mrd3_ok (a b c : W) : greatest_of_three a b c (mrd3 a b c).
  Proof.
    unfold mrd3. split.
    - destruct (wmax_cases (wmax a b) c) as [-> | ->]; auto.
      destruct (wmax_cases a b) as [-> | ->]; auto.
    - split; [|split].
      + eapply wle_trans; [apply wmax_l|apply wmax_l].
      + eapply wle_trans; [apply wmax_r|apply wmax_l].
      + apply wmax_r.
  Qed.

  Lemma mrd_entries_in_range n core (g : csr W) :
    in_range n (csr_entries g) -> in_range n (mrd_entries core g).
  Proof.
    intros H e He. unfold mrd_entries in He. apply in_map_iff in He as (f & <- & Hf).
    apply H in Hf. auto.
  Qed.
End Core.

(** ** Component labels from parent arrays *)
Section Labels.
  Context {W : WOrd}.

  Lemma labels_classes_of n p (M : list (edge W)) ls :
    uf_wf n p -> classes n p (connected M) -> length ls = n ->
    (forall i, i < n -> Root p i (nth i ls 0)) -> labels_classes n ls (connected M).
  Proof.
    intros Hwf Hc HL HR. split; auto. intros x y Hx Hy. rewrite <- (Hc x y Hx Hy).
    symmetry. apply same_roots; auto.
  Qed.

  Lemma unique_count_roots n p ls :
    uf_wf n p -> length ls = n -> (forall i, i < n -> Root p i (nth i ls 0)) ->
    length (unique ls) = nroots n p.
  Proof.
    intros Hwf HL HR. unfold nroots. rewrite countp_filter.
    assert (Hin : forall r, In r ls <-> r < n /\ p r = r).
    { intro r. split.
      - intro H. apply (In_nth _ _ 0) in H as (i & Hi & <-). rewrite HL in Hi.
        specialize (HR i Hi). split; [eapply Root_range; eauto; apply Hwf|eapply Root_root; eauto].
      - intros [Hr E]. specialize (HR r Hr). rewrite <- (Root_fix _ _ _ HR E).
        apply nth_In. lia. }
    apply Nat.le_antisymm; apply NoDup_incl_length.
    - apply unique_NoDup.
    - intros r Hr. apply unique_in, Hin in Hr as [H1 H2]. apply filter_In.
      split; [apply in_seq; lia|]. now apply Nat.eqb_eq.
    - apply NoDup_filter, seq_NoDup.
    - intros r Hr. apply filter_In in Hr as [H1 H2]. apply in_seq in H1. apply Nat.eqb_eq in H2.
      apply unique_in, Hin. split; auto. lia.
  Qed.

  (** The number of classes only depends on the partition. *)
  Lemma labels_count n (M : list (edge W)) ls :
    acyclic M -> in_range n M -> labels_classes n ls (connected M) ->
    length (unique ls) + length M = n.
  Proof.
    intros HA HR [HL HC].
    destruct (forest_uf n M HA HR) as (p & Hwf & Hc & Hn).
    destruct (get_component_labels_ok n p Hwf) as (ls' & _ & HL' & HR').
    rewrite <- Hn, <- (unique_count_roots n p ls') by auto. f_equal.
    (* both labelings have as many distinct values as there are classes *)
    assert (HE : forall x y, x < n -> y < n -> (nth x ls 0 = nth y ls 0 <-> nth x ls' 0 = nth y ls' 0)).
    { intros x y Hx Hy. rewrite HC, <- (Hc x y) by auto. apply same_roots; auto. }
    assert (G : forall a b, length a = n -> length b = n ->
      (forall x y, x < n -> y < n -> nth x b 0 = nth y b 0 -> nth x a 0 = nth y a 0) ->
      length (unique a) <= length (unique b)).
    { clear. intros a b La Lb H.
      set (pos := fun v : nat => match find (fun i => nth i a 0 =? v) (seq 0 n) with Some i => i | None => 0 end).
      assert (Hpos : forall v, In v a -> pos v < n /\ nth (pos v) a 0 = v).
      { intros v Hv. unfold pos. destruct (find _ (seq 0 n)) as [i|] eqn:E.
        - apply find_some in E as [E1 E2]. apply in_seq in E1. apply Nat.eqb_eq in E2. split; auto; lia.
        - exfalso. apply (In_nth _ _ 0) in Hv as (i & Hi & <-).
          assert (K : (nth i a 0 =? nth i a 0) = false) by (apply (find_none _ _ E i); apply in_seq; lia).
          rewrite Nat.eqb_refl in K. discriminate. }
      rewrite <- (map_length (fun v => nth (pos v) b 0) (unique a)).
      apply NoDup_incl_length.
      - apply NoDup_map_inj; [apply unique_NoDup|].
        intros u v Hu Hv E. apply (proj1 (unique_in _ _)) in Hu. apply (proj1 (unique_in _ _)) in Hv.
        destruct (Hpos u Hu) as [P1 P2]. destruct (Hpos v Hv) as [P3 P4].
        rewrite <- P2, <- P4. apply H; auto.
      - intros z Hz. apply in_map_iff in Hz as (v & <- & Hv). apply (proj1 (unique_in _ _)) in Hv.
        apply unique_in. apply nth_In. rewrite Lb. now apply Hpos. }
    apply Nat.le_antisymm; apply G; auto; intros; apply HE; auto.
  Qed.
End Labels.

(** ** Bridging *)
Section Bridge.
  Context {W : WOrd}.
  Implicit Types M : list (edge W).

  Lemma fold_min_ok l : forall i,
    In (fold_left Nat.min l i) (i :: l) /\ forall x, In x (i :: l) -> fold_left Nat.min l i <= x.
  Proof.
    induction l as [|a l IH]; intros i; simpl.
    - split; auto. intros x [<-|[]]. auto.
    - destruct (IH (Nat.min i a)) as [H1 H2]. split.
      + destruct H1 as [H1|H1]; auto.
        destruct (Nat.min_spec i a) as [[? E]|[? E]]; rewrite E in H1 at 1; auto.
      + intros x [<-|[<-|Hx]].
        * etransitivity; [apply H2; simpl; auto|]. apply Nat.le_min_l.
        * etransitivity; [apply H2; simpl; auto|]. apply Nat.le_min_r.
        * apply H2. simpl; auto.
  Qed.

  Lemma representative_ok labels c :
    In c labels ->
    exists r, representative labels c = Ok r /\ r < length labels /\ nth r labels 0 = c /\
      (forall x, x < length labels -> nth x labels 0 = c -> r <= x).
  Proof.
    intro Hc. unfold representative.
    assert (Hf : forall x, In x (filter (fun i => nth i labels 0 =? c) (seq 0 (length labels))) <->
                 x < length labels /\ nth x labels 0 = c).
    { intro x. rewrite filter_In, in_seq, Nat.eqb_eq. lia. }
    destruct (filter _ _) as [|i l].
    - apply (In_nth _ _ 0) in Hc as (x & Hx & E). exfalso. apply (Hf x). auto.
    - destruct (fold_min_ok l i) as [H1 H2]. eexists. split; [reflexivity|].
      apply Hf in H1 as [K1 K2]. split; auto. split; auto.
      intros x Hx E. apply H2. apply Hf. auto.
  Qed.

  Lemma mapM_ok {A B} (f : A -> res B) (R : A -> B -> Prop) l :
    (forall x, In x l -> exists y, f x = Ok y /\ R x y) ->
    exists ys, mapM f l = Ok ys /\ Forall2 R l ys.
  Proof.
    induction l as [|x l IH]; intro H; simpl; [eexists; eauto|].
    destruct (H x) as (y & -> & HR); [simpl; auto|].
    destruct IH as (ys & -> & HF); [intros; apply H; simpl; auto|].
    simpl. eexists. split; eauto.
  Qed.

  (** Representatives, one per component, chained by bridges. *)
  Lemma bridges_connected M (R : list nat) x y :
    connected (M ++ bridges R) x y <->
    connected M x y \/ (exists r s, In r R /\ In s R /\ connected M x r /\ connected M s y).
  Proof.
    revert x y. induction R as [|a R IH]; intros x y.
    - simpl. rewrite app_nil_r. split; auto. intros [?|(r & s & [] & _)]; auto.
    - destruct R as [|b R].
      + simpl. rewrite app_nil_r. split; auto.
        intros [?|(r & s & [<-|[]] & [<-|[]] & H1 & H2)]; auto. eapply connected_trans; eauto.
      + change (bridges (a :: b :: R)) with ((a, b, winf) :: bridges (b :: R) : list (edge W)).
        rewrite (connected_perm _ _ (Permutation_sym (Permutation_middle M (bridges (b :: R)) _))).
        rewrite connected_cons. unfold esrc, edst. cbn [fst snd].
        rewrite !IH. split.
        * intros [[H|(r & s & Hr & Hs & H1 & H2)]|[[H1 H2]|[H1 H2]]].
          -- auto.
          -- right. exists r, s. simpl in *. auto.
          -- right. destruct H1 as [H1|(r & s & Hr & Hs & H1 & _)];
             destruct H2 as [H2|(r' & s' & Hr' & Hs' & _ & H2)].
             ++ exists a, b. simpl; auto.
             ++ exists a, s'. simpl in *; auto.
             ++ exists r, b. simpl in *; auto.
             ++ exists r, s'. simpl in *; auto.
          -- right. destruct H1 as [H1|(r & s & Hr & Hs & H1 & _)];
             destruct H2 as [H2|(r' & s' & Hr' & Hs' & _ & H2)].
             ++ exists b, a. simpl; auto.
             ++ exists b, s'. simpl in *; auto.
             ++ exists r, a. simpl in *; auto.
             ++ exists r, s'. simpl in *; auto.
        * intros [H|(r & s & Hr & Hs & H1 & H2)]; auto.
          assert (B : In b (b :: R)) by (simpl; auto).
          destruct Hr as [<-|Hr], Hs as [<-|Hs].
          -- left; left. eapply connected_trans; eauto.
          -- right; left. split; auto. right. exists b, s. split; [|split; [|split]]; auto using connected_refl.
          -- right; right. split; auto. right. exists r, b. auto using connected_refl.
          -- left; right. exists r, s. auto.
  Qed.

  Lemma bridges_acyclic M (R : list nat) :
    acyclic M -> NoDup R ->
    (forall r s, In r R -> In s R -> connected M r s -> r = s) ->
    acyclic (M ++ bridges R).
  Proof.
    intros HA HN HR. induction R as [|a R IH].
    - simpl. now rewrite app_nil_r.
    - destruct R as [|b R]; [simpl; now rewrite app_nil_r|].
      inversion_clear HN as [|? ? Ha HN'].
      change (bridges (a :: b :: R)) with ((a, b, winf) :: bridges (b :: R) : list (edge W)).
      eapply acyclic_perm; [apply Permutation_middle|].
      apply acyclic_cons.
      + apply IH; auto. intros; apply HR; simpl in *; auto.
      + unfold esrc, edst; cbn [fst snd]. rewrite bridges_connected.
        intros [H|(r & s & Hr & _ & H & _)].
        * apply HR in H; simpl; auto. subst. simpl in Ha. tauto.
        * apply HR in H; try (simpl in *; tauto). subst. auto.
  Qed.

  Lemma bridges_length (R : list nat) : length (bridges (W := W) R) = length R - 1.
  Proof.
    induction R as [|a [|b R] IH]; auto. 
    change (bridges (a :: b :: R)) with ((a, b, winf) :: bridges (b :: R) : list (edge W)).
    cbn [length] in *. lia.
  Qed.

  Lemma bridges_in (R : list nat) (e : edge W) :
    In e (bridges R) -> In (esrc e) R /\ In (edst e) R /\ ewt e = winf.
  Proof.
    induction R as [|a [|b R] IH]; try (simpl; tauto).
    change (bridges (a :: b :: R)) with ((a, b, winf) :: bridges (b :: R) : list (edge W)).
    intros [<-|H].
    - unfold esrc, edst, ewt; simpl; auto.
    - apply IH in H. simpl in *. tauto.
  Qed.

  Lemma bridge_ok n M labels :
    0 < n -> acyclic M -> in_range n M -> labels_classes n labels (connected M) ->
    exists B, bridge_forest_with_inf M labels = Ok (M ++ B) /\
      spanning_tree n (M ++ B) /\
      Forall (fun e => ewt e = winf /\ smallest_of_component M (esrc e) /\
                       smallest_of_component M (edst e)) B.
  Proof.
    intros Hn HA HR HC.
    pose proof (labels_count n M labels HA HR HC) as Hcnt.
    destruct HC as [HL HC].
    unfold bridge_forest_with_inf.
    assert (Hrange : forall x y, connected M x y -> y < n -> x < n).
    { intros x y H Hy. apply (connected_range n) in H as [->|[? _]]; auto. }
    assert (Hst : forall T : list (edge W), (forall x y, x < n -> y < n -> connected T x y) -> acyclic T -> in_range n T ->
                  S (length T) = n -> spanning_tree n T) by (intros; split; auto).
    destruct (Nat.eqb_spec (length (unique labels)) 1) as [E1|E1].
    - exists []. rewrite app_nil_r. split; auto. split; [|constructor].
      apply Hst; auto; [|lia]. intros x y Hx Hy. apply HC; auto.
      assert (Hx' : In (nth x labels 0) (unique labels)) by (apply unique_in, nth_In; lia).
      assert (Hy' : In (nth y labels 0) (unique labels)) by (apply unique_in, nth_In; lia).
      destruct (unique labels) as [|u [|v l]]; simpl in *; try lia.
    - destruct (mapM_ok (representative labels)
          (fun c r => r < n /\ nth r labels 0 = c /\ forall x, x < n -> nth x labels 0 = c -> r <= x)
          (unique labels)) as (reps & -> & HF).
      { intros c Hc. apply (proj1 (unique_in _ _)) in Hc. apply representative_ok in Hc as (r & H1 & H2 & H3 & H4).
        rewrite HL in *. eauto 6. }
      simpl. set (R := nsort (fun x => x) reps).
      assert (Hreps : forall r, In r reps -> r < n /\ smallest_of_component M r).
      { intros r Hr. assert (exists c, In c (unique labels) /\ r < n /\ nth r labels 0 = c /\
            forall x, x < n -> nth x labels 0 = c -> r <= x) as (c & _ & K1 & K2 & K3).
        { clear -HF Hr. induction HF as [|c r' l l' H HF IH]; [destruct Hr|].
          destruct Hr as [->|Hr]; [exists c; simpl; tauto|].
          destruct (IH Hr) as (c' & ? & ?). exists c'. simpl; tauto. }
        split; auto. intros x Hx. assert (x < n) by eauto. apply K3; auto.
        rewrite <- K2. apply HC; auto. }
      assert (Hall : forall x, x < n -> exists r, In r reps /\ connected M x r).
      { intros x Hx. assert (Hc : In (nth x labels 0) (unique labels)) by (apply unique_in, nth_In; lia).
        assert (exists r, In r reps /\ r < n /\ nth r labels 0 = nth x labels 0) as (r & H1 & H2 & H3).
        { clear -HF Hc. induction HF as [|c r' l l' H HF IH]; [destruct Hc|].
          destruct Hc as [<-|Hc]; [exists r'; simpl; tauto|].
          destruct (IH Hc) as (r & ? & ?). exists r. simpl; tauto. }
        exists r. split; auto. apply HC; auto. }
      assert (HND : NoDup reps).
      { assert (forall l l', Forall2 (fun c r => r < n /\ nth r labels 0 = c /\
            forall x, x < n -> nth x labels 0 = c -> r <= x) l l' -> NoDup l -> NoDup l') as G.
        { clear. induction 1 as [|c r l l' H HF IH]; intro HN; constructor; inversion_clear HN; auto.
          intro Hr. apply H0. destruct H as (_ & <- & _).
          clear -HF Hr. induction HF as [|c' r' l l' H HF IH]; [destruct Hr|].
          destruct Hr as [->|Hr]; [left; symmetry; apply H|right; auto]. }
        eapply G; eauto using unique_NoDup. }
      assert (HRin : forall r, In r R <-> In r reps) by (intro; apply nsort_in).
      assert (HRlen : length R = length (unique labels)).
      { unfold R. rewrite nsort_length. symmetry. eapply Forall2_len; eauto. }
      exists (bridges R). split; auto. split.
      + apply Hst.
        * intros x y Hx Hy. apply bridges_connected. right.
          destruct (Hall x Hx) as (r & Hr & H1). destruct (Hall y Hy) as (s & Hs & H2).
          exists r, s. rewrite !HRin. auto using connected_sym.
        * apply bridges_acyclic; auto.
          -- now apply nsort_NoDup.
          -- intros r s Hr Hs H. apply HRin in Hr, Hs.
             apply Hreps in Hr as [_ Hr]. apply Hreps in Hs as [_ Hs].
             apply Nat.le_antisymm; [apply Hr; now apply connected_sym|now apply Hs].
        * apply in_range_app. split; auto. intros e He. apply bridges_in in He as (K1 & K2 & _).
          apply HRin, Hreps in K1. apply HRin, Hreps in K2. tauto.
        * rewrite app_length, bridges_length. 
          assert (1 <= length (unique labels)).
          { destruct (unique labels) as [|u l] eqn:E; [|simpl; lia]. exfalso.
            assert (In (nth 0 labels 0) (unique labels)) by (apply unique_in, nth_In; lia).
            rewrite E in H. auto. }
          lia.
      + apply Forall_forall. intros e He. apply bridges_in in He as (K1 & K2 & K3).
        apply HRin, Hreps in K1. apply HRin, Hreps in K2. tauto.
  Qed.
End Bridge.

(** ** Unbridging *)
Section Unbridge.
  Context {W : WOrd}.
  Implicit Types E : list (edge W).

  Lemma Root_halve p x : p x <> x ->
    forall k y s, RootN p y s k -> Root (upd p x (p (p x))) y s.
  Proof.
    intros Hx k. induction k as [k IH] using lt_wf_ind. intros y s HN.
    inversion HN as [? E|? ? k' E HN']; subst.
    - apply Root_here. rewrite upd_neq; auto. intros ->. auto.
    - destruct (Nat.eq_dec y x) as [->|Hne].
      + apply Root_back. rewrite upd_eq.
        inversion HN' as [? E'|? ? k'' E' HN'']; subst.
        * rewrite E'. apply Root_here. rewrite upd_neq; auto. 
        * apply (IH k''); auto.
      + apply Root_back. rewrite upd_neq by auto. apply (IH k'); auto.
  Qed.

  Lemma halve_pres n p x : uf_wf n p -> x < n -> p x <> x ->
    let q := upd p x (p (p x)) in
    uf_wf n q /\ (forall y s, y < n -> (Root q y s <-> Root p y s)) /\ nroots n q = nroots n p.
  Proof.
    intros [Hp Hr] Hx Hne q.
    assert (HR : forall y s, Root p y s -> Root q y s).
    { intros y s H. destruct (Root_RootN _ _ _ H) as [k Hk]. eapply Root_halve; eauto. }
    split; [|split].
    - split.
      + intros y Hy. unfold q. destruct (upd_case p x y (p (p x))) as [[-> ->]|[_ ->]]; auto.
      + intros y Hy. destruct (Hr y Hy) as [s Hs]. exists s. auto.
    - apply (Root_pres_iff n); [split; auto|]. auto.
    - unfold nroots. apply countp_ext. intros y Hy. unfold q.
      destruct (upd_case p x y (p (p x))) as [[-> ->]|[_ ->]]; auto.
      destruct (Nat.eqb_spec (p x) x) as [|_]; [tauto|].
      apply Nat.eqb_neq. intro E2.
      destruct (Hr x Hx) as [r HRx]. destruct (Root_RootN _ _ _ HRx) as [k Hk].
      inversion Hk as [? E|? ? k1 _ Hk1]; subst; [tauto|].
      inversion Hk1 as [? E|? ? k2 E' Hk2]; subst; [congruence|].
      rewrite E2 in Hk2. assert (S (S k2) = k2); [|lia].
      eapply RootN_det; eauto.
  Qed.

  Lemma find_halving_ok n k : forall fuel p x r,
    uf_wf n p -> x < n -> RootN p x r k -> k <= fuel ->
    exists q, find_halving fuel p x = Ok (q, r) /\ uf_wf n q /\
      (forall y s, y < n -> (Root q y s <-> Root p y s)) /\ nroots n q = nroots n p.
  Proof.
    induction k as [k IH] using lt_wf_ind. intros fuel p x r Hwf Hx HN Hf.
    inversion HN as [? E|? ? k' E HN']; subst.
    - exists p. destruct fuel; simpl; rewrite E, Nat.eqb_refl; repeat split; auto; apply Hwf.
    - destruct fuel as [|fuel]; [lia|]. simpl. rewrite (proj2 (Nat.eqb_neq _ _) E).
      destruct (halve_pres n p x Hwf Hx E) as (Hwf' & HI & HC).
      rewrite upd_eq.
      assert (Hpx : p x < n) by (now apply Hwf).
      assert (Hppx : p (p x) < n) by (now apply Hwf).
      assert (exists j, j <= k' /\ RootN (upd p x (p (p x))) (p (p x)) r j) as (j & Hj & HNj).
      { (* the new depth is at most the old one *)
        assert (G : forall k y, RootN p y r k -> k < S k' -> RootN (upd p x (p (p x))) y r k).
        { induction k as [|k IHk]; intros y Hy Hlt; inversion Hy as [? E0|? ? k0 E0 Hy0]; subst.
          - apply RootN_here. rewrite upd_neq; auto. intros ->. auto.
          - assert (y <> x).
            { intros ->. assert (S k = S k') by (eapply RootN_det; eauto). lia. }
            apply RootN_up; rewrite upd_neq; auto. apply IHk; auto. lia. }
        inversion HN' as [? E1|? ? k1 E1 HN1]; subst.
        - exists 0. split; [lia|]. rewrite E1 in *. apply G; [|lia]. now constructor.
        - exists k1. split; [lia|]. apply G; auto. }
      destruct (IH j) with (fuel := fuel) (p := upd p x (p (p x))) (x := p (p x)) (r := r)
        as (q & Hq & Hwq & HIq & HCq); auto; try lia.
      exists q. split; auto. split; auto. split.
      + intros y s Hy. rewrite HIq, HI; tauto.
      + congruence.
  Qed.

  Lemma find_halving_ok' n p x :
    uf_wf n p -> x < n ->
    exists q r, find_halving n p x = Ok (q, r) /\ Root p x r /\ r < n /\ uf_wf n q /\
      (forall y s, y < n -> (Root q y s <-> Root p y s)) /\ nroots n q = nroots n p.
  Proof.
    intros Hwf Hx. destruct (proj2 Hwf x Hx) as [r HR]. destruct (Root_RootN _ _ _ HR) as [k Hk].
    assert (k < n) by (apply (RootN_lt n p x r k); auto; apply Hwf).
    destruct (find_halving_ok n k n p x r) as (q & H1 & H2 & H3 & H4); auto; [lia|].
    exists q, r. repeat (split; auto). eapply Root_range; eauto. apply Hwf.
  Qed.

  Lemma unbridge_unions_ok n E : forall p F,
    in_range n E -> uf_wf n p -> classes n p (connected F) ->
    exists q, unbridge_unions n p E = Ok q /\ uf_wf n q /\ classes n q (connected (F ++ E)).
  Proof.
    induction E as [|e E IH]; intros p F HR Hwf Hc; simpl.
    - exists p. rewrite app_nil_r. auto.
    - destruct (HR e) as [Hs Hd]; [simpl; auto|].
      assert (HR' : in_range n E) by (intros f Hf; apply HR; simpl; auto).
      destruct (find_halving_ok' n p (esrc e) Hwf Hs) as (p1 & ru & -> & Hru & Lu & Hw1 & I1 & _). simpl.
      destruct (find_halving_ok' n p1 (edst e) Hw1 Hd) as (p2 & rv & -> & Hrv & Lv & Hw2 & I2 & _). simpl.
      assert (I : forall y s, y < n -> (Root p2 y s <-> Root p y s)).
      { intros. rewrite I2, I1; tauto. }
      assert (Hc2 : classes n p2 (connected F)) by (eapply classes_pres; eauto).
      assert (Ru : Root p2 (esrc e) ru) by (apply I; auto).
      assert (Rv : Root p2 (edst e) rv) by (apply I2; auto).
      replace (F ++ e :: E) with ((F ++ [e]) ++ E) by (now rewrite <- app_assoc).
      destruct (Nat.eqb_spec ru rv) as [<-|Hne].
      + apply IH; auto. intros x y Hx Hy. rewrite (Hc2 x y Hx Hy), connected_snoc.
        assert (K : connected F (esrc e) (edst e)) by (apply Hc2; auto; exists ru; auto).
        split; auto. intros [?|[[H1 H2]|[H1 H2]]]; eauto using connected_trans, connected_sym.
      + destruct (classes_link n p2 F e rv ru) as [Hw3 Hc3]; auto.
  Qed.

  Lemma unbridge_roots_ok n is_ : forall p,
    uf_wf n p -> (forall i, In i is_ -> i < n) ->
    exists rs, unbridge_roots n p is_ = Ok rs /\ Forall2 (Root p) is_ rs.
  Proof.
    induction is_ as [|i is_ IH]; intros p Hwf Hr; simpl; [eexists; eauto|].
    destruct (find_halving_ok' n p i Hwf) as (q & r & -> & HR & _ & Hwq & I & _);
      [apply Hr; simpl; auto|]. simpl.
    destruct (IH q Hwq) as (rs & -> & HF); [intros; apply Hr; simpl; auto|].
    simpl. eexists. split; [reflexivity|]. constructor; auto.
    clear -HF I Hr. assert (forall j, In j is_ -> j < n) as Hr' by (intros; apply Hr; simpl; auto).
    clear Hr. induction HF as [|a b l l' H HF IH]; constructor.
    - apply I; auto. apply Hr'; simpl; auto.
    - apply IH. intros; apply Hr'; simpl; auto.
  Qed.

  Lemma index_of_ok x l : In x l -> index_of x l < length l /\ nth (index_of x l) l 0 = x.
  Proof.
    induction l as [|y l IH]; simpl; [tauto|]. intro H.
    destruct (Nat.eqb_spec x y) as [->|Hne]; [split; auto; lia|].
    destruct H as [->|H]; [tauto|]. destruct (IH H). split; auto. lia.
  Qed.

  Lemma index_of_nth l i : NoDup l -> i < length l -> index_of (nth i l 0) l = i.
  Proof.
    revert i. induction l as [|y l IH]; intros i HN Hi; simpl in *; [lia|].
    inversion_clear HN as [|? ? Hy Hd]. destruct i as [|i]; [now rewrite Nat.eqb_refl|].
    destruct (Nat.eqb_spec (nth i l 0) y) as [E|E].
    - exfalso. apply Hy. rewrite <- E. apply nth_In. lia.
    - f_equal. apply IH; auto. lia.
  Qed.

  Definition finite_part E : list (edge W) := filter (fun e => wfinite (ewt e)) E.

  Lemma unbridge_ok n E :
    in_range n E -> S (length E) = n ->
    exists labels, unbridge_mst E = Ok (finite_part E, labels) /\
      labels_classes n labels (connected (finite_part E)) /\
      (forall c, In c labels <-> c < length (unique labels)).
  Proof.
    intros HR HL. unfold unbridge_mst. replace (length E + 1) with n by lia.
    fold (finite_part E). set (F := finite_part E).
    assert (HF : in_range n F).
    { intros e He. apply filter_In in He as [He _]. auto. }
    destruct (unbridge_unions_ok n F (fun i => i) []) as (p & -> & Hwf & Hc); auto.
    { apply id_wf. }
    { intros x y _ _. rewrite connected_nil. apply same_id. }
    simpl in *.
    destruct (unbridge_roots_ok n (seq 0 n) p Hwf) as (roots & -> & Hroots).
    { intros i Hi. apply in_seq in Hi. lia. }
    simpl. eexists. split; [reflexivity|].
    destruct (Forall2_seq_nth (Root p) n roots 0 Hroots) as [Hlen Hnth].
    set (labels := map (fun r => index_of r (unique roots)) roots).
    assert (Hlab : forall x, x < n -> nth x labels 0 = index_of (nth x roots 0) (unique roots)).
    { intros x Hx. unfold labels.
      rewrite (nth_indep _ 0 (index_of 0 (unique roots))) by (rewrite map_length; lia).
      now rewrite (map_nth (fun r => index_of r (unique roots))). }
    assert (Hin : forall x, x < n -> In (nth x roots 0) (unique roots)).
    { intros x Hx. apply unique_in, nth_In. lia. }
    assert (Hsurj : forall c, In c labels <-> c < length (unique roots)).
    { intro c. unfold labels. rewrite in_map_iff. split.
      - intros (r & <- & Hr). apply index_of_ok, unique_in, Hr.
      - intro H. exists (nth c (unique roots) 0). split.
        + apply index_of_nth; auto using unique_NoDup.
        + apply unique_in, nth_In, H. }
    split; [split|].
    - unfold labels. now rewrite map_length.
    - intros x y Hx Hy. rewrite !Hlab by auto. rewrite <- (Hc x y Hx Hy).
      rewrite (same_roots _ _ _ _ _ (Hnth x Hx) (Hnth y Hy)). split; [|congruence].
      intro E1. destruct (index_of_ok _ _ (Hin x Hx)) as [_ K1].
      destruct (index_of_ok _ _ (Hin y Hy)) as [_ K2]. rewrite <- K1, <- K2. congruence.
    - intro c. rewrite Hsurj.
      assert (length (unique labels) = length (unique roots)) as ->; [|tauto].
      apply Nat.le_antisymm.
      + rewrite <- (seq_length (length (unique roots)) 0). apply NoDup_incl_length; [apply unique_NoDup|].
        intros z Hz. apply unique_in, Hsurj in Hz. apply in_seq. lia.
      + rewrite <- (seq_length (length (unique roots)) 0) at 1.
        apply NoDup_incl_length; [apply seq_NoDup|].
        intros z Hz. apply in_seq in Hz. apply unique_in, Hsurj. lia.
  Qed.
End Unbridge.
