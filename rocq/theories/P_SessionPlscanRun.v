(** The layers that PLSCAN builds from any tree of edges. *)
From Coq Require Import List Arith Lia Bool ZArith QArith Qcanon Permutation.
From Verif Require Import Prelude Order Graph Size Num M_DisjointSet M_Kruskal M_Linkage M_Condense M_Select M_Labels M_Layers S_Layers M_LayerTree M_Plscan S_Plscan M_SessionPlscan S_SessionPlscan P_SessionPlscan P_MaxSize.
Import ListNotations.
Local Open Scope nat_scope.

(** ** Labels *)
Lemma roots_len samples : forall d reps, cut_roots d samples = Ok reps -> length reps = length samples.
Proof.
  induction samples as [|x samples IH]; intros d reps; cbn [cut_roots]; [intros [= <-]; reflexivity|].
  destruct (ds_find d x) as [[d' c]|]; cbn [bind]; [|discriminate]. destruct (cut_roots d' samples) as [rest|] eqn:E; cbn [bind]; [|discriminate].
  intros [= <-]. cbn. f_equal. eauto.
Qed.

Section Vector.
  Context {V : WOrd} (LA : LamArith V).
  Implicit Types T : list (crow V NatSize).

  Lemma label_low T clusters eps root x c l : label_of T clusters eps root x c = Ok l -> (-1 <= l)%Z.
  Proof.
    unfold label_of. assert (G : forall (r : res nat) k, bind r (fun k => Ok (Z.of_nat k)) = Ok k -> (-1 <= k)%Z) by (intros [k'|] k; cbn; [intros [= <-]; lia|discriminate]).
    destruct (c <? root); [intros [= <-]; lia|]. destruct (c =? root); [|apply G].
    destruct (_ =? 1); [|intros [= <-]; lia]. destruct (max_leaving_lambda _ _); cbn [bind]; [|discriminate]. destruct (lambda_of T x); cbn [bind]; [|discriminate].
    destruct eps; (destruct (wle _ _); [apply G|intros [= <-]; lia]).
  Qed.

  Lemma vector_ok T clusters eps n ls : get_cluster_label_vector LA T clusters eps n = Ok ls -> length ls = n /\ forall l, In l ls -> (-1 <= l)%Z.
  Proof.
    assert (G : forall k, length (repeat (-1)%Z k) = k /\ forall l, In l (repeat (-1)%Z k) -> (-1 <= l)%Z).
    { intro k. split; [apply repeat_length|]. intros l Hl. apply repeat_spec in Hl. lia. }
    unfold get_cluster_label_vector. destruct T as [|r T]; [intros [= <-]; apply G|]. destruct clusters as [|c clusters]; [intros [= <-]; apply G|].
    destruct (array_min _) as [root|]; cbn [bind]; [|discriminate]. destruct (array_max _) as [mp|]; cbn [bind]; [|discriminate]. destruct (array_max _) as [mc|]; cbn [bind]; [|discriminate].
    destruct (fold_res _ _ _) as [d|]; cbn [bind]; [|discriminate]. destruct (n <? root) eqn:En; [discriminate|]. apply Nat.ltb_ge in En.
    destruct (cut_roots d (seq 0 root)) as [reps|] eqn:Er; cbn [bind]; [|discriminate]. apply roots_len in Er. rewrite seq_length in Er.
    destruct (map_res _ _) as [labels|] eqn:El; cbn [bind]; [|discriminate]. intros [= <-]. apply map_res_inv in El.
    pose proof (Forall2_same_length _ _ _ El) as Hl. rewrite combine_length, seq_length, Er, Nat.min_id in Hl. split.
    - rewrite app_length, repeat_length, <- Hl. lia.
    - intros l H. apply in_app_or in H as [H|H]; [|eapply G; eauto]. clear - El H. induction El as [|a b la lb H1 HF IH]; [destruct H|].
      destruct H as [->|H]; auto. eapply label_low; eauto.
  Qed.
End Vector.

(** ** The first row of a condensed tree *)
Section First.
  Context {W : WOrd} {V : Type} (L : list (lrow W NatSize)) (lam : W -> V) (m : NatSize).
  Notation np := (length L + 1).
  Notation emit := (emit L (Sz := NatSize) (V := V)).
  Notation eliminate_loop := (eliminate_loop L (Sz := NatSize) (V := V)).
  Notation eliminate_branch := (eliminate_branch L (Sz := NatSize) (V := V)).
  Notation condense_node := (condense_node L lam m None (fun _ => 1)).
  Notation condense_loop := (condense_loop L lam m None (fun _ => 1)).

  Lemma bfs_leaf : forall fuel tp nodes, tp <> [] -> bfs_loop fuel np L tp = Ok nodes -> exists x, In x nodes /\ x < np.
  Proof.
    induction fuel as [|f IH]; intros [|v tp] nodes Hne; try congruence; cbn [bfs_loop]; [discriminate|].
    destruct (bfs_children np L (v :: tp)) as [next|] eqn:En; cbn [bind]; [|discriminate]. destruct (bfs_loop f np L next) as [rest|] eqn:Er; cbn [bind]; [|discriminate]. intros [= <-].
    destruct (lt_dec v np) as [Hv|Hv]; [exists v; split; [now left|auto]|].
    destruct (IH next rest) as (x & Hx & Hlt); auto; [|exists x; split; auto; right; apply in_or_app; auto].
    cbn [bfs_children] in En. destruct (bfs_children np L tp) as [nx|]; cbn [bind] in En; [|discriminate].
    destruct (np <=? v) eqn:E; [|apply Nat.leb_gt in E; lia]. destruct (nth_error L (v - np)); [|discriminate]. injection En as <-. discriminate.
  Qed.

  (** Rows are appended; those of [parent] when [parent] is given. *)
  Definition grows (p : nat) (st st' : cstate V NatSize) : Prop := exists more, k_rows st' = k_rows st ++ more /\ forall r, In r more -> c_parent r = p.

  Lemma grows_refl p st : grows p st st.
  Proof. exists []. rewrite app_nil_r. split; auto. intros r []. Qed.
  Lemma grows_trans p a b c : grows p a b -> grows p b c -> grows p a c.
  Proof.
    intros (m1 & E1 & H1) (m2 & E2 & H2). exists (m1 ++ m2). rewrite E2, E1, app_assoc. split; auto. intros r Hr. apply in_app_or in Hr as [Hr|Hr]; auto.
  Qed.
  Lemma emit_grows st r st' : emit st r = Ok st' -> k_rows st' = k_rows st ++ [r].
  Proof. unfold M_Condense.emit. destruct (_ <=? _); [discriminate|]. intros [= <-]. reflexivity. Qed.
  Lemma emit_grows' st r st' : emit st r = Ok st' -> grows (c_parent r) st st' /\ k_rows st' <> [].
  Proof.
    intro H. apply emit_grows in H. split.
    - exists [r]. split; auto. intros q [<-|[]]. reflexivity.
    - rewrite H. intro E. apply app_eq_nil in E as [_ E]. discriminate.
  Qed.
  Lemma grows_ne p st st' : grows p st st' -> k_rows st <> [] -> k_rows st' <> [].
  Proof. intros (more & -> & _) H E. apply app_eq_nil in E as [E _]. auto. Qed.

  Lemma loop_grows p l : forall nodes st st', eliminate_loop nodes p l st = Ok st' -> grows p st st' /\ ((exists x, In x nodes /\ x < np) -> k_rows st' <> []).
  Proof.
    induction nodes as [|v nodes IH]; intros st st'; cbn [M_Condense.eliminate_loop].
    - intros [= <-]. split; [apply grows_refl|]. intros (x & [] & _).
    - destruct (v <? np) eqn:Ev; cbn [bind].
      + destruct (emit st (point_row p v l)) as [st1|] eqn:Ee; cbn [bind]; [|discriminate]. intro H. apply IH in H as [H1 H2]. destruct (emit_grows' _ _ _ Ee) as [H3 H4]. cbn in H3.
        split; [eapply grows_trans; eauto|]. intros _. eapply grows_ne; eauto.
      + intro H. apply IH in H as [H1 H2]. split; [exact H1|]. intros (x & [<-|Hx] & Hlt); [apply Nat.ltb_ge in Ev; lia|apply H2; eauto].
  Qed.
  Lemma branch_grows b p l st st' : eliminate_branch b p l st = Ok st' -> grows p st st' /\ k_rows st' <> [].
  Proof.
    unfold M_Condense.eliminate_branch. destruct (b <? np); [apply emit_grows'|]. unfold bfs_from_hierarchy. destruct (bfs_loop _ _ _ _) as [nodes|] eqn:E; cbn [bind]; [|discriminate].
    intro H. apply loop_grows in H as [H1 H2]. split; auto. apply H2. eapply bfs_leaf; [|exact E]. discriminate.
  Qed.
  Lemma new_grows v p l c st st' : new_cluster L v p l c st = Ok st' -> grows p st st' /\ k_rows st' <> [].
  Proof.
    unfold new_cluster. destruct (M_Condense.emit _ _ _) as [st1|] eqn:E; cbn [bind]; [|discriminate]. intros [= <-]. apply emit_grows' in E. exact E.
  Qed.

  Lemma node_grows v st st' : condense_node v st = Ok st' -> grows (k_relabel st v) st st' /\ (k_ignore st v = false -> np <= v -> k_rows st' <> []).
  Proof.
    unfold M_Condense.condense_node. destruct (k_ignore st v) eqn:EI; cbn [orb]; [intros [= <-]; split; [apply grows_refl|discriminate]|].
    destruct (v <? np) eqn:Ev; [intros [= <-]; split; [apply grows_refl|apply Nat.ltb_lt in Ev; lia]|].
    destruct (nth_error L (v - np)) as [r|]; [|discriminate]. destruct (node_count _ _ (l_a r)) as [ca|]; cbn [bind]; [|discriminate]. destruct (node_count _ _ (l_b r)) as [cb|]; cbn [bind]; [|discriminate].
    cbn [above_max andb]. set (p := k_relabel st v).
    destruct (_ && _); [intro H; apply emit_grows' in H as [H1 H2]; cbn in H1; auto|].
    destruct (_ && _); [intro H; apply branch_grows in H as [H1 H2]; auto|].
    destruct (_ && _); [intro H; apply branch_grows in H as [H1 H2]; auto|].
    destruct (_ && _).
    - destruct (M_Condense.eliminate_branch _ _ _ _ st) as [st1|] eqn:E; cbn [bind]; [|discriminate]. intro H. apply branch_grows in H as [H1 H2]. apply branch_grows in E as [H3 H4].
      split; [eapply grows_trans; eauto|auto].
    - destruct (new_cluster _ _ _ _ _ st) as [st1|] eqn:E; cbn [bind]; [|discriminate]. intro H. apply new_grows in H as [H1 H2]. apply new_grows in E as [H3 H4].
      split; [eapply grows_trans; eauto|auto].
  Qed.
  Lemma nodes_grow : forall nodes st st', condense_loop nodes st = Ok st' -> exists more, k_rows st' = k_rows st ++ more.
  Proof.
    induction nodes as [|v nodes IH]; intros st st'; cbn [M_Condense.condense_loop]; [intros [= <-]; exists []; now rewrite app_nil_r|].
    destruct (condense_node v st) as [st1|] eqn:E; cbn [bind]; [|discriminate]. intro H. apply IH in H as (m2 & ->). apply node_grows in E as [(m1 & -> & _) _]. exists (m1 ++ m2). now rewrite app_assoc.
  Qed.

  Lemma first_row_parent' r T : 1 <= length L -> condense_tree L lam m None (fun _ => 1) = Ok (r :: T) -> c_parent r = np.
  Proof.
    intro HL. unfold condense_tree, bfs_from_hierarchy. set (root := 2 * length L).
    replace (root + 1) with (S root) by lia. cbn [bfs_loop]. destruct (bfs_children np L [root]) as [next|]; cbn [bind]; [|discriminate].
    destruct (bfs_loop root np L next) as [rest|]; cbn [bind app]; [|discriminate]. cbn [M_Condense.condense_loop].
    set (st0 := {| k_relabel := _; k_ignore := _; k_rows := _; k_next := _ |}).
    destruct (condense_node root st0) as [st1|] eqn:E; cbn [bind]; [|discriminate]. destruct (condense_loop rest st1) as [st2|] eqn:E2; cbn [bind]; [|discriminate]. intros [= H].
    apply node_grows in E as [(m1 & E1 & Hp) Hne]. apply nodes_grow in E2 as (m2 & E2).
    assert (Hr : k_relabel st0 root = np) by (cbn; unfold upd; now rewrite Nat.eqb_refl). rewrite Hr in Hp. cbn [k_rows st0 app] in E1.
    cbn [k_ignore st0] in Hne. specialize (Hne eq_refl ltac:(unfold root; lia)). pose proof (eq_trans (eq_sym H) E2) as E3. clear E2. rewrite E1 in E3. destruct m1 as [|q m1]; [congruence|].
    injection E3 as <- _. apply Hp. now left.
  Qed.
End First.

Lemma first_row_parent {W V : WOrd} (L : list (lrow W NatSize)) (lam : W -> V) (m : nat) r T :
  condense_tree L lam (m : NatSize) None (fun _ => 1) = Ok (r :: T) -> c_parent r = length L + 1.
Proof. destruct L as [|l L]; [discriminate|]. apply first_row_parent'. cbn. lia. Qed.

(** ** Layers *)
Definition sound {V P : WOrd} (n : nat) (y : layer V P) : Prop := length (y_labels y) = n /\ forall l, In l (y_labels y) -> (-1 <= l)%Z.

Section Layers.
  Context {W V P : WOrd} {D : Type}.
  Variables (search_lam lam : W -> V) (LA : LamArith V) (death_of : V -> D) (dzero : D) (garbage : nat -> nat) (garbage_lambda : nat -> D).
  Variables (pzero : P) (accumulate : P -> nat -> nat -> D -> P) (argsort : list P -> list nat) (argsort_counts : list Z -> list nat).
  Hypothesis HsortZ : argsorts_Z argsort_counts.
  Variables (L : list (lrow W NatSize)) (n : nat).
  Hypothesis HL : length L + 1 = n.

  Lemma clusters_sound size r : clusters_at search_lam LA L n size = Ok r -> length (snd (fst r)) = n /\ forall l, In l (snd (fst r)) -> (-1 <= l)%Z.
  Proof.
    unfold clusters_at. destruct (condensed_at _ _ _) as [T|]; cbn [bind]; [|discriminate]. destruct (extract_leaves T) as [ls|]; cbn [bind]; [|discriminate].
    destruct (get_cluster_label_vector _ _ _ _ _) as [l|] eqn:E; cbn [bind]; [|discriminate]. destruct (get_point_membership_strength_vector _ _ _ _) as [s|]; cbn [bind]; [|discriminate].
    intros [= <-]. cbn. eapply vector_ok; eauto.
  Qed.

  Lemma search_sound k r : binary_search_for_n_clusters search_lam LA L n k = Ok r -> length (snd (fst r)) = n /\ forall l, In l (snd (fst r)) -> (-1 <= l)%Z.
  Proof.
    unfold binary_search_for_n_clusters. destruct (search_loop _ _ _ _ _ _) as [[lo up]|]; cbn [bind]; [|discriminate]. destruct (leaves_at _ _ up) as [ul|]; cbn [bind]; [|discriminate].
    destruct (leaves_at _ _ lo) as [ll|]; cbn [bind]; [|discriminate]. destruct (_ <? _); [apply clusters_sound|]. destruct (_ <? _); [apply clusters_sound|].
    destruct (clusters_at _ _ _ _ lo) as [l|] eqn:El; cbn [bind]; [|discriminate]. destruct (clusters_at _ _ _ _ up) as [u|] eqn:Eu; cbn [bind]; [|discriminate].
    destruct (_ <? _); intros [= <-]; eapply clusters_sound; eauto.
  Qed.

  Lemma base_sound bm bn m T ls ss : base_layer search_lam lam LA L n bm bn = Ok (m, T, (ls, ss)) ->
    (length ls = n /\ forall l, In l ls -> (-1 <= l)%Z) /\ condense_tree L lam (m : NatSize) None (fun _ => 1) = Ok T.
  Proof.
    unfold base_layer. destruct bn as [k|].
    - destruct (binary_search_for_n_clusters _ _ _ _ _) as [r|] eqn:Er; cbn [bind]; [|discriminate].
      destruct (match filter _ _ with [] => _ | _ => _ end) as [mm|]; cbn [bind]; [|discriminate].
      destruct (condense_tree L lam mm None _) as [T'|] eqn:ET; cbn [bind]; [|discriminate]. intros [= <- <- <- <-]. split; [eapply search_sound; eauto|exact ET].
    - destruct (condense_tree L lam bm None _) as [T'|] eqn:ET; cbn [bind]; [|discriminate]. destruct (extract_leaves T') as [lv|]; cbn [bind]; [|discriminate].
      destruct (get_cluster_label_vector _ _ _ _ _) as [l|] eqn:E; cbn [bind]; [|discriminate]. destruct (get_point_membership_strength_vector _ _ _ _) as [s|]; cbn [bind]; [|discriminate].
      intros [= <- <- <- <-]. split; [eapply vector_ok; eauto|exact ET].
  Qed.

  Lemma layers_sound bm bn t mx ys : layers_from_linkage_tree search_lam lam LA death_of dzero garbage garbage_lambda pzero accumulate argsort argsort_counts L n bm bn t mx = Ok ys ->
    ys <> [] /\ 0 < n /\ forall y, In y ys -> sound n y.
  Proof.
    unfold layers_from_linkage_tree. destruct (base_layer _ _ _ _ _ _ _) as [[[m T] [ls ss]]|] eqn:EB; cbn [bind]; [|discriminate].
    destruct (base_sound _ _ _ _ _ _ EB) as [Hb HT]. set (first := {| y_labels := ls; y_strengths := ss; y_persistence := pzero |}).
    assert (Hf : sound n first) by exact Hb.
    destruct (match filter _ _ with [] => _ | _ => _ end) as [layers|] eqn:EL; cbn [bind]; [|discriminate].
    assert (HA : (exists more, layers = first :: more) /\ forall y, In y layers -> sound n y).
    { destruct (filter (fun r => n <=? c_child r) T) as [|q CT]; [injection EL as <-; split; [eauto|intros y [<-|[]]; exact Hf]|].
      destruct (min_cluster_size_barcode _ _ _ _ _ _ _) as [b|]; cbn [bind] in EL; [|discriminate]. destruct (compute_total_persistence _ _ _) as [sizes total].
      destruct (find_peaks total) as [peaks|]; cbn [bind] in EL; [|discriminate]. destruct (map_res _ _) as [more|] eqn:EM; cbn [bind] in EL; [|discriminate]. injection EL as <-.
      split; [eauto|]. intros y [<-|Hy]; [exact Hf|]. apply map_res_inv in EM. clear - EM Hy HT HL. induction EM as [|a y' l1 l2 H HF IH]; [destruct Hy|]. destruct Hy as [->|Hy]; auto.
      unfold extract_clusters_by_id in H. destruct T as [|r T]; [discriminate|]. destruct (get_cluster_label_vector _ _ _ _ _) as [l|] eqn:E; cbn [bind] in H; [|discriminate].
      destruct (get_point_membership_strength_vector _ _ _ _) as [s|]; cbn [bind] in H; [|discriminate]. injection H as <-. unfold sound. cbn [y_labels fst].
      rewrite <- HL, <- (first_row_parent L lam m r T HT). eapply vector_ok; eauto. }
    destruct HA as [(more & Em) HA]. destruct (map_res _ layers) as [counts|] eqn:EC; cbn [bind]; [|discriminate]. intros [= <-]. apply map_res_inv in EC.
    pose proof (Forall2_same_length _ _ _ EC) as Hlen. destruct (HsortZ counts) as [HP _]. split; [|split].
    - intro E. apply map_eq_nil in E. apply (f_equal (@length nat)) in E. rewrite rev_length, (Permutation_length HP), seq_length, <- Hlen, Em in E. discriminate.
    - lia.
    - intros y Hy. apply in_map_iff in Hy as (i & <- & _). destruct (nth_in_or_default i layers first) as [H| ->]; auto.
  Qed.
End Layers.

Lemma linkage_loop_length {W : WOrd} (M : list (edge W)) : forall (lm : linkage_merge NatSize) L, linkage_loop lm M = Ok L -> length L = length M.
Proof.
  induction M as [|e M IH]; intros lm L; cbn [linkage_loop]; [intros [= <-]; reflexivity|]. destruct (linkage_step lm e) as [[lm' r]|]; cbn [bind]; [|discriminate].
  destruct (linkage_loop lm' M) as [rows|] eqn:E; cbn [bind]; [|discriminate]. intros [= <-]. cbn. f_equal. eauto.
Qed.

Lemma normalised_length core M : length (normalised_edges core M) = length M.
Proof. unfold normalised_edges. destruct (finite_values core); auto. destruct (Qcleb _ _); auto. apply map_length. Qed.

(** The run of an object: a spanning tree by any algorithm, then the layers. *)
Lemma plscan_proper {A I E : Type} {V P : WOrd} {D : Type} (search_lam lam : QInf -> V) (LA : LamArith V) (death_of : V -> D) (dzero : D) (garbage : nat -> nat) (garbage_lambda : nat -> D)
    (pzero : P) (accumulate : P -> nat -> nat -> D -> P) (argsort : list P -> list nat) (argsort_counts : list Z -> list nat) (sort_edges : list (edge QInf) -> list (edge QInf))
    (samples : I -> nat) (mst_of : A -> I -> res (list (edge QInf) * list QInf)) (base_m : A -> nat) (base_n : A -> option nat) (threshold : A -> Q) (max_layers : A -> nat) (extra : A -> I -> E) :
  argsorts_Z argsort_counts -> sorts_edges (W := QInf) sort_edges ->
  (forall a x M core, mst_of a x = Ok (M, core) -> length M + 1 = samples x) ->
  proper_layers (fun a x => let* (M, core) := mst_of a x in
    let* ys := build_cluster_layers search_lam lam LA death_of dzero garbage garbage_lambda pzero accumulate argsort argsort_counts sort_edges
      (samples x) (base_m a) (base_n a) (threshold a) (max_layers a) M core in Ok (ys, extra a x)) samples.
Proof.
  intros HZ HE HM a x ys e. destruct (mst_of a x) as [[M core]|] eqn:EM; cbn [bind]; [|discriminate]. specialize (HM _ _ _ _ EM).
  unfold build_cluster_layers. destruct (mst_to_linkage_tree _) as [L|] eqn:EL; cbn [bind]; [|discriminate].
  destruct (layers_from_linkage_tree _ _ _ _ _ _ _ _ _ _ _ _ _ _ _ _ _) as [ys'|] eqn:EY; cbn [bind]; [|discriminate]. intros [= <- <-].
  eapply layers_sound in EY; eauto. apply linkage_loop_length in EL. rewrite EL, (Permutation_length (proj1 (HE _))), normalised_length. exact HM.
Qed.
