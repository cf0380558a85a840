(** Semi-supervised selection. *)
From Coq Require Import List Arith Lia Bool ZArith QArith Qcanon Permutation.
From Verif Require Import Prelude Order Size Num Forest RForest M_Linkage M_Condense S_Condense M_Select S_Select M_Pipeline S_BCubed M_BCubed
  P_CTree P_Below P_Cut P_Eom P_EomTop P_SelectTop P_BCElements P_BCScore P_BCRec.
Import ListNotations.
Local Open Scope nat_scope.

Lemma filter_le {X} (p q : X -> bool) l : (forall x, In x l -> p x = true -> q x = true) -> length (filter p l) <= length (filter q l).
Proof.
  induction l as [|x l IH]; intro H; simpl; auto. specialize (IH (fun y Hy => H y (or_intror Hy))). pose proof (H x (or_introl eq_refl)).
  destruct (p x); [rewrite H0 by auto; simpl; lia|]. destruct (q x); simpl; lia.
Qed.
Lemma filter_lt {X} (p q : X -> bool) l y : (forall x, In x l -> p x = true -> q x = true) -> In y l -> p y = false -> q y = true ->
  length (filter p l) < length (filter q l).
Proof.
  induction l as [|x l IH]; intros H Hy Hp Hq; [destruct Hy|]. pose proof (filter_le p q l (fun y Hy => H y (or_intror Hy))) as Hle.
  simpl. destruct Hy as [->|Hy].
  - rewrite Hp, Hq. simpl. lia.
  - specialize (IH (fun y Hy => H y (or_intror Hy)) Hy Hp Hq). pose proof (H x (or_introl eq_refl)) as Hx.
    destruct (p x); [rewrite Hx by auto; simpl; lia|]. destruct (q x); simpl; lia.
Qed.
Lemma NoDup_map_on {X Y} (f : X -> Y) l : NoDup l -> (forall x y, In x l -> In y l -> f x = f y -> x = y) -> NoDup (map f l).
Proof.
  induction 1 as [|x l Hx HN IH]; intro H; simpl; constructor.
  - intro Hi. apply in_map_iff in Hi as (y & E & Hy). apply Hx. rewrite (H x y); simpl; auto.
  - apply IH. intros; apply H; simpl; auto.
Qed.

Section Top.
  Context {V : WOrd} {Sz : SOrd}.
  Variables (n : nat) (wt : nat -> Sz) (mcs : Sz) (T : list (crow V Sz)) (labels : list Z) (listed : list nat -> list nat) (virtual : bool).
  Hypothesis HT : condensed n wt mcs T.
  Hypothesis Hlisted : forall l, Permutation (listed l) l.
  Hypothesis Hm : slt sone mcs = true.
  Hypothesis H01 : sle (s := Sz) szero sone = true.
  Hypothesis Hn : 0 < n.
  Hypothesis Hlen : length labels = n.
  Notation CT := (cluster_rows n T).
  Notation LI := (label_indices_of labels).
  Notation top := (top_id n T).
  Notation sb := (sub (children_of CT) top).

  Lemma has_rows r : In r T -> n <= c_child r -> exists q, In q T /\ c_parent q = c_child r.
  Proof.
    intros Hr Hc. assert (Hic : is_cluster n T (c_child r)).
    { apply (is_cluster_iff _ _ _ _ HT). pose proof (ct_child_in _ _ _ _ HT r (in_ct n T r Hr Hc)). lia. }
    destruct (existsb (fun q => (n <=? c_child q) && (c_parent q =? c_child r)) T) eqn:E.
    - apply existsb_exists in E as (q & Hq & E). apply andb_true_iff in E as [_ E]. apply Nat.eqb_eq in E. eauto.
    - apply (leaf_has_samples n wt mcs T HT (c_child r) H01 Hm); auto. split; auto. intros q Hq Hqc Ep.
      assert (existsb (fun q => (n <=? c_child q) && (c_parent q =? c_child r)) T = true); [|congruence].
      apply existsb_exists. exists q. split; auto. apply andb_true_iff. split; [now apply Nat.leb_le|now apply Nat.eqb_eq].
  Qed.

  (** ** The tree with virtual nodes *)
  Definition vrow (r : crow V Sz) : bool := has_key LI (c_child r) && member (c_parent r) (map c_parent CT).
  Definition ctb : list (crow V Sz) := filter (fun r => (n <=? c_child r) || (virtual && vrow r)) T.
  Lemma ctb_eq : (if virtual then cluster_tree_from_condensed_tree_bcubed T CT LI else CT) = ctb.
  Proof.
    unfold ctb. destruct virtual; cbn [andb].
    - unfold cluster_tree_from_condensed_tree_bcubed. apply filter_ext_in. intros r Hr. rewrite (row_kind n wt mcs T HT Hm r Hr).
      unfold vrow. destruct (Nat.leb_spec n (c_child r)) as [H|H]; auto. rewrite (ct_sample_size _ _ _ _ HT r Hr H), sle_refl. auto.
    - unfold cluster_rows. apply filter_ext. intro r. now rewrite orb_false_r.
  Qed.

  Definition noise (x : nat) : Prop := virtual = true /\ noise_sample n T labels x.
  Lemma ctb_in r : In r ctb <-> In r CT \/ (In r T /\ c_child r < n /\ noise (c_child r)).
  Proof.
    unfold ctb. rewrite filter_In. split.
    - intros [Hr H]. destruct (Nat.le_gt_cases n (c_child r)) as [Hc|Hc]; [left; now apply in_ct|right].
      rewrite (proj2 (Nat.leb_gt _ _) Hc) in H. cbn [orb] in H. apply andb_true_iff in H as [Hv H]. unfold vrow in H.
      apply andb_true_iff in H as [H1 H2]. apply has_label in H1. apply member_iff, in_map_iff in H2 as (q & Eq & Hq).
      split; auto. split; auto. split; auto. split; auto. split; auto. exists r, q. split; auto. split; auto.
      split; [now apply (ct_in n T)|]. split; auto. apply filter_In in Hq as [_ Hq]. now apply Nat.leb_le.
    - intros [H|(Hr & Hc & Hv & Hl & _ & r' & q & Hr' & Er & Hq & Hqc & Eq)].
      + apply filter_In in H as [Hr H]. split; auto. now rewrite H.
      + split; auto. apply orb_true_iff. right. rewrite Hv. cbn [andb]. unfold vrow. apply andb_true_iff. split; [now apply has_label|].
        apply member_iff. assert (r = r') as -> by (apply (row_eq n wt mcs T HT); auto). rewrite <- Eq. apply in_map. now apply in_ct.
  Qed.
  Lemma ctb_T r : In r ctb -> In r T.
  Proof. intro H. apply filter_In in H. tauto. Qed.

  Notation chb := (children_of ctb).
  Definition rk (v : nat) : nat := if v <? n then top else v.
  Definition MM : nat := n + 1 + length ctb.
  Lemma rk_cluster v : n <= v -> rk v = v.
  Proof. intro H. unfold rk. now rewrite (proj2 (Nat.ltb_ge _ _) H). Qed.
  Lemma rk_sample v : v < n -> rk v = top.
  Proof. intro H. unfold rk. now rewrite (proj2 (Nat.ltb_lt _ _) H). Qed.

  Lemma chb_in v w : In w (chb v) <-> exists r, In r ctb /\ c_parent r = v /\ c_child r = w.
  Proof.
    unfold children_of. rewrite in_map_iff. split.
    - intros (r & E & H). apply filter_In in H as [H E']. apply Nat.eqb_eq in E'. eauto.
    - intros (r & H & E1 & E2). exists r. split; auto. apply filter_In. split; auto. now apply Nat.eqb_eq.
  Qed.
  Lemma top_MM : top <= MM.
  Proof. unfold top_id, MM. enough (length CT <= length ctb) by lia. apply filter_le. intros r _ H. now rewrite H. Qed.
  Lemma chb_up v w : In w (chb v) -> rk v < rk w.
  Proof.
    rewrite chb_in. intros (r & Hr & <- & <-). pose proof (parent_ge _ _ _ _ HT r (ctb_T r Hr)) as Hp. rewrite (rk_cluster (c_parent r)) by lia.
    apply ctb_in in Hr as [Hr|(Hr & Hc & _)].
    - pose proof (parent_lt_child _ _ _ _ HT r Hr). rewrite rk_cluster; lia.
    - rewrite rk_sample; auto. lia.
  Qed.
  Lemma chb_bound v w : In w (chb v) -> rk w < MM.
  Proof.
    rewrite chb_in. intros (r & Hr & <- & <-). pose proof top_MM. destruct (Nat.le_gt_cases n (c_child r)) as [Hc|Hc].
    - rewrite rk_cluster by auto. pose proof (ct_child_in _ _ _ _ HT r (in_ct n T r (ctb_T r Hr) Hc)). lia.
    - rewrite rk_sample by auto. unfold top_id, MM. enough (length CT < length ctb) by lia. pose proof Hr as Hr0. unfold ctb in Hr0. apply filter_In in Hr0 as [HrT Hb].
      apply (filter_lt _ _ _ r); auto; [intros q _ Hq; now rewrite Hq|]. now apply Nat.leb_gt.
  Qed.
  Lemma chb_one v v' w : In w (chb v) -> In w (chb v') -> v = v'.
  Proof.
    rewrite !chb_in. intros (r & Hr & <- & E) (q & Hq & <- & E'). f_equal. apply (row_eq n wt mcs T HT); [now apply ctb_T|now apply ctb_T|congruence].
  Qed.
  Lemma chb_nodup v : NoDup (chb v).
  Proof.
    unfold children_of. apply NoDup_map_on; [do 2 apply NoDup_filter; apply (T_NoDup n wt mcs T HT)|].
    intros x y Hx Hy E. apply filter_In in Hx as [Hx _], Hy as [Hy _]. apply (row_eq n wt mcs T HT); auto; now apply ctb_T.
  Qed.
  Notation rsb := (rsub chb rk MM).


  Lemma rsb_sample x : x < n -> rsb x = [x].
  Proof.
    intro Hx. rewrite (rsub_eq chb rk MM chb_up chb_bound). destruct (chb x) as [|w l] eqn:E; auto. exfalso.
    assert (Hw : In w (chb x)) by (rewrite E; simpl; auto). apply chb_in in Hw as (r & Hr & Ep & _).
    pose proof (parent_ge _ _ _ _ HT r (ctb_T r Hr)). lia.
  Qed.

  Lemma rsb_cluster c d : n <= c -> n <= d -> (In d (rsb c) <-> In d (sb c)).
  Proof.
    pose proof (ct_up _ _ _ _ HT) as Hup. pose proof (ct_bound _ _ _ _ HT) as Hbd.
    intros Hc Hd. split.
    - revert Hc. induction c as [c IH] using (rsub_ind chb rk MM chb_up chb_bound). intros Hc H.
      apply (rsub_inv chb rk MM chb_up chb_bound) in H as [->|(u & Hu & H)]; [now apply sub_self|].
      pose proof Hu as Hu'. apply chb_in in Hu as (r & Hr & <- & <-). apply ctb_in in Hr as [Hr|(Hr & Hlt & _)].
      + apply (sub_child _ _ Hup Hbd _ (c_child r)); [apply ch_in; exists r; auto|]. apply IH; auto.
        pose proof (ct_child_in _ _ _ _ HT r Hr). lia.
      + rewrite rsb_sample in H by auto. destruct H as [<-|[]]. lia.
    - revert Hc. induction c as [c IH] using (sub_ind _ _ Hup Hbd). intros Hc H.
      apply (sub_inv _ _ Hup Hbd) in H as [->|(u & Hu & H)]; [now apply (rsub_self chb rk MM chb_up chb_bound)|].
      pose proof Hu as Hu'. apply ch_in in Hu as (r & Hr & <- & <-).
      apply (rsub_child chb rk MM chb_up chb_bound _ (c_child r)); [apply chb_in; exists r; split; auto; apply ctb_in; auto|]. apply IH; auto.
      pose proof (ct_child_in _ _ _ _ HT r Hr). lia.
  Qed.

  Lemma rsb_noise c x : n <= c -> x < n -> (In x (rsb c) <-> noise x /\ below n T c x).
  Proof.
    intros Hc Hx. split.
    - intro H. destruct (rsub_up chb rk MM chb_up chb_bound c x H ltac:(lia)) as (p & Hp & Hpc).
      apply chb_in in Hp as (r & Hr & Ep & Ex). pose proof (ctb_T r Hr) as HrT. pose proof (parent_ge _ _ _ _ HT r HrT) as Hpg. apply ctb_in in Hr as [Hr|(_ & _ & Hno)].
      + pose proof (ct_child_in _ _ _ _ HT r Hr). lia.
      + rewrite Ex in Hno. split; auto. apply (below_unique_parent n wt mcs T HT c x r); auto. rewrite Ep in *. apply rsb_cluster; auto. lia.
    - intros [Hno Hb]. destruct (proj1 (below_sub n wt mcs T HT c x) Hb) as (r & Hr & Ex & _ & Hs).
      pose proof (parent_ge _ _ _ _ HT r Hr). apply (rsub_trans chb rk MM chb_up chb_bound c (c_parent r)); [apply rsb_cluster; auto; lia|].
      apply (rsub_child chb rk MM chb_up chb_bound _ x); [|apply (rsub_self chb rk MM chb_up chb_bound)].
      apply chb_in. exists r. split; auto. apply ctb_in. right. rewrite Ex. auto.
  Qed.

  Lemma noise_lt x : noise x -> x < n.
  Proof. intros (_ & _ & H & _). auto. Qed.

  Lemma rsb_root k : In k (rsb n) <-> (n <= k < top) \/ noise k.
  Proof.
    destruct (Nat.le_gt_cases n k) as [H|H].
    - rewrite rsb_cluster by auto. rewrite (sub_clusters n wt mcs T HT) by auto. split; auto. intros [|Hk]; auto. apply noise_lt in Hk. lia.
    - rewrite rsb_noise by auto. rewrite (below_root n wt mcs T HT). split; [tauto|]. intros [|]; [lia|auto].
  Qed.

  (** ** Virtual nodes and dictionaries *)
  Definition VN : list nat := if virtual then virtual_nodes_of listed CT ctb else [].
  Lemma VN_in x : In x VN <-> noise x.
  Proof.
    unfold VN. destruct virtual eqn:Ev.
    - unfold virtual_nodes_of. rewrite (Permutation_in' eq_refl (Hlisted _)), filter_In, P_Sort.unique_in, negb_true_iff, member_not, in_map_iff. split.
      + intros [(r & <- & Hr) Hno]. apply ctb_in in Hr as [Hr|(_ & _ & H)]; auto. exfalso. apply Hno. now apply in_map.
      + intro Hno. pose proof (noise_lt x Hno) as Hx. destruct (sample_row n wt mcs T HT x Hx) as (r & Hr & Ex). split.
        * exists r. split; auto. apply ctb_in. right. rewrite Ex. auto.
        * intro H. apply in_map_iff in H as (q & Eq & Hq). pose proof (ct_child_in _ _ _ _ HT q Hq). lia.
    - split; [intros []|]. intros [H _]. congruence.
  Qed.
  Lemma VN_NoDup : NoDup VN.
  Proof.
    unfold VN. destruct virtual; [|constructor]. unfold virtual_nodes_of. apply (Permutation_NoDup (Permutation_sym (Hlisted _))).
    apply NoDup_filter, P_Sort.unique_NoDup.
  Qed.

  Lemma set_all {X} (f : nat -> X) l : forall d, NoDup l -> (forall x, In x l -> ~ In x (map fst d)) ->
    map fst (fold_left (fun d x => dict_set d x (f x)) l d) = map fst d ++ l /\
    (forall k, dict_get (fold_left (fun d x => dict_set d x (f x)) l d) k = if memb l k then Ok (f k) else dict_get d k).
  Proof.
    induction l as [|x l IH]; intros d HN Hd; cbn [fold_left].
    - rewrite app_nil_r. split; auto.
    - inversion_clear HN as [|? ? Hx HN']. assert (Hxd := Hd x (or_introl eq_refl)).
      destruct (IH (dict_set d x (f x))) as [I1 I2]; auto.
      { intros y Hy. rewrite dict_set_new by auto. rewrite map_app, in_app_iff. intros [H|[H|[]]].
        - apply (Hd y); simpl; auto.
        - cbn [fst] in H. subst. contradiction. }
      split.
      + rewrite I1, dict_set_new by auto. rewrite map_app. cbn [map fst]. now rewrite <- app_assoc.
      + intro k. rewrite I2, dict_get_set. destruct (memb l k) eqn:E.
        * apply memb_true in E. rewrite (proj2 (memb_true (x :: l) k)); simpl; auto.
        * apply memb_false in E. destruct (Nat.eqb_spec k x) as [->|Hne].
          -- rewrite (proj2 (memb_true (x :: l) x)); simpl; auto.
          -- rewrite (proj2 (memb_false (x :: l) k)); auto. simpl. intros [H|H]; congruence.
  Qed.

  (** The labelled points of a node. *)
  Definition points_of (k : nat) (pts : list nat) : Prop :=
    NoDup pts /\ forall x, In x pts <-> labelled labels x /\ (if k <? n then x = k else below n T k x).

  Lemma cluster_elements_ok : exists d, condensed_tree_elements listed T LI = Ok d /\
    NoDup (map fst (add_virtual_nodes VN d)) /\
    (forall k, In k (map fst (add_virtual_nodes VN d)) <-> In k (rsb n)) /\
    (forall k l, dict_get (add_virtual_nodes VN d) k = Ok l -> points_of k l).
  Proof.
    destruct (elements_ok n wt mcs T labels listed HT Hlisted has_rows Hn) as (d & Ed & HN & Hk & Hv). exists d. split; auto.
    assert (Hdis : forall x, In x VN -> ~ In x (map fst d)).
    { intros x Hx Hi. apply VN_in, noise_lt in Hx. apply Hk, (is_cluster_iff _ _ _ _ HT) in Hi. lia. }
    unfold add_virtual_nodes. destruct (set_all (fun x => [x]) VN d VN_NoDup Hdis) as [E1 E2]. rewrite E1. split; [|split].
    - apply NoDup_app_intro'; auto; [apply VN_NoDup|]. intros x H1 H2. apply (Hdis x); auto.
    - intro k. rewrite in_app_iff, Hk, VN_in, rsb_root, (is_cluster_iff _ _ _ _ HT). tauto.
    - intros k l. rewrite E2. destruct (memb VN k) eqn:Em; intro E.
      + injection E as <-. apply memb_true, VN_in in Em. pose proof (noise_lt k Em) as Hlt. split; [repeat constructor; simpl; tauto|].
        intro x. rewrite (proj2 (Nat.ltb_lt _ _) Hlt). simpl. split; [intros [<-|[]]; split; auto; apply Em|]. intros [_ ->]. auto.
      + destruct (Hv k l E) as [HNl Hl]. split; auto. assert (Hkn : n <= k).
        { apply dict_get_found in E. assert (Hi : In k (map fst d)) by (apply in_map_iff; exists (k, l); auto).
          apply Hk, (is_cluster_iff _ _ _ _ HT) in Hi. lia. }
        rewrite (proj2 (Nat.ltb_ge _ _) Hkn). auto.
  Qed.

  Lemma stability_ok (A : Arith V Sz) : exists d, score_condensed_tree_nodes A T = Ok d /\
    (forall k, In k (rsb n) -> exists s, dict_get (fold_left (fun d node => dict_set d node (num_zero A)) VN d) k = Ok s /\
      (k < n -> s = num_zero A) /\ (n <= k -> dict_get d k = Ok s)).
  Proof.
    destruct (score_ok n wt mcs T HT Hm A Hn) as (d & Ed & Hk). exists d. split; auto. intros k Hin.
    assert (Hdis : forall x, In x VN -> ~ In x (map fst d)).
    { intros x Hx Hi. apply VN_in, noise_lt in Hx. rewrite Hk in Hi. apply in_seq in Hi. lia. }
    destruct (set_all (fun _ => num_zero A) VN d VN_NoDup Hdis) as [_ E2]. rewrite E2. apply rsb_root in Hin. destruct (memb VN k) eqn:Em.
    - apply memb_true, VN_in, noise_lt in Em. eexists. split; [reflexivity|]. split; auto. lia.
    - apply memb_false in Em. destruct Hin as [Hin|Hin]; [|exfalso; apply Em; now apply VN_in].
      destruct (dict_get_in d k) as (s & Es); [rewrite Hk; apply in_seq; unfold top_id in Hin; lia|].
      exists s. split; auto. split; auto. lia.
  Qed.

  Lemma bcubed_ok (B : BArith) N d : BLaws B N -> NoDup (map fst d) -> (forall k l, dict_get d k = Ok l -> points_of k l) ->
    exists e, score_condensed_tree_nodes_bcubed B d LI = Ok e /\ map fst e = map fst d /\
      (forall k l, dict_get d k = Ok l -> exists b, dict_get e k = Ok b /\ bcubed_of B LI (counts (map snd LI)) (list_sum (map snd (counts (map snd LI)))) l = Ok b).
  Proof.
    intros HB HN Hd. unfold score_condensed_tree_nodes_bcubed.
    destruct (map_res_pairs (bcubed_of B LI (counts (map snd LI)) (list_sum (map snd (counts (map snd LI))))) d) as (e & E & Ek & Ev).
    - intros k l Hin. apply dict_get_unique in Hin; auto. destruct (Hd k l Hin) as [HNl Hl].
      destruct (bcubed_of_ok labels l HNl) with (B := B) (N := N) as (b & Eb & _); eauto. intros x Hx. now apply Hl.
    - exists e. split; auto. split; auto. intros k l El. destruct (Ev k l El) as (b & E1 & E2). eauto.
  Qed.

  (** ** The run *)
  Lemma ctb_empty : CT = [] -> ctb = [].
  Proof.
    intro E. destruct ctb as [|r l] eqn:EC; auto. exfalso. assert (Hr : In r ctb) by (rewrite EC; simpl; auto).
    apply ctb_in in Hr as [Hr|(_ & _ & _ & _ & _ & r' & q & _ & _ & Hq & Hc & _)]; [rewrite E in Hr; destruct Hr|].
    apply (in_ct n T) in Hc; auto. rewrite E in Hc. destruct Hc.
  Qed.
  Lemma ctb_nonempty : CT <> [] -> ctb <> [].
  Proof.
    intros Hne E. destruct CT as [|r l] eqn:EC; [congruence|]. assert (Hr : In r ctb) by (apply ctb_in; left; rewrite EC; simpl; auto).
    rewrite E in Hr. destruct Hr.
  Qed.
  Lemma ctb_min : CT <> [] -> array_min (map c_parent ctb) = Ok n.
  Proof.
    intro Hne. destruct (root_children n wt mcs T HT Hne) as (r & Hr & Er). apply array_min_ok.
    - rewrite <- Er. apply in_map. apply ctb_in. auto.
    - intros y Hy. apply in_map_iff in Hy as (q & <- & Hq). pose proof (parent_ge _ _ _ _ HT q (ctb_T q Hq)). lia.
  Qed.

  (** The scores of the nodes. *)
  Definition node_scores (A : Arith V Sz) (B : BArith) (stab : list (nat * num A)) (bc : list (nat * bscore B)) : Prop :=
    exists d, score_condensed_tree_nodes A T = Ok d /\
    forall k, In k (rsb n) -> exists s b pts, dict_get stab k = Ok s /\ dict_get bc k = Ok b /\
      (k < n -> s = num_zero A) /\ (n <= k -> dict_get d k = Ok s) /\ points_of k pts /\
      bcubed_of B LI (counts (map snd LI)) (list_sum (map snd (counts (map snd LI)))) pts = Ok b.

  Lemma bc_run (A : Arith V Sz) (B : BArith) single (Sc : SOrd) (emb : Sc -> num A * btotal B) (sc : nat -> Sc) :
    forall N, BLaws B N ->
    exists R, extract_clusters_bcubed A B listed T CT labels virtual single = Ok R /\
      (CT = [] -> R = []) /\
      (CT <> [] -> exists K stab bc sel, (forall k, In k K <-> In k (rsb n)) /\ node_scores A B stab bc /\
         NoDup R /\ (forall k, In k R <-> In k (chosen ctb rk MM sel n) /\ n <= k) /\
         if single then good A B ctb rk MM stab bc K Sc emb sc sel n else good_below A B ctb rk MM stab bc K Sc emb sc sel n).
  Proof.
    intros N HB. pose proof (bl_compare B N HB) as HC. unfold extract_clusters_bcubed. rewrite ctb_eq.
    change (if virtual then virtual_nodes_of listed CT ctb else []) with VN.
    destruct cluster_elements_ok as (el & -> & HelN & Helk & Helv). cbn [bind].
    destruct (stability_ok A) as (d & Ed & Hst). rewrite Ed. cbn [bind].
    destruct (bcubed_ok B N _ HB HelN Helv) as (bc & Ebc & Hbck & Hbcv). rewrite Ebc. cbn [bind].
    set (stab := fold_left (fun d node => dict_set d node (num_zero A)) VN d) in *.
    assert (Hd : CT = [] \/ CT <> []) by (destruct CT; [auto|right; discriminate]).
    destruct Hd as [Hd|Hd].
    { rewrite (ctb_empty Hd). exists []. split; auto. split; auto. intro; contradiction. }
    pose proof (ctb_nonempty Hd) as Hne.
    destruct ctb as [|r0 l0] eqn:EC; [congruence|]. rewrite <- EC in *. clear r0 l0 EC.
    rewrite (ctb_min Hd). cbn [bind].
    set (off := map (fun kv => (fst kv, false)) bc).
    set (K := map fst bc).
    assert (HK : forall k, In k K <-> In k (rsb n)) by (intro k; unfold K; rewrite Hbck; apply Helk).
    assert (HKN : NoDup K) by (unfold K; rewrite Hbck; auto).
    assert (Hoffk : map fst off = K) by (unfold off, K; rewrite map_map; auto).
    assert (Hoffv : forall k, selb off k = false).
    { intro k. unfold selb, off. clear. induction bc as [|[a b] l IH]; cbn [map dict_get fst]; auto. destruct (k =? a); auto. }
    assert (Hns : node_scores A B stab bc).
    { exists d. split; auto. intros k Hk. destruct (Hst k Hk) as (s & Es & H1 & H2).
      assert (Hke : In k (map fst (add_virtual_nodes VN el))) by now apply Helk.
      destruct (dict_get_in _ _ Hke) as (pts & Ep). destruct (Hbcv k pts Ep) as (b & Eb & Eb2).
      exists s, b, pts. auto 10. }
    assert (HKs : forall k, In k K -> exists s, dict_get stab k = Ok s).
    { intros k Hk. apply HK in Hk. destruct (Hst k Hk) as (s & Es & _). eauto. }
    assert (HKb : forall k, In k K -> exists b, dict_get bc k = Ok b) by (intros k Hk; now apply dict_get_in).
    assert (HinK : incl (rsb n) K) by (intros k Hk; now apply HK).
    assert (Hrkn : rk n = n) by (apply rk_cluster; lia).
    assert (HMn : rk n < MM) by (rewrite Hrkn; unfold MM; lia).
    assert (Hresult : forall sel : list (nat * bool), map fst sel = K -> (forall k, ~ In k (rsb n) -> selb sel k = false) ->
      NoDup (filter (fun node => negb (member node VN)) (map fst (filter snd sel))) /\
      (forall k, In k (filter (fun node => negb (member node VN)) (map fst (filter snd sel))) <-> In k (chosen ctb rk MM sel n) /\ n <= k)).
    { intros sel Hsel Hout. assert (HselN : NoDup (map fst sel)) by (rewrite Hsel; auto). split.
      - apply NoDup_filter. clear -HselN. induction sel as [|[a b] l IH]; cbn [filter map]; [constructor|].
        inversion_clear HselN as [|? ? H1 H2]. cbn [snd]. destruct b; [|auto]. cbn [map fst]. constructor; [|auto].
        intro H. apply H1. apply in_map_iff in H as (x & E & Hx). apply filter_In in Hx as [Hx _]. apply in_map_iff. eauto.
      - intro k. rewrite filter_In, negb_true_iff, member_not, VN_in, (selb_result sel k HselN). unfold chosen. rewrite filter_In. split.
        + intros [Hs Hno]. assert (Hin : In k (rsb n)).
          { destruct (in_dec Nat.eq_dec k (rsb n)) as [|Hk]; auto. rewrite (Hout k Hk) in Hs. discriminate. }
          split; auto. apply rsb_root in Hin as [|]; [lia|contradiction].
        + intros [[Hin Hs] Hk]. split; auto. intro H. apply noise_lt in H. lia. }
    destruct single.
    - destruct (eom_b_ok A B ctb rk MM chb_up chb_bound chb_one chb_nodup stab bc K HKs HKb HC Sc emb sc (S (S (length ctb))) n (off, off))
        as (v & [sel un] & -> & S1 & S2 & Ho & _ & _ & Hg & _); auto.
      + rewrite Hrkn. unfold MM. lia.
      + cbn [bind]. cbn [fst snd] in *. eexists. split; [reflexivity|]. split; [contradiction|]. intros _.
        destruct (Hresult sel S1) as [R1 R2].
        { intros k Hk. destruct (Ho k Hk) as [-> _]. apply Hoffv. }
        exists K, stab, bc, sel. split; auto.
    - assert (Hbig : 1 <? length bc = true).
      { apply Nat.ltb_lt. rewrite <- (map_length fst). fold K. destruct (root_children n wt mcs T HT Hd) as (r & Hr & Er).
        pose proof (ct_child_in _ _ _ _ HT r Hr).
        assert (Hi : incl [n; c_child r] K).
        { intros x [<-|[<-|[]]]; apply HK, rsb_root; left; unfold top_id in *; lia. }
        apply NoDup_incl_length in Hi; [simpl in Hi; lia|]. repeat constructor; simpl; lia. }
      rewrite Hbig.
      destruct (eom_children_b_ok A B ctb rk MM chb_up chb_bound chb_one chb_nodup stab bc K HKs HKb HC Sc emb sc n (S (S (length ctb)))) with (cs := chb n) (s := (off, off) : flags)
        as (s' & -> & S1 & Ho & Hg); auto.
      + rewrite Hrkn. unfold MM. lia.
      + apply incl_refl.
      + apply chb_nodup.
      + destruct s' as [sel un]. cbn [bind]. cbn [fst snd] in *. eexists. split; [reflexivity|]. split; [contradiction|]. intros _.
        assert (Hno : forall k, (forall c, In c (chb n) -> ~ In k (rsb c)) -> selb sel k = false).
        { intros k Hk. rewrite (Ho k Hk). apply Hoffv. }
        destruct (Hresult sel S1) as [R1 R2].
        { intros k Hk. apply Hno. intros c Hc Hkc. apply Hk. eapply (rsub_child chb rk MM chb_up chb_bound); eauto. }
        exists K, stab, bc, sel. split; auto. split; auto. split; auto. split; auto.
        apply (good_children A B ctb rk MM chb_up chb_bound chb_one chb_nodup); auto.
        apply Hno. intros c Hc Hkc. pose proof (chb_up _ _ Hc). apply (rsub_ge chb rk MM chb_up chb_bound) in Hkc as [->|]; lia.
  Qed.
End Top.
