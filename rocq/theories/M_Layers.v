(** Model of the multi-resolution clustering: fast_hdbscan/layer_clusters.py. *)
From Coq Require Import List Arith Bool ZArith QArith.
From Verif Require Import Prelude Order Size M_Linkage M_Condense M_Select M_Labels.
Import ListNotations.
Local Open Scope nat_scope.

(** ** layer_clusters.py:40-68 *)
Section Peaks.
  Context {W : WOrd}.
  Variables (x : nat -> W) (n : nat).      (* the array and its length *)

  (** layer_clusters.py:55-57. *)
  Fixpoint skip_equal (fuel i i_ahead : nat) : res nat :=
    if (i_ahead <? n - 1) && veq (x i_ahead) (x i) then
      match fuel with 0 => Err OutOfFuel | S f => skip_equal f i (S i_ahead) end
    else Ok i_ahead.

  (** layer_clusters.py:49-66.  The preallocated arrays have n // 2 cells; a write beyond
      them is an error here (the compiled code does not check). *)
  Fixpoint peaks_loop (fuel i : nat) (midpoints : list nat) : res (list nat) :=
    if i <? n - 1 then
      match fuel with
      | 0 => Err OutOfFuel
      | S f =>
          if wlt (x (i - 1)) (x i) then
            let* i_ahead := skip_equal n i (i + 1) in
            if wlt (x i_ahead) (x i) then
              if length midpoints <? n / 2
              then peaks_loop f (i_ahead + 1) (midpoints ++ [(i + (i_ahead - 1)) / 2])
              else Err IndexError
            else peaks_loop f (i + 1) midpoints
          else peaks_loop f (i + 1) midpoints
      end
    else Ok midpoints.
End Peaks.
(** layer_clusters.py:26-68 *)
Definition find_peaks {W : WOrd} (x : list W) : res (list nat) :=
  peaks_loop (fun i => nth i x winf) (length x) (length x) 1 [].

(** ** layer_clusters.py:182-211.  Sizes are float32 in the code and natural
    numbers here.  [death_of] stands for lines 199-204 ([exp(-1 / lambda)], or 0
    for lambda 0). *)
Record barcode (D : Type) := {
  b_nodes : nat;
  b_births : nat -> nat;
  b_deaths : nat -> nat;
  b_parents : nat -> nat;
  b_lambdas : nat -> D
}.
Arguments b_nodes {D} _.
Arguments b_births {D} _.
Arguments b_deaths {D} _.
Arguments b_parents {D} _.
Arguments b_lambdas {D} _.

Section Barcode.
  Context {V : Type} {D : Type}.
  Variables (death_of : V -> D) (zero : D).
  Variable n_points : nat.

  (** layer_clusters.py:195-209 for the pair of rows [r] (idx - 1) and [q] (idx). *)
  Definition barcode_step (r q : crow V NatSize) (b : barcode D) : barcode D :=
    let out_idx := c_child q - n_points in
    let death_size := Nat.min (c_size r) (c_size q) in
    {| b_nodes := b_nodes b;
       b_parents := upd (upd (b_parents b) (out_idx - 1) (c_parent q)) out_idx (c_parent q);
       b_lambdas := upd (upd (b_lambdas b) (out_idx - 1) (death_of (c_lam q))) out_idx (death_of (c_lam q));
       b_deaths := upd (upd (b_deaths b) (out_idx - 1) death_size) out_idx death_size;
       b_births := upd (b_births b) (c_parent q - n_points)
                     (Nat.max (Nat.max (b_births b (out_idx - 1)) (b_births b out_idx)) death_size) |}.

  (** layer_clusters.py:182-211. [for idx in range(n_rows - 1, 0, -2)]: the rows from the back, in pairs. *)
  Fixpoint barcode_loop (reversed : list (crow V NatSize)) (b : barcode D) : barcode D :=
    match reversed with
    | q :: r :: rest => barcode_loop rest (barcode_step r q b)
    | _ => b
    end.

  (** layer_clusters.py:181-211. [garbage] is the content of np.empty. *)
  Definition min_cluster_size_barcode (garbage : nat -> nat) (garbage_lambda : nat -> D)
      (cluster_tree : list (crow V NatSize)) (min_size : nat) : res (barcode D) :=
    match rev cluster_tree with
    | [] => Err IndexError
    | q :: _ =>
        Ok (barcode_loop (rev cluster_tree)
             {| b_nodes := c_child q - n_points + 1;
                b_births := fun _ => min_size;
                b_deaths := upd garbage 0 n_points;
                b_parents := upd garbage 0 n_points;
                b_lambdas := upd garbage_lambda 0 zero |})
    end.
End Barcode.

(** ** layer_clusters.py:215-246 *)
(** layer_clusters.py:231-241: the first position whose entry is at least [v]. *)
Fixpoint first_geq (l : list nat) (v k default : nat) : nat :=
  match l with
  | [] => default
  | a :: l' => if v <=? a then k else first_geq l' v (S k) default
  end.

(** [accumulate p birth death lambda] stands for
    [p += death - birth * lambda]. *)
Section Persistence.
  Context {D P : Type}.
  Variables (pzero : P) (accumulate : P -> nat -> nat -> D -> P).

  (** layer_clusters.py:215-246: The loop body for cluster [i]. *)
  Definition persistence_step (sizes : list nat) (b : barcode D) (total : nat -> P) (i : nat) : nat -> P :=
    if b_deaths b i <=? b_births b i then total
    else
      let birth_idx := first_geq sizes (b_births b i) 0 0 in
      let death_idx := first_geq sizes (b_deaths b i) 0 (length sizes) in
      fold_left (fun total k => upd total k (accumulate (total k) (b_births b i) (b_deaths b i) (b_lambdas b i)))
                (seq birth_idx (death_idx - birth_idx)) total.

  (** layer_clusters.py:214-246 *)
  Definition compute_total_persistence (b : barcode D) : list nat * list P :=
    let sizes := unique (map (b_births b) (seq 0 (b_nodes b))) in
    let total := fold_left (persistence_step sizes b) (seq 1 (b_nodes b - 1)) (fun _ => pzero) in
    (sizes, map total (seq 0 (length sizes))).
End Persistence.

(** ** layer_clusters.py:264-301 *)
(** layer_clusters.py:269-273. *)
Fixpoint jaccard_loop (items union_set : list nat) (intersection_count : nat) : nat * list nat :=
  match items with
  | [] => (intersection_count, union_set)
  | item :: items' =>
      if existsb (Nat.eqb item) union_set then jaccard_loop items' union_set (S intersection_count)
      else jaccard_loop items' (item :: union_set) intersection_count
  end.
(** layer_clusters.py:263-276. The quotient is exact here. *)
Definition jaccard_similarity (a b : list nat) : Q :=
  let (intersection_count, union_set) := jaccard_loop b (nodup Nat.eq_dec a) 0 in
  if 0 <? length union_set then (Z.of_nat intersection_count # Pos.of_nat (length union_set))%Q else 0%Q.

(** layer_clusters.py:285-289, and 466-468: clusters with birth <= size < death. *)
Definition alive {D} (b : barcode D) (size : nat) : list nat :=
  filter (fun i => (b_births b i <=? size) && (size <? b_deaths b i)) (seq 0 (b_nodes b)).
(** layer_clusters.py:279-301 *)
Definition estimate_cluster_similarity {D} (b : barcode D) (birth_a birth_b : nat) : Q :=
  jaccard_similarity (alive b birth_a) (alive b birth_b).

(** ** layer_clusters.py:305-350 *)
(** layer_clusters.py:327-347; [selected_births[j]] is the size at [selected_peaks[j]]. *)
Fixpoint select_loop (similarity : nat -> nat -> Q) (threshold : Q) (max_layers : nat) (size_at : nat -> nat)
    (peaks selected : list nat) : list nat :=
  match peaks with
  | [] => selected
  | peak :: peaks' =>
      if max_layers <=? length selected then selected
      else if existsb (fun q => negb (Qle_bool (similarity (size_at peak) (size_at q)) threshold)) selected
      then select_loop similarity threshold max_layers size_at peaks' selected
      else select_loop similarity threshold max_layers size_at peaks' (selected ++ [peak])
  end.

(** layer_clusters.py:304-350. [argsort] is np.argsort, not stable: the theorems hold for every function
    that sorts. *)
Definition select_diverse_peaks {P D} (argsort : list P -> list nat) (pzero : P) (peaks : list nat) (total_persistence : list P)
    (sizes : list nat) (b : barcode D) (threshold : Q) (max_layers : nat) : list nat :=
  let peak_persistence := map (fun p => nth p total_persistence pzero) peaks in
  let sorted_peaks := map (fun i => nth i peaks 0) (rev (argsort peak_persistence)) in
  select_loop (estimate_cluster_similarity b) threshold max_layers (fun p => nth p sizes 0) sorted_peaks [].

(** ** layer_clusters.py:79-150 *)
Section Search.
  Context {W V : WOrd}.
  Variables (lam : W -> V) (LA : LamArith V).
  Variables (L : list (lrow W NatSize)) (n_samples : nat).

  (** layer_clusters.py:72-146. [int(round(x / 2.0))]: Python rounds halves to the even number. *)
  Definition round_half (a : nat) : nat :=
    if Nat.even a then a / 2 else if Nat.even (a / 2) then a / 2 else a / 2 + 1.

  (** layer_clusters.py:72-146: The condensed tree for a size. *)
  Definition condensed_at (size : nat) : res (list (crow V NatSize)) := condense_tree L lam (size : NatSize) None (fun _ => 1).
  (** layer_clusters.py:72-146: Its leaves. *)
  Definition leaves_at (size : nat) : res (list nat) := let* T := condensed_at size in extract_leaves T.

  (** layer_clusters.py:88-106. *)
  Fixpoint search_loop (fuel approx lower upper : nat) : res (nat * nat) :=
    if 1 <? upper - lower then
      match fuel with
      | 0 => Err OutOfFuel
      | S f =>
          let mid := round_half (lower + upper) in
          if (mid =? lower) || (mid =? upper) then Ok (lower, upper)
          else
            let* leaves := leaves_at mid in
            if length leaves <? approx then search_loop f approx lower mid else search_loop f approx mid upper
      end
    else Ok (lower, upper).

  (** layer_clusters.py:72-146: [abs(a - b)]. *)
  Definition distance (a b : nat) : nat := (a - b) + (b - a).

  (** layer_clusters.py:72-146: Leaves, labels and strengths for a size. *)
  Definition clusters_at (size : nat) : res (list nat * list Z * list V) :=
    let* T := condensed_at size in
    let* leaves := extract_leaves T in
    let* labels := get_cluster_label_vector LA T leaves None n_samples in
    let* strengths := get_point_membership_strength_vector LA T leaves labels in
    Ok (leaves, labels, strengths).

  (** layer_clusters.py:149-178: How many samples are not noise. *)
  Definition labelled (labels : list Z) : nat := length (filter (fun l => (0 <=? l)%Z) labels).

  (** layer_clusters.py:72-145.  [lower_n_clusters] and [upper_n_clusters] are the numbers of
      leaves at the bounds; in the code they are kept beside them. *)
  Definition binary_search_for_n_clusters (approx : nat) : res (list nat * list Z * list V) :=
    let* bounds := search_loop n_samples approx 2 (n_samples / 2) in
    let (lower, upper) := (bounds : nat * nat) in
    let* upper_leaves := leaves_at upper in
    let* lower_leaves := leaves_at lower in
    let lower_distance := distance (length lower_leaves) approx in
    let upper_distance := distance (length upper_leaves) approx in
    if lower_distance <? upper_distance then clusters_at lower
    else if upper_distance <? lower_distance then clusters_at upper
    else
      let* l := clusters_at lower in
      let* u := clusters_at upper in
      if labelled (snd (fst u)) <? labelled (snd (fst l)) then Ok l else Ok u.
End Search.

(** ** layer_clusters.py:353-495, from the linkage tree on *)
Section Layers.
  Context {W V P : WOrd} {D : Type}.
  (** [search_lam] is 1/d (lines 72-145 use the default method), [lam] is
      exp(-d). *)
  Variables (search_lam lam : W -> V) (LA : LamArith V) (death_of : V -> D) (dzero : D) (garbage : nat -> nat) (garbage_lambda : nat -> D).
  Variables (pzero : P) (accumulate : P -> nat -> nat -> D -> P).
  Variables (argsort : list P -> list nat) (argsort_counts : list Z -> list nat).

  (** layer_clusters.py:353-495: What is reported of one layer. *)
  Record layer := { y_labels : list Z; y_strengths : list V; y_persistence : P }.

  (** layer_clusters.py:249-260. *)
  Definition extract_clusters_by_id (T : list (crow V NatSize)) (selected_ids : list nat) : res (list Z * list V) :=
    match T with
    | [] => Err IndexError
    | r :: _ =>
        let* labels := get_cluster_label_vector LA T selected_ids None (c_parent r) in
        let* strengths := get_point_membership_strength_vector LA T selected_ids labels in
        Ok (labels, strengths)
    end.

  (** layer_clusters.py:353-495: [l.max()]; an error on an empty array. *)
  Definition zmax (l : list Z) : res Z := match l with [] => Err ValueError | x :: l' => Ok (fold_left Z.max l' x) end.

  (** layer_clusters.py:402-427: minimum size, condensed tree, base layer. *)
  Definition base_layer (L : list (lrow W NatSize)) (n_samples base_min_cluster_size : nat) (base_n_clusters : option nat)
    : res (nat * list (crow V NatSize) * (list Z * list V)) :=
    match base_n_clusters with
    | Some k =>
        let* r := binary_search_for_n_clusters search_lam LA L n_samples k in
        let labels := filter (fun l => (0 <=? l)%Z) (snd (fst r)) in
        let* min_cluster_size :=
          match labels with
          | [] => Ok base_min_cluster_size
          | _ => let* top := zmax labels in
                 let cluster_sizes := map (fun c => length (filter (Z.eqb (Z.of_nat c)) labels)) (seq 0 (Z.to_nat top + 1)) in
                 Ok (Nat.max 1 (fold_left Nat.min cluster_sizes (length labels)))
          end in
        let* T := condense_tree L lam (min_cluster_size : NatSize) None (fun _ => 1) in
        Ok (min_cluster_size, T, (snd (fst r), snd r))
    | None =>
        let* T := condense_tree L lam (base_min_cluster_size : NatSize) None (fun _ => 1) in
        let* leaves := extract_leaves T in
        let* labels := get_cluster_label_vector LA T leaves None n_samples in
        let* strengths := get_point_membership_strength_vector LA T leaves labels in
        Ok (base_min_cluster_size, T, (labels, strengths))
    end.

  (** layer_clusters.py:429-485. *)
  Definition layers_from_linkage_tree (L : list (lrow W NatSize)) (n_samples base_min_cluster_size : nat) (base_n_clusters : option nat)
      (threshold : Q) (max_layers : nat) : res (list layer) :=
    let* base := base_layer L n_samples base_min_cluster_size base_n_clusters in
    let '(min_cluster_size, T, (labels, strengths)) := base in
    let cluster_tree := filter (fun r => n_samples <=? c_child r) T in
    let first := {| y_labels := labels; y_strengths := strengths; y_persistence := pzero |} in
    let* layers :=
      match cluster_tree with
      | [] => Ok [first]
      | _ =>
          let* b := min_cluster_size_barcode death_of dzero n_samples garbage garbage_lambda cluster_tree min_cluster_size in
          let (sizes, total) := compute_total_persistence pzero accumulate b in
          let* peaks := find_peaks total in
          let selected := select_diverse_peaks argsort pzero peaks total sizes b threshold (max_layers - 1) in
          let* more := map_res (fun peak =>
            let* lp := extract_clusters_by_id T (map (fun i => i + n_samples) (alive b (nth peak sizes 0))) in
            Ok {| y_labels := fst lp; y_strengths := snd lp; y_persistence := nth peak total pzero |}) selected in
          Ok (first :: more)
      end in
    let* counts := map_res (fun y => let* m := zmax (y_labels y) in Ok (m + 1)%Z) layers in
    Ok (map (fun i => nth i layers first) (rev (argsort_counts counts))).

End Layers.
Arguments layer : clear implicits.
