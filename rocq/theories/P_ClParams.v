(** Proofs about the acceptance of constraints. *)
From Coq Require Import List Arith Lia Bool ZArith.
From Verif Require Import Prelude Order Graph S_Kruskal M_Kruskal M_Precomputed M_KruskalEntry.
Import ListNotations.

Lemma constraints_accepted n X v g :
  (exists cl, resolve_cl_params n X v g = Ok cl) <->
  (X = None \/ g = None) /\
  (forall s, X = Some s -> v = true -> sp_rows s = n /\ sp_cols s = n) /\
  (forall l, g = Some l -> length l = n /\ forall x, In x l -> (-1 <= x)%Z).
Proof.
  unfold resolve_cl_params. destruct X as [s|], g as [l|].
  - split; [intros [cl H]; discriminate|]. intros ([H|H] & _); discriminate.
  - split.
    + intros [cl H]. split; auto. split; [|discriminate]. intros s' E ->. injection E as <-. unfold validate_cannot_link in H. cbn [negb] in H.
      destruct (Nat.eqb_spec (sp_rows s) n), (Nat.eqb_spec (sp_cols s) n); cbn [andb negb bind] in H; try discriminate. auto.
    + intros (_ & H & _). unfold validate_cannot_link. destruct v; cbn [negb].
      * destruct (H s eq_refl eq_refl) as [-> ->]. rewrite Nat.eqb_refl. cbn [andb negb]. destruct (length (sp_entries s) =? 0); cbn [bind]; eauto.
      * destruct (length (sp_entries s) =? 0); cbn [bind]; eauto.
  - unfold validate_groups. split.
    + intros [cl H]. split; auto. split; [discriminate|]. intros l' E. injection E as <-.
      destruct (Nat.eqb_spec (length l) n); cbn [negb bind] in H; [|discriminate]. destruct (existsb (fun g => (g <? -1)%Z) l) eqn:Ex; [discriminate|].
      split; auto. intros x Hx. destruct (Z.ltb_spec x (-1)) as [K|K]; [|lia]. exfalso. apply Bool.diff_true_false. rewrite <- Ex. symmetry. apply existsb_exists. exists x. split; auto. now apply Z.ltb_lt.
    + intros (_ & _ & H). destruct (H l eq_refl) as [-> Hl]. rewrite Nat.eqb_refl. cbn [negb].
      destruct (existsb (fun g => (g <? -1)%Z) l) eqn:Ex; [exfalso; apply existsb_exists in Ex as (x & Hx & K); apply Z.ltb_lt in K; specialize (Hl x Hx); lia|].
      destruct (existsb (fun g => (0 <=? g)%Z) l); cbn [bind]; eexists; reflexivity.
  - split; eauto. intros _. split; auto. split; discriminate.
Qed.
