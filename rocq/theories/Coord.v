(** Coordinates: numbers with the operations used by squared euclidean distances.
    The laws are those that survive rounding: each operation is monotone and
    exact on zero.  Infinite results (overflow) are allowed, NaN is not. *)
From Coq Require Import List Arith Lia Bool ZArith.
From Verif Require Import Prelude Order.

Record Coord := {
  cord :> WOrd;
  cneginf : cord;
  czero : cord;
  cadd : cord -> cord -> cord;
  csub : cord -> cord -> cord;
  cmul : cord -> cord -> cord;
  (** finite numbers *)
  cnum : cord -> Prop;
  cnum_finite : forall x, cnum x -> wlt cneginf x = true /\ wlt x winf = true;
  csub_mono : forall a b c, cnum a -> cnum b -> cnum c -> wle a b = true -> wle (csub a c) (csub b c) = true;
  csub_anti : forall a b c, cnum a -> cnum b -> cnum c -> wle a b = true -> wle (csub c b) (csub c a) = true;
  csub_pos : forall a b, cnum a -> cnum b -> wle a b = true -> wle czero (csub b a) = true;
  csub_self : forall a, cnum a -> wle (csub a a) czero = true;
  csquare_sym : forall a b, cnum a -> cnum b ->
    cmul (csub a b) (csub a b) = cmul (csub b a) (csub b a);
  csquare_mono : forall x y, wle czero x = true -> wle x y = true -> wle (cmul x x) (cmul y y) = true;
  csquare_zero : wle (cmul czero czero) czero = true /\ wle czero (cmul czero czero) = true;
  cadd_mono : forall a b c d, wle czero a = true -> wle a b = true -> wle czero c = true -> wle c d = true ->
    wle (cadd a c) (cadd b d) = true;
  cadd_zero_l : forall x, wle czero x = true -> wle (cadd czero x) x = true /\ wle x (cadd czero x) = true;
  cadd_zero_r : forall x, wle czero x = true -> wle (cadd x czero) x = true /\ wle x (cadd x czero) = true
}.
Arguments cneginf {_}.
Arguments czero {_}.
Arguments cadd {_} _ _.
Arguments csub {_} _ _.
Arguments cmul {_} _ _.
Arguments cnum {_} _.

(** ** Integers with infinities *)
Inductive zext := ZNeg | ZFin (x : Z) | ZPos.

Definition zext_le (a b : zext) : bool :=
  match a, b with
  | ZNeg, _ => true
  | _, ZPos => true
  | ZFin x, ZFin y => Z.leb x y
  | _, _ => false
  end.

Definition ZExt : WOrd.
  refine {| wcar := zext; wle := zext_le; winf := ZPos |}.
  - intros [|x|] [|y|]; simpl; auto. rewrite !Z.leb_le. lia.
  - intros [|x|] [|y|] [|z|]; simpl; auto; try discriminate. rewrite !Z.leb_le. lia.
  - now intros [|x|].
Defined.

Definition zext_add (a b : zext) : zext :=
  match a, b with
  | ZFin x, ZFin y => ZFin (x + y)
  | ZPos, _ | _, ZPos => ZPos
  | _, _ => ZNeg
  end.
Definition zext_opp (a : zext) : zext :=
  match a with ZNeg => ZPos | ZFin x => ZFin (- x) | ZPos => ZNeg end.
Definition zext_mul (a b : zext) : zext :=
  match a, b with
  | ZFin x, ZFin y => ZFin (x * y)
  | _, _ => ZPos
  end.

Definition ZCoord : Coord.
  refine {| cord := ZExt; cneginf := (ZNeg : ZExt); czero := (ZFin 0 : ZExt);
            cadd := (zext_add : ZExt -> ZExt -> ZExt);
            csub := (fun a b => zext_add a (zext_opp b) : ZExt);
            cmul := (zext_mul : ZExt -> ZExt -> ZExt);
            cnum := (fun x => exists k, x = ZFin k) |}.
  - intros x [k ->]. auto.
  - intros a b c [x ->] [y ->] [z ->]. simpl. rewrite !Z.leb_le. lia.
  - intros a b c [x ->] [y ->] [z ->]. simpl. rewrite !Z.leb_le. lia.
  - intros a b [x ->] [y ->]. simpl. rewrite !Z.leb_le. lia.
  - intros a [x ->]. simpl. rewrite Z.leb_le. lia.
  - intros a b [x ->] [y ->]. simpl. f_equal. ring.
  - intros [|x|] [|y|]; simpl; auto; try discriminate. rewrite !Z.leb_le. nia.
  - auto.
  - intros [|a|] [|b|] [|c|] [|d|]; simpl; auto; try discriminate. rewrite !Z.leb_le. lia.
  - intros [|x|]; simpl; auto; try discriminate. intros _. split; apply Z.leb_refl.
  - intros [|x|]; simpl; auto; try discriminate. intros _. rewrite Z.add_0_r. split; apply Z.leb_refl.
Defined.
