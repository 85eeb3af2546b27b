(** * C91, C95 and C92, continued: what the assertions of the unit tests and the cast of an f64 to a word decide. *)
From Coq Require Import Reals ZArith List Lia.
From Flocq Require Import Core IEEE754.BinarySingleNaN.
From Verif Require Import MBase MPoly MMain MFft MIeee MTests MTests2.
Local Open Scope Z_scope.

(** [assert_eq!] on scalars and plaintexts passes exactly for equal values and panics otherwise. *)
Theorem C91_assertions :
  (forall x y : Z, (x = y -> assert_eq_z x y = Ok tt) /\ (x <> y -> assert_eq_z x y = Panic PAssert)) /\
  (forall x y : list Z, (x = y -> assert_eq_pt x y = Ok tt) /\ (x <> y -> assert_eq_pt x y = Panic PAssert)).
Proof.
  split.
  - intros x y. unfold assert_eq_z. split; intros H; [subst; rewrite Z.eqb_refl; reflexivity|]. apply Z.eqb_neq in H. rewrite H. reflexivity.
  - intros x y. unfold assert_eq_pt, poly_eqb. destruct (list_eq_dec Z.eq_dec x y) as [E|E]; split; intros H; try reflexivity; contradiction.
Qed.
Print Assumptions C91_assertions.
(** On indices, and on an index that must be absent. *)
Theorem C95_assertions :
  (forall x y : nat, (x = y -> assert_eq_nat x y = Ok tt) /\ (x <> y -> assert_eq_nat x y = Panic PAssert)) /\
  (forall o, (o = None -> assert_none o = Ok tt) /\ (forall i, o = Some i -> assert_none o = Panic PAssert)).
Proof.
  split.
  - intros x y. unfold assert_eq_nat. split; intros H; [subst; rewrite Nat.eqb_refl; reflexivity|]. apply Nat.eqb_neq in H. rewrite H. reflexivity.
  - intros o. split; [intros ->; reflexivity|intros i ->; reflexivity].
Qed.
Print Assumptions C95_assertions.

(** [x as i64], for every f64: NaN gives 0, infinities and numbers out of range saturate, other numbers lose their fraction. *)
Theorem C92_cast : forall x : f64,
  (is_nan x = true -> f_as_i64 x = 0) /\
  (is_nan x = false -> is_finite x = false -> f_as_i64 x = if Bsign x then - 2 ^ 63 else 2 ^ 63 - 1) /\
  (is_finite x = true -> f_as_i64 x = Z.max (- 2 ^ 63) (Z.min (2 ^ 63 - 1) (Ztrunc (B2R x)))).
Proof.
  intros x. split; [|split].
  - destruct x; try discriminate. reflexivity.
  - destruct x as [s|s| |s m e H]; try discriminate. intros _ _. destruct s; reflexivity.
  - intros F. assert (Btrunc x = Ztrunc (B2R x)) as T by (apply eq_IZR; rewrite (Btrunc_correct 53 1024 _), round_FIX_IZR; reflexivity).
    destruct x as [s|s| |s m e H]; try discriminate F; unfold f_as_i64.
    + cbn [B2R]. rewrite Ztrunc_IZR. reflexivity.
    + rewrite T. reflexivity.
Qed.
Print Assumptions C92_cast.
Example C92_cast_applies : f_as_i64 (B754_infinity true) = - 2 ^ 63 /\ f_as_i64 (f_of_int (- 7)) = - 7 /\ f_as_i64 (f_of_int (2 ^ 70)) = 2 ^ 63 - 1.
Proof. split; [|split]; vm_compute; reflexivity. Qed.
