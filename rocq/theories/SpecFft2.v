(** * Specification vocabulary for C96: floating-point transforms whose tables are only close to the roots of unity. *)
From Coq Require Import Reals.
From Flocq Require Import Core.Generic_fmt.
From Verif Require Import MBase MPoly SpecRing SpecLwe MFft SpecFft.
Local Open Scope R_scope.

(** The radix-2 fast Fourier transform of 2^m points, with the complex multiplication [mul] and the roots of unity of the table [w]:
    [w h r] stands for e^(+-2 pi i r / (2h)). *)
Fixpoint radix2_with (rnd : R -> R) (mul : cplx -> cplx -> cplx) (w : nat -> nat -> cplx) (m : nat) (x : nat -> cplx) (k : nat) : cplx :=
  match m with
  | O => x 0%nat
  | S m' =>
      let h := (2 ^ m')%nat in let r := (k mod h)%nat in
      let even := radix2_with rnd mul w m' (fun j => x (2 * j)%nat) r in
      let odd := radix2_with rnd mul w m' (fun j => x (2 * j + 1)%nat) r in
      let p := mul (w h r) odd in
      if (k <? h)%nat then rpair rnd (Cadd even p) else rpair rnd (Csub even p)
  end.
(** The operations made of these, with the given tables; halves are rounded away from zero. *)
Definition machine_with (rnd : R -> R) (mul : cplx -> cplx -> cplx) (twist untwist fwd bwd : nat -> nat -> cplx) : float_ops := {|
  fl_round := rnd; fl_rint := ZnearestA; fl_mul := mul; fl_add x y := rpair rnd (Cadd x y);
  fl_twist := twist; fl_untwist := untwist;
  fl_forward h := radix2_with rnd mul fwd (Nat.log2 h); fl_backward h := radix2_with rnd mul bwd (Nat.log2 h) |}.
(** The tables approximate the factors for polynomials of [n] coefficients up to [w] (relative to their modulus). *)
Definition close_to_roots (twist untwist fwd bwd : nat -> nat -> cplx) (n : nat) (w : R) : Prop :=
  (forall j, (j < n / 2)%nat -> Cabs (Csub (twist n j) (cis (PI * INR j / INR n))) <= w) /\
  (forall j, (j < n / 2)%nat -> Cabs (Csub (untwist n j) (Cmul (/ INR (n / 2), 0) (cis (- (PI * INR j / INR n))))) <= w / INR (n / 2)) /\
  (forall i r, (r < 2 ^ i < n)%nat -> Cabs (Csub (fwd (2 ^ i)%nat r) (cis (- (2 * PI * INR r / INR (2 * 2 ^ i))))) <= w) /\
  (forall i r, (r < 2 ^ i < n)%nat -> Cabs (Csub (bwd (2 ^ i)%nat r) (cis (2 * PI * INR r / INR (2 * 2 ^ i)))) <= w).
(** What double precision guarantees for polynomials of 2^(m+1) coefficients and at most [L] products with integer operands up to [D],
    in units of 2^-64, when the tables are accurate to [c] units of 2^-53. *)
Definition table_error (m : nat) (D : Z) (L c : nat) : Z :=
  (1152 * (Z.of_nat L * 2 ^ (Z.of_nat m + 1) * D * ((12 + 3 * Z.of_nat c) * Z.of_nat m + 16 + 3 * Z.of_nat c + Z.of_nat L)) + 2306)%Z.
