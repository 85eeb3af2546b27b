(** * Specification vocabulary for C96: IEEE tables that are close to the roots of unity, and the machine on reals they stand for. *)
From Coq Require Import Reals ZArith.
From Flocq Require Import IEEE754.BinarySingleNaN.
From Verif Require Import MBase MPoly MFft MIeee MIeee2 SpecFft SpecFft2 SpecDouble.
Local Open Scope R_scope.

(** The complex number a pair of f64 stands for. *)
Definition value (z : c64) : cplx := (B2R (fst z), B2R (snd z)).
Definition finite (z : c64) : Prop := is_finite (fst z) = true /\ is_finite (snd z) = true.
(** The tables hold numbers (no infinity, no NaN) within [w] of the factors for polynomials of [n] coefficients, relative to their modulus. *)
Definition close_tables (T : tables) (n : nat) (w : R) : Prop :=
  (forall j, (j < n / 2)%nat -> finite (t_twist T n j) /\ Cabs (Csub (value (t_twist T n j)) (cis (PI * INR j / INR n))) <= w) /\
  (forall j, (j < n / 2)%nat -> finite (t_untwist T n j) /\ Cabs (Csub (value (t_untwist T n j)) (Cmul (/ INR (n / 2), 0) (cis (- (PI * INR j / INR n))))) <= w / INR (n / 2)) /\
  (forall i r, (r < 2 ^ i < n)%nat -> finite (t_forward T (2 ^ i) r) /\ Cabs (Csub (value (t_forward T (2 ^ i) r)) (cis (- (2 * PI * INR r / INR (2 * 2 ^ i))))) <= w) /\
  (forall i r, (r < 2 ^ i < n)%nat -> finite (t_backward T (2 ^ i) r) /\ Cabs (Csub (value (t_backward T (2 ^ i) r)) (cis (2 * PI * INR r / INR (2 * 2 ^ i)))) <= w).
(** Complex multiplication on reals: [rnd] after every operation, a fused multiply-add being one operation. *)
Definition rmul_of (rnd : R -> R) (kd : mul_kind) (x y : cplx) : cplx :=
  let (a, b) := x in let (c, d) := y in
  match kd with
  | Separate => (rnd (rnd (a * c) - rnd (b * d)), rnd (rnd (a * d) + rnd (b * c)))
  | FuseFirst => (rnd (a * c - rnd (b * d)), rnd (a * d + rnd (b * c)))
  | FuseSecond => (rnd (rnd (a * c) - b * d), rnd (rnd (a * d) + b * c))
  end.
(** The machine on reals, without overflow, with the values of the tables. *)
Definition valued_machine (kd : mul_kind) (T : tables) : float_ops :=
  machine_with binary64 (rmul_of binary64 kd) (fun n j => value (t_twist T n j)) (fun n j => value (t_untwist T n j))
    (fun h r => value (t_forward T h r)) (fun h r => value (t_backward T h r)).
