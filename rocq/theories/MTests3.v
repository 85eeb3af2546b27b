(** * The comparison of [test_fourier_mul] in floating point, src/rlwe.rs:1839-1844. *)
From Coq Require Import Reals ZArith List.
From Flocq Require Import IEEE754.BinarySingleNaN.
From Verif Require Import MBase MPoly MRlwe MIeee MAvg MTests.
Local Open Scope Z_scope.

(** The literal [1e-9]: the double nearest to 10^-9 (the quotient of two exact numbers, rounded once). *)
Definition f_nano : f64 := f_quot (f_of_int 1) (f_of_int 1000000000).
(** The assertion: the absolute difference of the two words as doubles is less than [1e-9 * Scalar::MAX as f64], src/rlwe.rs:1843. *)
Definition close_f64 (actual expected : Z) : bool :=
  f_less (Babs (f_sub (f_of_int actual) (f_of_int expected))) (f_mul f_nano (f_of_int MAXW)).
(** [test_fourier_mul], src/rlwe.rs:1822-1846, as it is. *)
Definition test_fourier_mul_f64 : fftT -> nat -> list (poly * poly) -> res unit := test_fourier_mul_with close_f64.
