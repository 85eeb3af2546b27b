(** * Specification vocabulary for C97: logarithms of floating-point numbers, and the mean of logarithms. *)
From Coq Require Import Reals ZArith List.
From Flocq Require Import IEEE754.BinarySingleNaN.
From Verif Require Import MBase MPoly MFft MIeee SpecFft SpecDouble SpecIeee SpecLog.
Import ListNotations.
Local Open Scope R_scope.

(** [f64::log2], for zero and numbers from 1 on: the logarithm of zero is minus infinity, the others are accurate to a relative error of 2^-52. *)
Definition accurate_log2 (lg : f64 -> f64) : Prop :=
  lg (B754_zero false) = B754_infinity true /\
  forall x, is_finite x = true -> 1 <= B2R x -> is_finite (lg x) = true /\ Rabs (B2R (lg x) - log2 (B2R x)) <= / 2 ^ 52 * log2 (B2R x).
(** It does not cross the logarithm of a power of two. *)
Definition ordered_log2 (lg : f64 -> f64) : Prop :=
  forall x (i : nat), (i <= 63)%nat -> is_finite x = true -> 1 <= B2R x -> (B2R x <= 2 ^ i -> B2R (lg x) <= INR i) /\ (2 ^ i <= B2R x -> INR i <= B2R (lg x)).
(** The correctly rounded logarithm. *)
Definition rounding_log2 (lg : f64 -> f64) : Prop :=
  lg (B754_zero false) = B754_infinity true /\ forall x, is_finite x = true -> 1 <= B2R x -> number (lg x) (rounded_log2 (B2R x)).
(** The mean of the base-2 logarithms of integers. *)
Definition mean_log2 (es : list Z) : R := fold_right Rplus 0 (map (fun e => log2 (IZR e)) es) / INR (length es).
