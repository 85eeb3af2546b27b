(** * Specification vocabulary for C92: floating-point numbers that stand for reals. *)
From Coq Require Import Reals ZArith.
From Flocq Require Import Core.Generic_fmt Core.Round_NE IEEE754.BinarySingleNaN.
From Verif Require Import MBase MPoly MFft MIeee SpecFft SpecDouble.
Local Open Scope R_scope.

(** [x] is a number (no infinity, no NaN), namely the real [r]. *)
Definition number (x : f64) (r : R) : Prop := is_finite x = true /\ B2R x = r.
(** [z] is the complex number [w] rounded part by part. *)
Definition rounds (z : c64) (w : cplx) : Prop := number (fst z) (binary64 (fst w)) /\ number (snd z) (binary64 (snd w)).
(** The tables for polynomials of [n] coefficients hold the correctly rounded factors and roots of unity. *)
Definition rounded_tables (T : tables) (n : nat) : Prop :=
  (forall j, (j < n / 2)%nat -> rounds (t_twist T n j) (cis (PI * INR j / INR n))) /\
  (forall j, (j < n / 2)%nat -> rounds (t_untwist T n j) (Cmul (/ INR (n / 2), 0) (cis (- (PI * INR j / INR n))))) /\
  (forall h r, (r < h < n)%nat -> rounds (t_forward T h r) (cis (- (2 * PI * INR r / INR (2 * h))))) /\
  (forall h r, (r < h < n)%nat -> rounds (t_backward T h r) (cis (2 * PI * INR r / INR (2 * h)))).
(** The most additions a product goes through. *)
Fixpoint sum_depth (t : sum_tree) : nat := match t with SSum l r => S (Nat.max (sum_depth l) (sum_depth r)) | _ => O end.
(** The machine of C82 (arithmetic on reals with rounding, no overflow), halves rounded away from zero. *)
Definition real_machine : float_ops := {|
  fl_round := fl_round (machine binary64); fl_rint := ZnearestA; fl_mul := fl_mul (machine binary64); fl_add := fl_add (machine binary64);
  fl_twist := fl_twist (machine binary64); fl_untwist := fl_untwist (machine binary64);
  fl_forward := fl_forward (machine binary64); fl_backward := fl_backward (machine binary64) |}.
