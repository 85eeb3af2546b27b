(** * Specification vocabulary for C96: tables computed with the sine and cosine of a mathematical library.  (The tables of the program are computed by
    concrete-core and concrete-fft, which are not modelled; this is the textbook computation.) *)
From Coq Require Import Reals ZArith.
From Flocq Require Import IEEE754.BinarySingleNaN.
From Verif Require Import MBase MPoly MFft MIeee MIeee2 SpecFft SpecIeee2.
Local Open Scope R_scope.

(** [f64::sin_cos] (cosine first): numbers within 2^-52 of the cosine and the sine, for angles up to 4. *)
Definition good_sin_cos (sc : f64 -> c64) : Prop := forall x, is_finite x = true -> Rabs (B2R x) <= 4 ->
  finite (sc x) /\ Rabs (B2R (fst (sc x)) - cos (B2R x)) <= / 2 ^ 52 /\ Rabs (B2R (snd (sc x)) - sin (B2R x)) <= / 2 ^ 52.
Definition f_div : f64 -> f64 -> f64 := Bdiv mode_NE.
(** [std::f64::consts::PI] = 3.141592653589793115997963468544185161590576171875. *)
Definition f_pi : f64 := binary_normalize 53 1024 _ _ mode_NE 884279719003555 (-48) false.
(** The angle pi j / n, computed as [j as f64 * (PI / n as f64)]. *)
Definition angle (n j : nat) : f64 := f_mul (f_of_int (Z.of_nat j)) (f_div f_pi (f_of_int (Z.of_nat n))).
Definition c_conj (z : c64) : c64 := (fst z, Bopp (snd z)).
Definition c_scale (h : nat) (z : c64) : c64 := let s := f_div (f_of_int 1) (f_of_int (Z.of_nat h)) in (f_mul (fst z) s, f_mul (snd z) s).
Definition computed_tables (sc : f64 -> c64) : tables := {|
  t_twist n j := sc (angle n j); t_untwist n j := c_scale (n / 2) (c_conj (sc (angle n j)));
  t_forward h r := c_conj (sc (angle h r)); t_backward h r := sc (angle h r) |}.
