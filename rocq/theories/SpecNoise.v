(** * Specification vocabulary for the noise generator. *)
From Coq Require Import Reals.
From Verif Require Import MBase MPoly MRlwe MFft MNoise SpecRing SpecLwe SpecFft.
Local Open Scope R_scope.

(** Floating-point arithmetic and a logarithm with relative errors of at most 2^-10 (f64: 2^-53, and
    2^-52 for the logarithm); results below 2^-1022 may underflow, but keep their sign. *)
Definition noise_arithmetic (fl : float_ops) (lnf : R -> R) : Prop :=
  rounding (fl_round fl) (/ 2 ^ 10) (/ 2 ^ 1022) /\ (forall x, 0 <= x -> 0 <= fl_round fl x) /\
  (forall x, Rabs (IZR (fl_rint fl x) - x) <= / 2) /\
  (forall x, 0 < x -> Rabs (lnf x - ln x) <= / 2 ^ 10 * Rabs (ln x)).
(** A noise polynomial of [n] coefficients that the generator can return. *)
Definition generated (fl : float_ops) (lnf : R -> R) (std : R) (n : nat) (e : poly) : Prop :=
  exists fuel w w', (forall i, (0 <= fst (w i) < q)%Z /\ (0 <= snd (w i) < q)%Z) /\ fill_noise fl lnf std fuel n w = Some (e, w').
(** A tape whose masks are arbitrary words and whose noise comes from the generator. *)
Definition sampled (fl : float_ops) (lnf : R -> R) (std : R) (n : nat) (t : tape) : Prop :=
  forall i, wfp n (d_mask (t i)) /\ generated fl lnf std n (d_noise (t i)).
