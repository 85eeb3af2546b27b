(** * Multiplication of polynomials of which either factor may be the small one. *)
From Coq Require Import ZArith List.
From Verif Require Import MBase MPoly MRlwe SpecRing SpecLwe.
Local Open Scope Z_scope.

(** [fft] computes every sum of at most [L] products, each with one operand whose coefficients are at most [D] in absolute value, up to [eps] per coefficient
    ([fft_ok] of SpecLwe asks for the second operand to be small). *)
Definition either_fft_ok (n : nat) (fft : fftT) (D : Z) (L : nat) (eps : Z) : Prop :=
  forall ts, (length ts <= L)%nat ->
    Forall (fun ab => wfp n (fst ab) /\ wfp n (snd ab) /\ (sbound D (fst ab) \/ sbound D (snd ab))) ts ->
    wfp n (fft ts) /\ near n (tof (fft ts)) (fexact n ts) eps.
