(** * Model of the Fourier domain: what [fftT] of [MPoly] stands for.
    The functions of src/rlwe.rs:1076-1179 and 783-913 and of concrete-core's FFT backend that they and
    [external_product] call, on the reals: an f64 is a real number, its operations are functions given as
    arguments ([float_ops]).  Overflow, infinities and NaN are outside the model (the exact values are below 2^40). *)
From Coq Require Import Reals.
From Verif Require Import MBase MPoly.
Local Open Scope R_scope.

(** [c64] of concrete-core (src/num_types.rs:5): real and imaginary part. *)
Definition cplx := (R * R)%type.
Definition C0 : cplx := (0, 0).
Definition Cadd (x y : cplx) : cplx := (fst x + fst y, snd x + snd y).
Definition Csub (x y : cplx) : cplx := (fst x - fst y, snd x - snd y).
Definition Cmul (x y : cplx) : cplx := (fst x * fst y - snd x * snd y, fst x * snd y + snd x * fst y).

(** The operations of the machine: rounding of a real to an f64, [f64::round], the operators [*] and [+]
    of [c64], the tables of twisting factors (concrete-core's [Twisties]; [fl_untwist] with the factor
    2/n of the inverse), and the plans of concrete-fft, whose order of the frequencies is not modelled (it
    is the same in both directions). *)
Record float_ops := {
  fl_round : R -> R; fl_rint : R -> Z; fl_mul : cplx -> cplx -> cplx; fl_add : cplx -> cplx -> cplx;
  fl_twist : nat -> nat -> cplx; fl_untwist : nat -> nat -> cplx;
  fl_forward : nat -> (nat -> cplx) -> nat -> cplx; fl_backward : nat -> (nat -> cplx) -> nat -> cplx }.

(** A word as an f64: read as signed, rounded; for a torus element scaled by 2^-64. *)
Definition conv_integer (fl : float_ops) (x : Z) : R := fl_round fl (IZR (to_signed x)).
Definition conv_torus (fl : float_ops) (x : Z) : R := fl_round fl (fl_round fl (IZR (to_signed x)) * / 2 ^ 64).
(** [forward_as_torus], [forward_as_integer]: coefficients [j] and [j + n/2] make one complex number, which is
    twisted; then a transform of [n/2] points. *)
Definition fold_twist (fl : float_ops) (n : nat) (conv : Z -> R) (p : poly) (j : nat) : cplx :=
  fl_mul fl (conv (nth j p 0%Z), conv (nth (j + n / 2) p 0%Z)) (fl_twist fl n j).
Definition forward_as_torus (fl : float_ops) (n : nat) (p : poly) : nat -> cplx :=
  fl_forward fl (n / 2) (fold_twist fl n (conv_torus fl) p).
Definition forward_as_integer (fl : float_ops) (n : nat) (p : poly) : nat -> cplx :=
  fl_forward fl (n / 2) (fold_twist fl n (conv_integer fl) p).

(** How a sum of products is accumulated: zero (freshly allocated buffers), the next product ([*o = f1 * f2],
    src/rlwe.rs:1164 and 1177), the next torus polynomial as it is ([*c = *b], src/rlwe.rs:823), a sum ([+=] and
    [+], 1164 and 1177). *)
Inductive sum_tree := SZero | SProduct | SCopy | SSum (l r : sum_tree).
(** Frequency [k] of the accumulated value; the products are taken from [ts] from left to right. *)
Fixpoint accumulate (fl : float_ops) (n : nat) (t : sum_tree) (ts : fourier) (k : nat) : cplx * fourier :=
  match t, ts with
  | SZero, _ => (C0, ts)
  | SProduct, (a, b) :: ts' => (fl_mul fl (forward_as_torus fl n a k) (forward_as_integer fl n b k), ts')
  | SCopy, (a, _) :: ts' => (forward_as_torus fl n a k, ts')
  | SSum l r, _ => let (x, ts1) := accumulate fl n l ts k in let (y, ts2) := accumulate fl n r ts1 k in (fl_add fl x y, ts2)
  | _, [] => (C0, [])
  end.

(** [u64::from_torus] of concrete-core: the fractional part, scaled by 2^64, rounded, cast to i64 (which
    saturates) and to u64. *)
Definition saturate (x : Z) : Z := (Z.max (- 2 ^ 63) (Z.min (2 ^ 63 - 1) x))%Z.
Definition from_torus (fl : float_ops) (x : R) : Z :=
  let fract := fl_round fl (x - IZR (fl_rint fl x)) in
  wrap (saturate (fl_rint fl (fl_round fl (fract * 2 ^ 64)))).
(** [backward_as_torus]: the inverse transform, untwisted and unfolded. *)
Definition backward_as_torus (fl : float_ops) (n : nat) (v : nat -> cplx) : poly :=
  let y j := fl_mul fl (fl_backward fl (n / 2) v j) (fl_untwist fl n j) in
  map (fun j => from_torus fl (fst (y j))) (seq 0 (n / 2)) ++ map (fun j => from_torus fl (snd (y j))) (seq 0 (n / 2)).

(** The whole computation.  [shape ts] is the order in which the products [ts] are accumulated. *)
Definition float_fft (fl : float_ops) (shape : fourier -> sum_tree) (n : nat) : fftT :=
  fun ts => backward_as_torus fl n (fun k => fst (accumulate fl n (shape ts) ts k)).
