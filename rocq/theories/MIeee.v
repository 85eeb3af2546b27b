(** * Model of the Fourier domain on the numbers of type f64 themselves: IEEE 754 binary64 with signed zeros, infinities and NaN (Flocq's
    [binary_float 53 1024], all NaNs being one), every operation rounding to nearest, ties to even.  The functions are those of [MFft]
    (src/rlwe.rs:1076-1179, 783-913, and concrete-core's FFT backend), where an f64 was a real number and overflow was left out.  The plans of
    concrete-fft are replaced by a radix-2 transform; complex multiplication takes four products and two sums (concrete-core's fused variants are not modelled). *)
From Coq Require Import Reals ZArith.
From Flocq Require Import Core.FLX IEEE754.BinarySingleNaN.
From Verif Require Import MBase MPoly MFft.
Local Open Scope Z_scope.

#[global] Instance prec_gt_0_53 : Prec_gt_0 53 := eq_refl.
#[global] Instance prec_lt_emax_1024 : Prec_lt_emax 53 1024 := eq_refl.
Definition f64 := binary_float 53 1024.
Definition f_add : f64 -> f64 -> f64 := Bplus mode_NE.
Definition f_sub : f64 -> f64 -> f64 := Bminus mode_NE.
Definition f_mul : f64 -> f64 -> f64 := Bmult mode_NE.
(** [f64::round]: to the nearest integer, halves away from zero. *)
Definition f_round : f64 -> f64 := Bnearbyint mode_NA.
(** [x as f64] for an i64, and a power of two. *)
Definition f_of_int (x : Z) : f64 := binary_normalize 53 1024 _ _ mode_NE x 0 false.
Definition f_pow2 (e : Z) : f64 := binary_normalize 53 1024 _ _ mode_NE 1 e false.
(** [x as i64]: truncates and saturates; NaN gives 0. *)
Definition f_as_i64 (x : f64) : Z :=
  match x with
  | B754_nan => 0 | B754_zero _ => 0
  | B754_infinity s => if s then - 2 ^ 63 else 2 ^ 63 - 1
  | B754_finite _ _ _ _ => saturate (Btrunc x)
  end.
Definition f_zero : f64 := B754_zero false.

(** [c64] (src/num_types.rs:5) and its operators. *)
Definition c64 := (f64 * f64)%type.
Definition c_zero : c64 := (f_zero, f_zero).
Definition c_add (x y : c64) : c64 := (f_add (fst x) (fst y), f_add (snd x) (snd y)).
Definition c_sub (x y : c64) : c64 := (f_sub (fst x) (fst y), f_sub (snd x) (snd y)).
Definition c_mul (x y : c64) : c64 :=
  (f_sub (f_mul (fst x) (fst y)) (f_mul (snd x) (snd y)), f_add (f_mul (fst x) (snd y)) (f_mul (snd x) (fst y))).

(** The tables of a plan: twisting factors of a polynomial size, untwisting factors (with the factor 2/n), and the roots of unity
    e^(+-2 pi i r / (2h)) of the stage that joins two transforms of [h] points. *)
Record tables := { t_twist : nat -> nat -> c64; t_untwist : nat -> nat -> c64; t_forward : nat -> nat -> c64; t_backward : nat -> nat -> c64 }.
(** The radix-2 transform of 2^m points with the roots [w]. *)
Fixpoint c_radix2 (w : nat -> nat -> c64) (m : nat) (x : nat -> c64) (k : nat) : c64 :=
  match m with
  | O => x 0%nat
  | S m' =>
      let h := (2 ^ m')%nat in let r := (k mod h)%nat in
      let even := c_radix2 w m' (fun j => x (2 * j)%nat) r in
      let odd := c_radix2 w m' (fun j => x (2 * j + 1)%nat) r in
      let p := c_mul (w h r) odd in
      if (k <? h)%nat then c_add even p else c_sub even p
  end.

(** A word as an f64, as in [conv_integer] and [conv_torus] of [MFft]. *)
Definition f_integer (x : Z) : f64 := f_of_int (to_signed x).
Definition f_torus (x : Z) : f64 := f_mul (f_of_int (to_signed x)) (f_pow2 (-64)).
Definition c_forward (T : tables) (n : nat) (conv : Z -> f64) (p : poly) : nat -> c64 :=
  c_radix2 (t_forward T) (Nat.log2 (n / 2)) (fun j => c_mul (conv (nth j p 0), conv (nth (j + n / 2) p 0)) (t_twist T n j)).
Fixpoint c_accumulate (T : tables) (n : nat) (t : sum_tree) (ts : fourier) (k : nat) : c64 * fourier :=
  match t, ts with
  | SZero, _ => (c_zero, ts)
  | SProduct, (a, b) :: ts' => (c_mul (c_forward T n f_torus a k) (c_forward T n f_integer b k), ts')
  | SCopy, (a, _) :: ts' => (c_forward T n f_torus a k, ts')
  | SSum l r, _ => let (x, ts1) := c_accumulate T n l ts k in let (y, ts2) := c_accumulate T n r ts1 k in (c_add x y, ts2)
  | _, [] => (c_zero, [])
  end.
(** [u64::from_torus]. *)
Definition f_from_torus (x : f64) : Z :=
  let fract := f_sub x (f_round x) in
  wrap (f_as_i64 (f_round (f_mul fract (f_pow2 64)))).
(** Before the conversion to words: the inverse transform, untwisted. *)
Definition c_inverse (T : tables) (n : nat) (v : nat -> c64) (j : nat) : c64 :=
  c_mul (c_radix2 (t_backward T) (Nat.log2 (n / 2)) v j) (t_untwist T n j).
Definition c_backward (T : tables) (n : nat) (v : nat -> c64) : poly :=
  map (fun j => f_from_torus (fst (c_inverse T n v j))) (seq 0 (n / 2)) ++ map (fun j => f_from_torus (snd (c_inverse T n v j))) (seq 0 (n / 2)).
Definition ieee_fft (T : tables) (shape : fourier -> sum_tree) (n : nat) : fftT :=
  fun ts => c_backward T n (fun k => fst (c_accumulate T n (shape ts) ts k)).
