(** * Model of the Fourier domain on IEEE numbers with fused multiply-add: the functions of [MIeee] (src/rlwe.rs:1076-1179, 783-913, and
    concrete-core's FFT backend), where complex multiplication may fuse one product of each part with the addition, as processors
    with fused multiply-add do. *)
From Coq Require Import Reals ZArith.
From Flocq Require Import IEEE754.BinarySingleNaN.
From Verif Require Import MBase MPoly MFft MIeee.
Local Open Scope Z_scope.

(** x * y + z, rounded once. *)
Definition f_fma : f64 -> f64 -> f64 -> f64 := Bfma mode_NE.
(** How (a + b i) (c + d i) = (a c - b d) + (a d + b c) i is computed: all four products rounded, or the first or the second product of each
    part fused with the sum. *)
Inductive mul_kind := Separate | FuseFirst | FuseSecond.
Definition c_mul_of (kd : mul_kind) (x y : c64) : c64 :=
  let (a, b) := x in let (c, d) := y in
  match kd with
  | Separate => (f_sub (f_mul a c) (f_mul b d), f_add (f_mul a d) (f_mul b c))
  | FuseFirst => (f_fma a c (Bopp (f_mul b d)), f_fma a d (f_mul b c))
  | FuseSecond => (f_fma (Bopp b) d (f_mul a c), f_fma b c (f_mul a d))
  end.
(** As [c_radix2], [c_forward], [c_accumulate], [c_inverse], [c_backward] and [ieee_fft] of [MIeee]. *)
Fixpoint k_radix2 (kd : mul_kind) (w : nat -> nat -> c64) (m : nat) (x : nat -> c64) (k : nat) : c64 :=
  match m with
  | O => x 0%nat
  | S m' =>
      let h := (2 ^ m')%nat in let r := (k mod h)%nat in
      let even := k_radix2 kd w m' (fun j => x (2 * j)%nat) r in
      let odd := k_radix2 kd w m' (fun j => x (2 * j + 1)%nat) r in
      let p := c_mul_of kd (w h r) odd in
      if (k <? h)%nat then c_add even p else c_sub even p
  end.
Definition k_forward (kd : mul_kind) (T : tables) (n : nat) (conv : Z -> f64) (p : poly) : nat -> c64 :=
  k_radix2 kd (t_forward T) (Nat.log2 (n / 2)) (fun j => c_mul_of kd (conv (nth j p 0), conv (nth (j + n / 2) p 0)) (t_twist T n j)).
Fixpoint k_accumulate (kd : mul_kind) (T : tables) (n : nat) (t : sum_tree) (ts : fourier) (k : nat) : c64 * fourier :=
  match t, ts with
  | SZero, _ => (c_zero, ts)
  | SProduct, (a, b) :: ts' => (c_mul_of kd (k_forward kd T n f_torus a k) (k_forward kd T n f_integer b k), ts')
  | SCopy, (a, _) :: ts' => (k_forward kd T n f_torus a k, ts')
  | SSum l r, _ => let (x, ts1) := k_accumulate kd T n l ts k in let (y, ts2) := k_accumulate kd T n r ts1 k in (c_add x y, ts2)
  | _, [] => (c_zero, [])
  end.
Definition k_inverse (kd : mul_kind) (T : tables) (n : nat) (v : nat -> c64) (j : nat) : c64 :=
  c_mul_of kd (k_radix2 kd (t_backward T) (Nat.log2 (n / 2)) v j) (t_untwist T n j).
Definition k_backward (kd : mul_kind) (T : tables) (n : nat) (v : nat -> c64) : poly :=
  map (fun j => f_from_torus (fst (k_inverse kd T n v j))) (seq 0 (n / 2)) ++ map (fun j => f_from_torus (snd (k_inverse kd T n v j))) (seq 0 (n / 2)).
Definition ieee_fft_of (kd : mul_kind) (T : tables) (shape : fourier -> sum_tree) (n : nat) : fftT :=
  fun ts => k_backward kd T n (fun k => fst (k_accumulate kd T n (shape ts) ts k)).
