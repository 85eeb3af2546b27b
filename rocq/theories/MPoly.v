(** * Polynomials, signed decomposition and the FFT as used by Panacea (concrete-core 1.0).

    concrete-core is not in the sandbox; this file states the documented behaviour of the parts of
    it that Panacea calls.  A polynomial is the list of its [n] coefficients, constant term first. *)
From Verif Require Import MBase.
Local Open Scope Z_scope.

Definition poly := list Z.

(** Coefficientwise binary operation on tensors of equal length. *)
Fixpoint map2 {A B C} (f : A -> B -> C) (a : list A) (b : list B) : list C :=
  match a, b with x :: a', y :: b' => f x y :: map2 f a' b' | _, _ => [] end.

(** [update_with_wrapping_add] / [update_with_wrapping_sub] (used e.g. in src/rlwe.rs:86-103). *)
Definition poly_add (a b : poly) : poly := map2 wadd a b.
Definition poly_sub (a b : poly) : poly := map2 wsub a b.
(** [0.wrapping_sub(x)] on every coefficient (e.g. src/rlwe.rs:284-286). *)
Definition poly_neg (a : poly) : poly := map (fun x => wsub 0 x) a.
(** [Polynomial::allocate(0, n)]. *)
Definition poly_zero (n : nat) : poly := repeat 0 n.
(** All coefficients 0 except the [d]-th, which is [c]. *)
Definition poly_mono (n d : nat) (c : Z) : poly := map (fun k => if (k =? d)%nat then c else 0) (seq 0 n).

Definition sum_list (l : list Z) : Z := fold_right Z.add 0 l.

(** [Polynomial::fill_with_wrapping_mul]: schoolbook product modulo X^n+1. *)
Definition poly_mul (n : nat) (a b : poly) : poly :=
  map (fun k => wrap (sum_list (map (fun i =>
         if (i <=? k)%nat then nth i a 0 * nth (k - i) b 0
         else - (nth i a 0 * nth (n + k - i) b 0)) (seq 0 n)))) (seq 0 n).

(** [Polynomial::update_with_wrapping_unit_monomial_div(MonomialDegree(m))]: negate everything for
    every full cycle of n, rotate left by [m mod n], negate the coefficients that wrapped. *)
Definition monomial_div (p : poly) (m : nat) : poly :=
  let n := length p in
  let p1 := if Nat.even (m / n) then p else poly_neg p in
  let r := (m mod n)%nat in
  skipn r p1 ++ poly_neg (firstn r p1).

(** ** Signed decomposition *)

(** [SignedDecomposer::closest_representable] for [1 <= base_log * level < 64] (concrete-core
    [debug_assert]s that the product is at most 64; with 64 its shift by [non_rep - 1] underflows). *)
Definition closest (base_log level : nat) (x : Z) : Z :=
  let nr := 64 - Z.of_nat (base_log * level) in
  let msb := (x / 2 ^ (nr - 1)) mod 2 in
  wrap ((x / 2 ^ nr + msb) * 2 ^ nr).

(** concrete-core's [decompose_one_level]: the next digit (a word, two's complement) and state. *)
Definition decompose_one_level (base_log : nat) (state : Z) : Z * Z :=
  let B := Z.of_nat base_log in
  let r := Z.land state (2 ^ B - 1) in
  let st := state / 2 ^ B in
  let carry := Z.land (Z.lor (wsub r 1) st) r / 2 ^ (B - 1) in
  (wsub r (wrap (carry * 2 ^ B)), st + carry).

(** [SignedDecompositionIter]: the digits for levels [level], [level - 1], .., 1. *)
Fixpoint decompose_state (base_log level : nat) (state : Z) : list Z :=
  match level with
  | O => []
  | S level' => let (d, st) := decompose_one_level base_log state in
                d :: decompose_state base_log level' st
  end.
(** [SignedDecomposer::decompose] (it rounds to the closest representable value first). *)
Definition decompose (base_log level : nat) (x : Z) : list Z :=
  decompose_state base_log level (closest base_log level x / 2 ^ (64 - Z.of_nat (base_log * level))).

(** [decompose_tensor] / the lending iterator of the FFT backend: the digit polynomials, again from
    level [level] down to 1. *)
Definition decompose_poly (base_log level : nat) (p : poly) : list poly :=
  map (fun i => map (fun x => nth i (decompose base_log level x) 0) p) (seq 0 level).

(** ** FFT

    Panacea multiplies polynomials by converting a "torus" polynomial [a] ([forward_as_torus]) and
    an "integer" polynomial [b] ([forward_as_integer], coefficients read as signed) to the Fourier
    domain, accumulating products there in f64 and converting back with rounding
    ([backward_as_torus]).  An element of the Fourier domain is modelled by the formal list of the
    products (a, b) accumulated in it; converting it back is an arbitrary function [fft] of that list. *)
Definition fourier := list (poly * poly).
Definition fftT := fourier -> poly.
(** The Fourier image of a torus polynomial alone: the product with 1. *)
Definition torus_term (n : nat) (p : poly) : poly * poly := (p, poly_mono n 0 1).
(** [add_backward_as_torus(out, f)]. *)
Definition add_backward (fft : fftT) (out : poly) (f : fourier) : poly := poly_add out (fft f).
