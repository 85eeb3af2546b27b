(** * Specification vocabulary for the Fourier domain: complex numbers over the reals of the standard library,
    exact discrete Fourier transforms, norms, and what it means for floating-point operations to be accurate. *)
From Coq Require Import Reals.
From Verif Require Import MBase MPoly SpecRing SpecLwe MFft.
Local Open Scope R_scope.

(** [sumR m f] = f 0 + ... + f (m-1), and the same for complex numbers. *)
Fixpoint sumR (m : nat) (f : nat -> R) : R := match m with O => 0 | S m' => sumR m' f + f m' end.
Fixpoint sumC (m : nat) (f : nat -> cplx) : cplx := match m with O => C0 | S m' => Cadd (sumC m' f) (f m') end.

(** Modulus and Euclidean norm of a vector of [m] complex numbers. *)
Definition Cabs (z : cplx) : R := sqrt (fst z * fst z + snd z * snd z).
Definition norm2 (m : nat) (x : nat -> cplx) : R := sqrt (sumR m (fun j => Cabs (x j) * Cabs (x j))).

(** e^(i t). *)
Definition cis (t : R) : cplx := (cos t, sin t).
(** The discrete Fourier transform of [h] points, and the unnormalised inverse. *)
Definition dft (h : nat) (x : nat -> cplx) (k : nat) : cplx :=
  sumC h (fun j => Cmul (x j) (cis (- (2 * PI * INR (j * k) / INR h)))).
Definition idft (h : nat) (v : nat -> cplx) (j : nat) : cplx :=
  sumC h (fun k => Cmul (v k) (cis (2 * PI * INR (j * k) / INR h))).

(** A vector with [t] added to all moduli. *)
Definition padded (t : R) (x : nat -> cplx) (j : nat) : cplx := (Cabs (x j) + t, 0).

(** Accuracy of the operations of [fl] for polynomials of [n] coefficients: rounding, addition and
    subtraction have a relative error of at most [u], complex multiplication of at most [nu], down to numbers as
    small as [t] (below, the error does not shrink any more: underflow); the tables hold the roots of unity
    up to [w]; the transforms of [n/2] points are accurate to [phi] relative to the norm (forward)
    and to the sum (backward) of their input.  (No overflow.) *)
Definition accurate (fl : float_ops) (n : nat) (u nu w phi t : R) : Prop :=
  let h := (n / 2)%nat in
  (forall x, Rabs (fl_round fl x - x) <= u * (Rabs x + t)) /\
  (forall x, Rabs (IZR (fl_rint fl x) - x) <= / 2) /\
  (forall x y, Cabs (Csub (fl_mul fl x y) (Cmul x y)) <= nu * (Cabs x * Cabs y + t)) /\
  (forall x y, Cabs (Csub (fl_add fl x y) (Cadd x y)) <= u * (Cabs (Cadd x y) + t)) /\
  fl_add fl C0 C0 = C0 /\
  (forall j, (j < h)%nat -> Cabs (Csub (fl_twist fl n j) (cis (PI * INR j / INR n))) <= w) /\
  (forall j, (j < h)%nat -> Cabs (Csub (fl_untwist fl n j) (Cmul (/ INR h, 0) (cis (- (PI * INR j / INR n))))) <= w / INR h) /\
  (forall x, norm2 h (fun k => Csub (fl_forward fl h x k) (dft h x k)) <= phi * (sqrt (INR h) * norm2 h (padded t x))) /\
  (forall x j, (j < h)%nat -> Cabs (Csub (fl_backward fl h x j) (idft h x j)) <= phi * sumR h (fun k => Cabs (x k) + t)).

(** The relative error of a sum of products in the Fourier domain, when each result goes through at most
    [d] additions. *)
Definition product_error (u nu w phi : R) (d : nat) : R :=
  (1 + phi) ^ 3 * (1 + u) ^ (4 + d) * ((1 + nu) ^ 4 * (1 + w) ^ 3) - 1.
(** The error of a coefficient in units of 2^-64, for at most [L] products with integer operands up to [D]. *)
Definition coefficient_error (n : nat) (D : Z) (L : nat) (u nu w phi t : R) (d : nat) : R :=
  (1 + 4 * t) ^ 2 * (2 ^ 63 * (INR L * INR n * IZR D) * product_error u nu w phi d + 2 ^ 63 * ((1 + u) ^ 2 - 1)) + 3 / 2.

(** [t] accumulates exactly the products [ts], each through at most [d] additions; a polynomial is only copied
    where its factor is 1. *)
Inductive sums (n : nat) : sum_tree -> fourier -> nat -> Prop :=
| Sums_zero d : sums n SZero [] d
| Sums_product ab d : sums n SProduct [ab] d
| Sums_copy a d : sums n SCopy [torus_term n a] d
| Sums_sum l r ts1 ts2 d : sums n l ts1 d -> sums n r ts2 d -> sums n (SSum l r) (ts1 ++ ts2) (S d).

(** ** Ordinary floating-point arithmetic, without overflow: [rnd] rounds a real with a relative error of
    at most [u], down to the smallest normal number [t]; below, the error is at most [u * t]; zero stays zero.  (For f64,
    u = 2^-53 and t = 2^-1022.) *)
Definition rounding (rnd : R -> R) (u t : R) : Prop := rnd 0 = 0 /\ forall x, Rabs (rnd x - x) <= u * Rmax (Rabs x) t.
(** Complex numbers are rounded part by part; a product takes four products and two sums of reals. *)
Definition rpair (rnd : R -> R) (z : cplx) : cplx := (rnd (fst z), rnd (snd z)).
Definition rmul (rnd : R -> R) (x y : cplx) : cplx :=
  (rnd (rnd (fst x * fst y) - rnd (snd x * snd y)), rnd (rnd (fst x * snd y) + rnd (snd x * fst y))).
(** The radix-2 fast Fourier transform of 2^m points; [s] is the sign of the exponent. *)
Fixpoint radix2 (rnd : R -> R) (s : R) (m : nat) (x : nat -> cplx) (k : nat) : cplx :=
  match m with
  | O => x 0%nat
  | S m' =>
      let h := (2 ^ m')%nat in let r := (k mod h)%nat in
      let even := radix2 rnd s m' (fun j => x (2 * j)%nat) r in
      let odd := radix2 rnd s m' (fun j => x (2 * j + 1)%nat) r in
      let p := rmul rnd (rpair rnd (cis (s * (2 * PI * INR r / INR (2 * h))))) odd in
      if (k <? h)%nat then rpair rnd (Cadd even p) else rpair rnd (Csub even p)
  end.
(** The operations made of these; the tables are correctly rounded. *)
Definition machine (rnd : R -> R) : float_ops := {|
  fl_round := rnd; fl_rint x := Int_part (x + / 2); fl_mul := rmul rnd; fl_add x y := rpair rnd (Cadd x y);
  fl_twist n j := rpair rnd (cis (PI * INR j / INR n));
  fl_untwist n j := rpair rnd (Cmul (/ INR (n / 2), 0) (cis (- (PI * INR j / INR n))));
  fl_forward h := radix2 rnd (-1) (Nat.log2 h); fl_backward h := radix2 rnd 1 (Nat.log2 h) |}.
(** The products one after the other, as [+=] adds them up. *)
Definition one_by_one (ts : fourier) : sum_tree := fold_left (fun acc _ => SSum acc SProduct) ts SZero.
(** What double precision (u = 2^-53) guarantees for polynomials of 2^(m+1) coefficients and at most [L] products
    with integer operands up to [D], in units of 2^-64. *)
Definition double_error (m : nat) (D : Z) (L : nat) : Z :=
  (1152 * (Z.of_nat L * 2 ^ (Z.of_nat m + 1) * D * (15 * Z.of_nat m + 19 + Z.of_nat L)) + 2306)%Z.
