(** * Specification: the ring Z_q[X]/(X^n+1) and distances in it.

    Nothing here models code.  A polynomial is a function from exponents to integers; only the
    exponents below [n] matter and coefficients are compared modulo [q = 2^64]. *)
From Verif Require Import MBase.
Local Open Scope Z_scope.

(** Congruence modulo 2^64. *)
Definition eqm (a b : Z) : Prop := a mod q = b mod q.

(** Distance of [x] to 0 on the circle of integers modulo 2^64. *)
Definition nrm (x : Z) : Z := Z.min (x mod q) (q - x mod q).

(** [sumf m f] = f 0 + ... + f (m-1). *)
Fixpoint sumf (m : nat) (f : nat -> Z) : Z :=
  match m with O => 0 | S m' => sumf m' f + f m' end.

Definition P : Type := nat -> Z.

(** (-1)^t, the value of X^(n*t). *)
Definition sg (t : nat) : Z := if Nat.even t then 1 else -1.
(** Coefficients of X^m modulo X^n+1:  X^m = (-1)^(m/n) X^(m mod n). *)
Definition mono (n m : nat) : P := fun k => if (m mod n =? k)%nat then sg (m / n) else 0.
(** Equality in Z_q[X]/(X^n+1). *)
Definition peq (n : nat) (f g : P) : Prop := forall k, (k < n)%nat -> eqm (f k) (g k).
Definition padd (f g : P) : P := fun k => f k + g k.
Definition psub (f g : P) : P := fun k => f k - g k.
Definition popp (f : P) : P := fun k => - f k.
(** (sum f_i X^i) * (sum g_j X^j) = sum f_i g_j X^(i+j). *)
Definition pmul (n : nat) (f g : P) : P :=
  fun k => sumf n (fun i => sumf n (fun j => f i * g j * mono n (i + j) k)).
Definition pzero : P := fun _ => 0.
(** The constant polynomial c. *)
Definition pcst (c : Z) : P := fun k => match k with O => c | S _ => 0 end.
(** f(X^k) = sum f_i X^(i*k). *)
Definition psubst (n k : nat) (f : P) : P := fun j => sumf n (fun i => f i * mono n (i * k) j).

(** Every coefficient of [f] is within [B] of 0 modulo q. *)
Definition bd (n : nat) (f : P) (B : Z) : Prop := forall k, (k < n)%nat -> nrm (f k) <= B.
(** [f] and [g] differ by at most [B] in every coefficient, modulo q. *)
Definition near (n : nat) (f g : P) (B : Z) : Prop := bd n (psub f g) B.
(** The sum of the absolute values of the centred coefficients of [f] is at most [S]. *)
Definition l1 (n : nat) (f : P) (S : Z) : Prop := sumf n (fun k => nrm (f k)) <= S.

(** The polynomial with coefficient list [p]. *)
Definition tof (p : list Z) : P := fun k => nth k p 0.

(** A polynomial as the code stores it: [n] coefficients, each a 64-bit word. *)
Definition wfp (n : nat) (p : list Z) : Prop := length p = n /\ Forall is_word p.
